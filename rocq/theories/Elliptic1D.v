(** Elliptic1D.v -- on an interval, continuous piecewise polynomials are controlled by
    their second derivative inside the cells, the jumps of the first derivative and
    the two boundary values. *)
From Coq Require Import Reals List ZArith Lra Lia Bool.
From Coquelicot Require Import Coquelicot.
From Verif Require Import Base TimeModel TimeSpec TimeProofs FormModel FormSpec FormProofs FormSym FormTime Injective Stability Space1D NoData.
Import ListNotations.
Open Scope R_scope.

Lemma cs_int (f : R -> R) a b : a < b -> (forall x, continuous f x) -> RInt f a b ^ 2 <= (b - a) * RInt (fun x => f x * f x) a b.
Proof.
  intros Hab Hc. set (m := RInt f a b / (b - a)).
  assert (Ex : ex_RInt f a b) by (apply (ex_RInt_continuous (V := R_CompleteNormedModule)); intros; apply Hc).
  assert (Ex2 : ex_RInt (fun x => f x * f x) a b).
  { apply (ex_RInt_continuous (V := R_CompleteNormedModule)); intros. apply (continuous_mult (K := R_AbsRing)); apply Hc. }
  pose proof (RInt_correct (V := R_CompleteNormedModule) _ _ _ Ex) as I1.
  pose proof (RInt_correct (V := R_CompleteNormedModule) _ _ _ Ex2) as I2.
  set (i := RInt f a b) in *. set (i2 := RInt (fun x => f x * f x) a b) in *.
  assert (I : is_RInt (fun x => (f x - m) * (f x - m)) a b (i2 + (-2 * m) * i + (b - a) * (m * m))).
  { apply (is_RInt_ext (V := R_NormedModule) (fun x => f x * f x + (-2 * m) * f x + m * m)).
    - intros x _. match goal with |- ?u = ?v => change (@eq R u v) end. ring.
    - apply (is_RInt_plus (V := R_NormedModule)); [apply (is_RInt_plus (V := R_NormedModule))|].
      + exact I2.
      + apply (is_RInt_scal (V := R_NormedModule)). exact I1.
      + apply (is_RInt_const (V := R_NormedModule)). }
  assert (Pos : 0 <= i2 + (-2 * m) * i + (b - a) * (m * m)).
  { apply (is_RInt_le (fun _ => 0) (fun x => (f x - m) * (f x - m)) a b); [lra| |exact I|intros; apply Rle_0_sqr].
    apply is_RInt_eq with (I := (b - a) * 0); [exact (is_RInt_const (V := R_NormedModule) a b 0)|ring]. }
  assert (E : (b - a) * (i2 + -2 * m * i + (b - a) * (m * m)) = (b - a) * i2 - i ^ 2) by (unfold m; field; lra).
  pose proof (Rmult_le_pos (b - a) _ ltac:(lra) Pos). lra.
Qed.
Lemma sum_sq n f : (sumn n f) ^ 2 <= INR n * sumn n (fun i => f i ^ 2).
Proof.
  induction n as [|n IH]; [cbn [seq]; rewrite !Rsum_nil; cbn; lra|]. rewrite !sumn_S, S_INR. set (s := sumn n f) in *. set (q := sumn n (fun i => f i ^ 2)) in *.
  assert (Q : 0 <= q) by (apply Rsum_nonneg; intros; apply pow2_ge_0). pose proof (pos_INR n) as Hn.
  destruct (Req_dec (INR n) 0) as [Z|Z].
  - rewrite Z in *. assert (s = 0) by nra. nra.
  - assert (Hp : 0 < INR n) by lra.
    assert (C : 2 * s * f n <= q + INR n * f n ^ 2).
    { pose proof (pow2_ge_0 (s - INR n * f n)) as S1. apply (Rmult_le_reg_l (INR n)); [exact Hp|]. nra. }
    nra.
Qed.
Lemma Rabs_sum n f : Rabs (sumn n f) <= sumn n (fun i => Rabs (f i)).
Proof. induction n as [|n IH]; [cbn [seq]; rewrite !Rsum_nil, Rabs_R0; lra|]. rewrite !sumn_S. pose proof (Rabs_triang (sumn n f) (f n)). lra. Qed.
Lemma sumn_le_n a b f : (a <= b)%nat -> (forall i, 0 <= f i) -> sumn a f <= sumn b f.
Proof. intros Hab Hf. induction Hab as [|b Hab IH]; [lra|]. rewrite sumn_S. pose proof (Hf b). lra. Qed.

Section Ell.
  Variables (n : nat) (xs : nat -> R) (kp kd : nat) (qp : list (R * R)).
  Hypothesis Hx : forall c, (c < n)%nat -> xs c < xs (S c).
  Hypothesis Hqp : qp <> [].
  Hypothesis Hn : (1 <= n)%nat.
  Hypothesis Hkp : (1 <= kp)%nat.
  Hypothesis Hkd : (1 <= kd)%nat.
  Notation D := (disc1 n xs kp kd qp).
  Notation len := (len xs).
  Variable d : nat.
  Hypothesis He : exact_rule qp d.
  Hypothesis Hd : (2 * kp <= d)%nat.
  Variable a : vec.
  Definition u (c : nat) : R -> R := on_cell xs kp kd Vp a c.
  Definition du (c : nat) : R -> R := Derive (u c).
  Definition ddu (c : nat) : R -> R := Derive (du c).
  Notation J v := (djump xs kp kd Vp a v).

  Lemma du_eq c x : (c < n)%nat -> du c x = peval (pdiff (loc kp kd Vp a c)) ((x - xs c) / len c) / len c.
  Proof. intro Hc. unfold du, u. apply (on_cell_Derive n); assumption. Qed.
  Lemma ddu_eq c x : (c < n)%nat -> ddu c x = peval (pdiff (pdiff (loc kp kd Vp a c))) ((x - xs c) / len c) / len c ^ 2.
  Proof. intro Hc. unfold ddu, du, u. apply (on_cell_Derive2 n); assumption. Qed.
  Lemma u_derive c x : (c < n)%nat -> is_derive (u c) x (du c x).
  Proof. intro Hc. rewrite du_eq by exact Hc. apply (on_cell_derive n); assumption. Qed.
  Lemma ex_lin (p : poly) e x0 l x : l <> 0 -> ex_derive (fun x => peval p ((x - x0) / l) / e) x.
  Proof.
    intro Hl. apply (ex_derive_ext (fun x => / e * peval p ((x - x0) / l))); [intro; apply Rmult_comm|].
    apply ex_derive_scal. apply (ex_derive_comp (peval p) (fun x => (x - x0) / l)); [eexists; apply is_derive_peval|].
    auto_derive. exact I || exact Hl.
  Qed.
  Lemma du_derive c x : (c < n)%nat -> is_derive (du c) x (ddu c x).
  Proof.
    intro Hc. apply Derive_correct. pose proof (len_pos n xs Hx c Hc).
    apply (ex_derive_ext (fun x => peval (pdiff (loc kp kd Vp a c)) ((x - xs c) / len c) / len c)); [intro t; symmetry; apply du_eq, Hc|].
    apply ex_lin. lra.
  Qed.
  Lemma ddu_cont c x : (c < n)%nat -> continuous (ddu c) x.
  Proof.
    intro Hc. pose proof (len_pos n xs Hx c Hc).
    apply (continuous_ext (fun x => peval (pdiff (pdiff (loc kp kd Vp a c))) ((x - xs c) / len c) / len c ^ 2)); [intro t; symmetry; apply ddu_eq, Hc|].
    apply (ex_derive_continuous (V := R_NormedModule)). apply ex_lin. lra.
  Qed.
  (** integral of the squared second derivative over a cell *)
  Definition i2 (c : nat) : R := RInt (fun x => ddu c x * ddu c x) (xs c) (xs (S c)).
  Definition gc (c : nat) : R := sqrt (len c * i2 c).
  Lemma ddu2_ex c x y : (c < n)%nat -> ex_RInt (fun x => ddu c x * ddu c x) x y.
  Proof.
    intro Hc. apply (ex_RInt_continuous (V := R_CompleteNormedModule)). intros t _.
    apply (continuous_mult (K := R_AbsRing)); apply ddu_cont, Hc.
  Qed.
  Lemma i2_nonneg c : (c < n)%nat -> 0 <= i2 c.
  Proof. intro Hc. pose proof (Hx c Hc). apply RInt_ge_0; [lra|apply ddu2_ex, Hc|intros; apply Rle_0_sqr]. Qed.
  Lemma du_osc c y : (c < n)%nat -> xs c <= y <= xs (S c) -> Rabs (du c y - du c (xs c)) <= gc c.
  Proof.
    intros Hc Hy. unfold gc. rewrite <- (sqrt_Rsqr_abs (du c y - du c (xs c))). apply sqrt_le_1_alt.
    pose proof (i2_nonneg c Hc) as Hi. pose proof (len_pos n xs Hx c Hc) as Hl. unfold Space1D.len in *.
    destruct (Req_dec y (xs c)) as [->|Hne]. { rewrite Rminus_eq_0, Rsqr_0. apply Rmult_le_pos; lra. }
    assert (E : RInt (ddu c) (xs c) y = du c y - du c (xs c)).
    { apply (is_RInt_unique (V := R_CompleteNormedModule)). apply (is_RInt_derive (V := R_CompleteNormedModule)).
      - intros t _. apply du_derive, Hc.
      - intros t _. apply ddu_cont, Hc. }
    pose proof (cs_int (ddu c) (xs c) y ltac:(lra) (fun x => ddu_cont c x Hc)) as CS. rewrite E in CS.
    assert (M : RInt (fun x => ddu c x * ddu c x) (xs c) y <= i2 c).
    { unfold i2. rewrite <- (RInt_Chasles (V := R_CompleteNormedModule) _ (xs c) y (xs (S c))) by (apply ddu2_ex, Hc).
      assert (0 <= RInt (fun x => ddu c x * ddu c x) y (xs (S c))) by (apply RInt_ge_0; [lra|apply ddu2_ex, Hc|intros; apply Rle_0_sqr]).
      match goal with |- ?p <= plus ?q ?r => change (p <= q + r) end. lra. }
    assert (0 <= RInt (fun x => ddu c x * ddu c x) (xs c) y) by (apply RInt_ge_0; [lra|apply ddu2_ex, Hc|intros; apply Rle_0_sqr]).
    unfold Rsqr. replace ((du c y - du c (xs c)) * (du c y - du c (xs c))) with ((du c y - du c (xs c)) ^ 2) by ring.
    apply (Rle_trans _ _ _ CS). apply Rmult_le_compat; lra.
  Qed.
  Lemma J_eq v : (1 <= v < n)%nat -> J v = du (v - 1) (xs v) - du v (xs v).
  Proof. intro Hv. reflexivity. Qed.
  Definition D0 : R := du 0 (xs 0%nat).
  Lemma du_start c : (c < n)%nat -> Rabs (du c (xs c) - D0) <= sumn c gc + sumn c (fun i => Rabs (J (S i))).
  Proof.
    induction c as [|c IH]; intro Hc.
    - unfold D0. rewrite Rminus_eq_0, Rabs_R0. cbn [seq]. rewrite !Rsum_nil. lra.
    - specialize (IH ltac:(lia)). rewrite !sumn_S. pose proof (Hx c ltac:(lia)).
      pose proof (du_osc c (xs (S c)) ltac:(lia) ltac:(lra)) as O.
      assert (E : du (S c) (xs (S c)) - D0 = (du c (xs (S c)) - du c (xs c)) + (du c (xs c) - D0) - J (S c)).
      { rewrite (J_eq (S c)) by lia. replace (S c - 1)%nat with c by lia. ring. }
      rewrite E. pose proof (Rabs_triang (du c (xs (S c)) - du c (xs c) + (du c (xs c) - D0)) (- J (S c))) as T1.
      pose proof (Rabs_triang (du c (xs (S c)) - du c (xs c)) (du c (xs c) - D0)) as T2. rewrite Rabs_Ropp in T1. unfold Rminus in *. lra.
  Qed.
  Definition V : R := sumn n gc + sumn (n - 1) (fun i => Rabs (J (S i))).
  Lemma V_nonneg : 0 <= V.
  Proof. unfold V. pose proof (Rsum_nonneg (seq 0 n) gc ltac:(intros; apply sqrt_pos)). pose proof (Rsum_nonneg (seq 0 (n - 1)) (fun i => Rabs (J (S i))) ltac:(intros; apply Rabs_pos)). lra. Qed.
  Lemma du_bound c y : (c < n)%nat -> xs c <= y <= xs (S c) -> Rabs (du c y - D0) <= V.
  Proof.
    intros Hc Hy. pose proof (du_osc c y Hc Hy) as O. pose proof (du_start c Hc) as DS0.
    replace (du c y - D0) with ((du c y - du c (xs c)) + (du c (xs c) - D0)) by ring.
    pose proof (Rabs_triang (du c y - du c (xs c)) (du c (xs c) - D0)) as T.
    pose proof (sumn_le_n (S c) n gc ltac:(lia) ltac:(intro; apply sqrt_pos)) as M1. rewrite sumn_S in M1.
    pose proof (sumn_le_n c (n - 1) (fun i => Rabs (J (S i))) ltac:(lia) ltac:(intro; apply Rabs_pos)) as M2. unfold V. lra.
  Qed.
  Lemma u_lin c y : (c < n)%nat -> xs c <= y <= xs (S c) -> Rabs (u c y - u c (xs c) - D0 * (y - xs c)) <= V * (y - xs c).
  Proof.
    intros Hc Hy. pose proof V_nonneg as HV.
    destruct (MVT_gen (fun t => u c t - D0 * t) (xs c) y (fun t => du c t - D0)) as [z [Hz E]].
    - intros t _. apply (is_derive_minus (V := R_NormedModule) (u c) (fun t => D0 * t)); [apply u_derive, Hc|]. auto_derive; [exact I|ring].
    - intros t _. apply continuity_pt_filterlim. apply (ex_derive_continuous (V := R_NormedModule) (fun t => u c t - D0 * t)).
      apply (ex_derive_minus (V := R_NormedModule) (u c) (fun t => D0 * t)); [eexists; apply u_derive, Hc|]. auto_derive. exact I.
    - rewrite Rmin_left, Rmax_right in Hz by lra. replace (u c y - u c (xs c) - D0 * (y - xs c)) with ((du c z - D0) * (y - xs c)) by (cbv beta in E; lra).
      rewrite Rabs_mult, (Rabs_right (y - xs c)) by lra. apply Rmult_le_compat_r; [lra|]. apply du_bound; [exact Hc|lra].
  Qed.
  Lemma u_left c : (c < n)%nat -> u c (xs c) = a (c * kp)%nat.
  Proof. intro Hc. unfold u. apply (at_left n xs kp kd); assumption. Qed.
  Lemma u_right c : (c < n)%nat -> u c (xs (S c)) = a (S c * kp)%nat.
  Proof. intro Hc. unfold u. apply (at_right n xs kp kd); assumption. Qed.
  Lemma nodes_lin c : (c <= n)%nat -> xs 0%nat <= xs c /\ Rabs (a (c * kp)%nat - a 0%nat - D0 * (xs c - xs 0%nat)) <= V * (xs c - xs 0%nat).
  Proof.
    induction c as [|c IH]; intro Hc.
    - split; [lra|]. cbn [Nat.mul]. replace (a 0%nat - a 0%nat - D0 * (xs 0%nat - xs 0%nat)) with 0 by ring. rewrite Rabs_R0. lra.
    - destruct (IH ltac:(lia)) as [A B]. pose proof (Hx c ltac:(lia)). split; [lra|].
      pose proof (u_lin c (xs (S c)) ltac:(lia) ltac:(lra)) as U. rewrite u_left, u_right in U by lia.
      replace (a (S c * kp)%nat - a 0%nat - D0 * (xs (S c) - xs 0%nat))
        with ((a (S c * kp)%nat - a (c * kp)%nat - D0 * (xs (S c) - xs c)) + (a (c * kp)%nat - a 0%nat - D0 * (xs c - xs 0%nat))) by ring.
      pose proof (Rabs_triang (a (S c * kp)%nat - a (c * kp)%nat - D0 * (xs (S c) - xs c)) (a (c * kp)%nat - a 0%nat - D0 * (xs c - xs 0%nat))). lra.
  Qed.
  Lemma xs_mono c e : (c <= e)%nat -> (e <= n)%nat -> xs c <= xs e.
  Proof. intros Hce. induction Hce as [|e Hce IH]; intro He'; [lra|]. pose proof (Hx e ltac:(lia)). specialize (IH ltac:(lia)). lra. Qed.
  Notation Lt := (xs n - xs 0%nat).
  Lemma u_bound c x : (c < n)%nat -> xs c <= x <= xs (S c) ->
    Rabs (u c x) <= 2 * Rabs (a 0%nat) + Rabs (a (n * kp)%nat) + 2 * (V * Lt).
  Proof.
    intros Hc Hy. destruct (nodes_lin n (le_n n)) as [A B]. destruct (nodes_lin c ltac:(lia)) as [A1 B1].
    pose proof (u_lin c x Hc Hy) as U. rewrite u_left in U by exact Hc. pose proof V_nonneg as HV.
    pose proof (xs_mono (S c) n ltac:(lia) (le_n n)) as M.
    assert (DL : Rabs (D0 * Lt) <= Rabs (a 0%nat) + Rabs (a (n * kp)%nat) + V * Lt).
    { replace (D0 * Lt) with (- (a (n * kp)%nat - a 0%nat - D0 * Lt) + (a (n * kp)%nat - a 0%nat)) by ring.
      pose proof (Rabs_triang (- (a (n * kp)%nat - a 0%nat - D0 * Lt)) (a (n * kp)%nat - a 0%nat)) as T1. rewrite Rabs_Ropp in T1.
      pose proof (Rabs_triang (a (n * kp)%nat) (- a 0%nat)) as T2. rewrite Rabs_Ropp in T2. unfold Rminus in *. lra. }
    assert (DX : Rabs (D0 * (x - xs 0%nat)) <= Rabs (D0 * Lt)).
    { rewrite !Rabs_mult. apply Rmult_le_compat_l; [apply Rabs_pos|]. rewrite !Rabs_right by lra. lra. }
    assert (VX : V * (x - xs 0%nat) <= V * Lt) by (apply Rmult_le_compat_l; lra).
    replace (u c x) with (a 0%nat + D0 * (x - xs 0%nat) + ((u c x - a (c * kp)%nat - D0 * (x - xs c)) + (a (c * kp)%nat - a 0%nat - D0 * (xs c - xs 0%nat)))) by ring.
    set (r1 := u c x - a (c * kp)%nat - D0 * (x - xs c)) in *. set (r2 := a (c * kp)%nat - a 0%nat - D0 * (xs c - xs 0%nat)) in *.
    pose proof (Rabs_triang (a 0%nat + D0 * (x - xs 0%nat)) (r1 + r2)) as T1. pose proof (Rabs_triang (a 0%nat) (D0 * (x - xs 0%nat))) as T2.
    pose proof (Rabs_triang r1 r2) as T3. assert (V * (x - xs c) + V * (xs c - xs 0%nat) = V * (x - xs 0%nat)) by ring. lra.
  Qed.
  Lemma sq_three p q r s : 0 <= q -> 0 <= r -> 0 <= s -> Rabs p <= 2 * q + r + 2 * s -> p * p <= 12 * (q * q) + 3 * (r * r) + 12 * (s * s).
  Proof.
    intros Hq Hr Hs H. pose proof (Rabs_pos p) as Hp. assert (E : p * p = Rabs p * Rabs p) by (rewrite <- Rabs_mult; symmetry; apply Rabs_right, Rle_ge, Rle_0_sqr).
    rewrite E. set (z := Rabs p) in *. pose proof (Rmult_le_compat z _ z _ Hp Hp H H) as M.
    pose proof (Rle_0_sqr (2 * q - r)) as S1. pose proof (Rle_0_sqr (2 * q - 2 * s)) as S2. pose proof (Rle_0_sqr (r - 2 * s)) as S3. unfold Rsqr in *. lra.
  Qed.
  (** the sum of squares behind V *)
  Variables (hmin hmax lam : R).
  Hypothesis Hmin : 0 < hmin.
  Hypothesis Hh : forall c, (c < n)%nat -> hmin <= len c <= hmax.
  Hypothesis Hlam : 0 < lam.
  Definition lapterm : R := sumn n (fun c => len c ^ 2 * i2 c).
  Lemma lap_integral : integ D Dx WH2 1 (fun p _ => fev D Dx Vp Lap a p 0) (fun p _ => fev D Dx Vp Lap a p 0) = lapterm.
  Proof.
    unfold integ, lapterm. cbn [d_pts disc1]. rewrite sumn_mult. apply sumn_ext; intros c Hc.
    unfold i2. pose proof (len_pos n xs Hx c Hc) as Hl.
    rewrite (RInt_ext _ (fun x => peval (pscale (/ len c ^ 4) (pmul (pdiff (pdiff (loc kp kd Vp a c))) (pdiff (pdiff (loc kp kd Vp a c))))) ((x - xs c) / len c))).
    2: { intros x _. rewrite peval_pscale, peval_pmul, ddu_eq by exact Hc. match goal with |- ?p = ?q => change (@eq R p q) end. field. lra. }
    rewrite <- (cell_int n xs qp Hx d c _ He Hc).
    - rewrite <- Rsum_scal. apply sumn_ext; intros j Hj. destruct (pt_cell qp Hqp c j Hj) as [E1 E2].
      cbn [seq]. rewrite Rsum_cons, Rsum_nil. rewrite !(fev_lap n xs kp kd qp) by (try assumption; nia).
      cbn [d_w d_h disc1 wval]. rewrite E1, E2, peval_pscale, peval_pmul. field. lra.
    - rewrite length_pscale. apply Nat.le_trans with (S (kp + kp)); [|lia].
      assert (LL : (length (loc kp kd Vp a c) <= S kp)%nat) by apply (loc_length kp kd Vp).
      apply length_mul_le; rewrite !length_pdiff; lia.
  Qed.
  Lemma V_sq : V ^ 2 <= 2 * INR n / hmin * (lapterm + facet D Vp a a).
  Proof.
    rewrite (facet_jumps n xs kp kd qp) by assumption.
    pose proof (sum_sq n gc) as S1. pose proof (sum_sq (n - 1) (fun i => Rabs (J (S i)))) as S2.
    assert (G : hmin * sumn n (fun c => gc c ^ 2) <= lapterm).
    { rewrite <- Rsum_scal. unfold lapterm. apply Rsum_le_in. intros c Hc. apply in_seq in Hc. destruct (Hh c ltac:(lia)) as [H1 _].
      pose proof (i2_nonneg c ltac:(lia)) as Hi. unfold gc. rewrite <- Rsqr_pow2, Rsqr_sqrt by (apply Rmult_le_pos; lra).
      replace (hmin * (len c * i2 c)) with (len c * i2 c * hmin) by ring. replace (len c ^ 2 * i2 c) with (len c * i2 c * len c) by ring.
      apply Rmult_le_compat_l; [apply Rmult_le_pos; lra|lra]. }
    assert (F : hmin * sumn (n - 1) (fun i => Rabs (J (S i)) ^ 2) <= sumn (n - 1) (fun v => (len v + len (S v)) / 2 * (J (S v) * J (S v)))).
    { rewrite <- Rsum_scal. apply Rsum_le_in. intros v Hv. apply in_seq in Hv. rewrite <- Rsqr_pow2, <- Rsqr_abs. unfold Rsqr.
      apply Rmult_le_compat_r; [apply Rle_0_sqr|]. pose proof (Hh v ltac:(lia)). pose proof (Hh (S v) ltac:(lia)). lra. }
    unfold V. set (A := sumn n gc) in *. set (B := sumn (n - 1) (fun i => Rabs (J (S i)))) in *.
    set (A2 := sumn n (fun c => gc c ^ 2)) in *. set (B2 := sumn (n - 1) (fun i => Rabs (J (S i)) ^ 2)) in *. set (f := sumn (n - 1) (fun v => (len v + len (S v)) / 2 * (J (S v) * J (S v)))) in *.
    assert (B2p : 0 <= B2) by (apply Rsum_nonneg; intros; apply pow2_ge_0).
    assert (IN : INR (n - 1) <= INR n) by (apply le_INR; lia).
    assert (S2' : B ^ 2 <= INR n * B2) by (apply (Rle_trans _ _ _ S2); apply Rmult_le_compat_r; lra).
    assert (Q : (A + B) ^ 2 <= 2 * INR n * (A2 + B2)) by (pose proof (pow2_ge_0 (A - B)); lra).
    apply (Rle_trans _ _ _ Q). replace (2 * INR n / hmin * (lapterm + f)) with (2 * INR n * ((lapterm + f) / hmin)) by (field; lra).
    apply Rmult_le_compat_l; [pose proof (pos_INR n); lra|]. apply (Rmult_le_reg_l hmin); [exact Hmin|].
    replace (hmin * ((lapterm + f) / hmin)) with (lapterm + f) by (field; lra). lra.
  Qed.
  Definition Kell : R := Lt * (12 * hmax / lam + 24 * INR n * Lt ^ 2 / hmin).
  Lemma Lt_pos : 0 < Lt.
  Proof. pose proof (Hx 0 ltac:(lia)). pose proof (xs_mono 1 n Hn (le_n n)). lra. Qed.
  Lemma Lt_sum : sumn n len = Lt.
  Proof.
    assert (G : forall c, sumn c len = xs c - xs 0%nat) by (induction c as [|c IH]; [cbn [seq]; rewrite Rsum_nil; ring|rewrite sumn_S, IH; unfold Space1D.len; ring]). apply G.
  Qed.
  Lemma lapterm_nonneg : 0 <= lapterm.
  Proof. apply Rsum_nonneg. intros c Hc. apply in_seq in Hc. apply Rmult_le_pos; [apply pow2_ge_0|apply i2_nonneg; lia]. Qed.
  Theorem elliptic : L2 D Vp Vp a a <= Kell * ell0 D lam a.
  Proof.
    set (B := 12 * (Rabs (a 0%nat) * Rabs (a 0%nat)) + 3 * (Rabs (a (n * kp)%nat) * Rabs (a (n * kp)%nat)) + 12 * ((V * Lt) * (V * Lt))).
    pose proof Lt_pos as HL. pose proof V_nonneg as HV.
    assert (A : L2 D Vp Vp a a <= Lt * B).
    { rewrite (L2_integral n xs kp kd qp Hx Hqp d Vp Vp a a He) by (cbn; lia). rewrite <- Lt_sum at 1. rewrite <- Rsum_scal_r. apply Rsum_le_in.
      intros c Hc. apply in_seq in Hc. pose proof (Hx c ltac:(lia)) as Hxc.
      apply (is_RInt_le (fun x => u c x * u c x) (fun _ => B) (xs c) (xs (S c))).
      - lra.
      - apply (RInt_correct (V := R_CompleteNormedModule)). apply (ex_RInt_continuous (V := R_CompleteNormedModule)). intros x _.
        apply (ex_derive_continuous (V := R_NormedModule)). apply ex_derive_mult; eexists; apply u_derive; lia.
      - apply (is_RInt_const (V := R_NormedModule)).
      - intros x Hx'. apply sq_three; try apply Rabs_pos; [apply Rmult_le_pos; lra|]. apply u_bound; [lia|lra]. }
    apply (Rle_trans _ _ _ A). unfold Kell. rewrite Rmult_assoc. apply Rmult_le_compat_l; [lra|].
    unfold ell0. rewrite lap_integral, (bndw_ends n xs kp kd qp) by assumption.
    change (on_cell xs kp kd Vp a 0 (xs 0%nat)) with (u 0 (xs 0%nat)). rewrite (u_left 0) by lia.
    change (on_cell xs kp kd Vp a (n - 1) (xs n)) with (u (n - 1) (xs n)).
    assert (Er : u (n - 1) (xs n) = a (n * kp)%nat) by (replace (xs n) with (xs (S (n - 1))) by (f_equal; lia); rewrite u_right by lia; f_equal; nia).
    rewrite Er. cbn [Nat.mul]. pose proof V_sq as HVs. pose proof lapterm_nonneg as HLp.
    assert (HF : 0 <= facet D Vp a a).
    { rewrite (facet_jumps n xs kp kd qp) by assumption. apply Rsum_nonneg. intros v Hv. apply in_seq in Hv.
      apply Rmult_le_pos; [pose proof (Hh v ltac:(lia)); pose proof (Hh (S v) ltac:(lia)); lra|apply Rle_0_sqr]. }
    set (lp := lapterm) in *. set (fc := facet D Vp a a) in *. unfold B.
    rewrite <- !Rabs_mult, !(Rabs_right (_ * _)) by (apply Rle_ge, Rle_0_sqr).
    set (y0 := a 0%nat) in *. set (y1 := a (n * kp)%nat) in *.
    assert (F0 : y0 * y0 <= hmax / lam * (lam / len 0 * (y0 * y0))).
    { destruct (Hh 0%nat ltac:(lia)) as [h1 h2]. replace (hmax / lam * (lam / len 0 * (y0 * y0))) with (hmax / len 0 * (y0 * y0)) by (field; lra).
      rewrite <- (Rmult_1_l (y0 * y0)) at 1. apply Rmult_le_compat_r; [apply Rle_0_sqr|]. apply (Rmult_le_reg_r (len 0)); [lra|]. unfold Rdiv. rewrite Rmult_assoc, Rinv_l by lra. lra. }
    assert (F1 : y1 * y1 <= hmax / lam * (lam / len (n - 1) * (y1 * y1))).
    { destruct (Hh (n - 1)%nat ltac:(lia)) as [h1 h2]. replace (hmax / lam * (lam / len (n - 1) * (y1 * y1))) with (hmax / len (n - 1) * (y1 * y1)) by (field; lra).
      rewrite <- (Rmult_1_l (y1 * y1)) at 1. apply Rmult_le_compat_r; [apply Rle_0_sqr|]. apply (Rmult_le_reg_r (len (n - 1))); [lra|]. unfold Rdiv. rewrite Rmult_assoc, Rinv_l by lra. lra. }
    set (b0 := lam / len 0 * (y0 * y0)) in *. set (b1 := lam / len (n - 1) * (y1 * y1)) in *.
    assert (Hhm : 0 <= hmax / lam). { destruct (Hh 0%nat ltac:(lia)). apply Rmult_le_pos; [lra|left; apply Rinv_0_lt_compat; lra]. }
    assert (Y0 : 0 <= y0 * y0) by apply Rle_0_sqr. assert (Y1 : 0 <= y1 * y1) by apply Rle_0_sqr.
    assert (Hb0 : 0 <= b0). { apply Rmult_le_pos; [|exact Y0]. destruct (Hh 0%nat ltac:(lia)). apply Rmult_le_pos; [lra|left; apply Rinv_0_lt_compat; lra]. }
    assert (Hb1 : 0 <= b1). { apply Rmult_le_pos; [|exact Y1]. destruct (Hh (n - 1)%nat ltac:(lia)). apply Rmult_le_pos; [lra|left; apply Rinv_0_lt_compat; lra]. }
    assert (HVL : 12 * (V * Lt * (V * Lt)) <= 24 * INR n * Lt ^ 2 / hmin * (lp + fc)).
    { pose proof (Rmult_le_compat_l (12 * Lt ^ 2) _ _ ltac:(pose proof (pow2_ge_0 Lt); lra) HVs) as Q.
      replace (12 * Lt ^ 2 * (2 * INR n / hmin * (lp + fc))) with (24 * INR n * Lt ^ 2 / hmin * (lp + fc)) in Q by (field; lra). lra. }
    set (k1 := hmax / lam) in *. replace (12 * hmax / lam) with (12 * k1) by (unfold k1; field; lra).
    assert (K2 : 0 <= 24 * INR n * Lt ^ 2 / hmin).
    { apply Rmult_le_pos; [|left; apply Rinv_0_lt_compat; lra]. pose proof (pos_INR n). pose proof (pow2_ge_0 Lt). apply Rmult_le_pos; lra. }
    set (k2 := 24 * INR n * Lt ^ 2 / hmin) in *. clearbody k1 k2 b0 b1 lp fc y0 y1.
    pose proof (Rmult_le_pos _ _ Hhm Hb0). pose proof (Rmult_le_pos _ _ Hhm Hb1). pose proof (Rmult_le_pos _ _ K2 Hb0). pose proof (Rmult_le_pos _ _ K2 Hb1).
    pose proof (Rmult_le_pos _ _ Hhm HLp). pose proof (Rmult_le_pos _ _ Hhm HF). lra.
  Qed.
  Lemma Kell_nonneg : 0 <= Kell.
  Proof.
    pose proof Lt_pos. unfold Kell. destruct (Hh 0%nat ltac:(lia)). apply Rmult_le_pos; [lra|]. pose proof (pos_INR n). pose proof (pow2_ge_0 Lt).
    apply Rplus_le_le_0_compat; (apply Rmult_le_pos; [|left; apply Rinv_0_lt_compat; lra]); [lra|apply Rmult_le_pos; lra].
  Qed.
End Ell.
