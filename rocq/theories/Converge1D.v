(** Converge1D.v -- approximation and consistency on an interval: the nodal
    interpolant of a smooth wave nearly satisfies the discrete equations. *)
From Coq Require Import Reals List ZArith Lra Lia Bool.
From Coquelicot Require Import Coquelicot.
From Verif Require Import Base TimeModel TimeSpec TimeProofs QuadProofs FormModel FormSpec FormProofs
  SpaceTimeForms FormBlocks GuardProofs FormTime FormC12 FormSym FormStruct FormCons FormWf Props_Forms WellPosed Stability ErrorBound
  Space1D Props_Space1D Interp1D Props_Stability.
Import ListNotations.
Open Scope R_scope.

Lemma Young s e x d : 0 < s -> Rabs d <= e -> d * x <= s / 2 * e ^ 2 + x ^ 2 / (2 * s).
Proof.
  intros Hs Hd. assert (D2 : d ^ 2 <= e ^ 2) by (rewrite <- (pow2_abs d); apply pow_incr; split; [apply Rabs_pos|exact Hd]).
  assert (Q : 0 <= (s * d - x) ^ 2 / (2 * s)) by (apply Rmult_le_pos; [apply pow2_ge_0|left; apply Rinv_0_lt_compat; lra]).
  replace ((s * d - x) ^ 2 / (2 * s)) with (s / 2 * d ^ 2 - d * x + x ^ 2 / (2 * s)) in Q by (field; lra).
  assert (s / 2 * d ^ 2 <= s / 2 * e ^ 2) by (apply Rmult_le_compat_l; lra). lra.
Qed.
Lemma cont_of_derive (f g : R -> R) x : is_derive f x (g x) -> continuous f x.
Proof. intro H. apply (ex_derive_continuous (V := R_NormedModule)). exists (g x). exact H. Qed.
Lemma ex_RInt_cont (f : R -> R) a b : (forall x, continuous f x) -> ex_RInt f a b.
Proof. intro H. apply (ex_RInt_continuous (V := R_CompleteNormedModule)). intros; apply H. Qed.
Lemma RInt_plus_c (f g : R -> R) a b : (forall x, continuous f x) -> (forall x, continuous g x) ->
  RInt (fun x => f x + g x) a b = RInt f a b + RInt g a b.
Proof. intros. apply (RInt_plus (V := R_CompleteNormedModule)); apply ex_RInt_cont; assumption. Qed.
Lemma RInt_scal_c (f : R -> R) k a b : (forall x, continuous f x) -> RInt (fun x => k * f x) a b = k * RInt f a b.
Proof. intros. apply (RInt_scal (V := R_CompleteNormedModule)). apply ex_RInt_cont; assumption. Qed.
Lemma RInt_const_c k a b : RInt (fun _ => k) a b = k * (b - a).
Proof. rewrite RInt_const. unfold scal; cbn; unfold mult; cbn. ring. Qed.
Lemma cont_scal_R (f : R -> R) k x : continuous f x -> continuous (fun t => k * f t) x.
Proof. intro H. apply (cont_mult_R (fun _ => k)); [apply continuous_const|exact H]. Qed.
Ltac ct := lazymatch goal with
  | |- continuous (fun x => _ + _) _ => apply cont_plus_R; ct
  | |- continuous (fun x => _ - _) _ => apply cont_minus_R; ct
  | |- continuous (fun x => _ * _) _ => apply cont_mult_R; ct
  | |- continuous (fun _ => ?c) _ => first [apply continuous_const | auto]
  | |- _ => auto
  end.
Lemma telescope (f : nat -> R) n : sumn n (fun c => f (S c) - f c) = f n - f 0%nat.
Proof. induction n as [|n IH]; [cbn [seq]; rewrite Rsum_nil; ring|]. rewrite sumn_S, IH. ring. Qed.

Section Space.
  Variables (n : nat) (xs : nat -> R) (kp kd : nat) (qp : list (R * R)) (deg : nat).
  Hypothesis HM : mesh1 n xs kp kd qp deg.
  Hypothesis Hd1 : (kp + kd <= deg)%nat.
  Hypothesis Hd2 : (2 * kd <= deg)%nat.
  Notation D := (disc1 n xs kp kd qp).
  Notation h c := (xs (S c) - xs c).
  Notation l := (xs n - xs 0%nat).

  (** derivative of order m of a finite element function on cell c *)
  Definition fed (k : nat) (a : vec) (m c : nat) (x : R) : R := dinterp k (xs c) (h c) (fun i => a (c * k + i)%nat) m x.
  Lemma h_pos c : (c < n)%nat -> 0 < h c.
  Proof. intro Hc. pose proof (m1_x _ _ _ _ _ _ HM c Hc). lra. Qed.
  Lemma fe_fed k a c x : fe xs k a c x = fed k a 0 c x.
  Proof. unfold fed. rewrite dinterp_0. reflexivity. Qed.
  Lemma fed_derive k a m c x : (c < n)%nat -> is_derive (fed k a m c) x (fed k a (S m) c x).
  Proof. intro Hc. apply dinterp_derive. pose proof (h_pos c Hc). lra. Qed.
  Lemma fed_cont k a m c x : (c < n)%nat -> continuous (fed k a m c) x.
  Proof. intro Hc. apply (cont_of_derive _ (fed k a (S m) c)), fed_derive, Hc. Qed.
  Lemma dfe_fed k a c x : (c < n)%nat -> Derive (fe xs k a c) x = fed k a 1 c x.
  Proof.
    intro Hc. apply is_derive_unique. apply (is_derive_ext (fed k a 0 c)); [intro; symmetry; apply fe_fed|apply fed_derive, Hc].
  Qed.
  Lemma fed_left k a c : (1 <= k)%nat -> (c < n)%nat -> fed k a 0 c (xs c) = a (c * k)%nat.
  Proof.
    intros Hk Hc. pose proof (h_pos c Hc) as Hh. pose proof (dinterp_node k (xs c) (h c) (fun i => a (c * k + i)%nat) 0 Hk ltac:(lra) ltac:(lia)) as E.
    rewrite node_first, Rmult_0_r, Rplus_0_r, Nat.add_0_r in E. exact E.
  Qed.
  Lemma fed_right k a c : (1 <= k)%nat -> (c < n)%nat -> fed k a 0 c (xs (S c)) = a (S c * k)%nat.
  Proof.
    intros Hk Hc. pose proof (h_pos c Hc) as Hh. pose proof (dinterp_node k (xs c) (h c) (fun i => a (c * k + i)%nat) k Hk ltac:(lra) ltac:(lia)) as E.
    rewrite node_last, Rmult_1_r in E by exact Hk. replace (xs c + h c) with (xs (S c)) in E by ring.
    replace (c * k + k)%nat with (S c * k)%nat in E by lia. exact E.
  Qed.
  Lemma L2_fed s1 s2 a b : (dg kp kd s1 + dg kp kd s2 <= deg)%nat ->
    L2 D s1 s2 a b = sumn n (fun c => RInt (fun x => fed (dg kp kd s1) a 0 c x * fed (dg kp kd s2) b 0 c x) (xs c) (xs (S c))).
  Proof.
    intro Hd. rewrite (C75_mass _ _ _ _ _ _ _ _ a b HM Hd). apply Rsum_ext; intro c. apply RInt_ext. intros x _. rewrite !fe_fed. reflexivity.
  Qed.
  Lemma H1_fed s1 s2 a b : (dg kp kd s1 + dg kp kd s2 <= deg)%nat ->
    H1 D s1 s2 a b = sumn n (fun c => RInt (fun x => fed (dg kp kd s1) a 1 c x * fed (dg kp kd s2) b 1 c x) (xs c) (xs (S c))).
  Proof.
    intro Hd. rewrite (C75_stiffness _ _ _ _ _ _ _ _ a b HM Hd). apply sumn_ext; intros c Hc. apply RInt_ext. intros x _. rewrite !dfe_fed by exact Hc. reflexivity.
  Qed.
  Lemma xs_mono i j : (i <= j)%nat -> (j <= n)%nat -> xs i <= xs j.
  Proof.
    induction 1 as [|j _ IH]; intro Hj; [lra|]. pose proof (m1_x _ _ _ _ _ _ HM j ltac:(lia)). specialize (IH ltac:(lia)). lra.
  Qed.
  Lemma h_le c : (c < n)%nat -> h c <= l.
  Proof. intro Hc. pose proof (xs_mono 0 c ltac:(lia) ltac:(lia)). pose proof (xs_mono (S c) n ltac:(lia) ltac:(lia)). lra. Qed.
  Lemma sum_h : sumn n (fun c => h c) = l.
  Proof. apply (telescope xs n). Qed.

  (** [a2] approximates a function F, [a1'] approximates G with G' = F *)
  Lemma cell_consistency (F G : R -> R) a1 a2 y e s c : (c < n)%nat -> 0 < s ->
    (forall x, is_derive G x (F x)) -> (forall x, continuous F x) ->
    (forall x, xs c <= x <= xs (S c) -> Rabs (fed kp a2 0 c x - F x) <= e /\ Rabs (fed kp a1 1 c x - G x) <= e) ->
    RInt (fun x => fed kp a2 0 c x * fed kd y 0 c x) (xs c) (xs (S c)) + RInt (fun x => fed kp a1 1 c x * fed kd y 1 c x) (xs c) (xs (S c))
    - (G (xs (S c)) * y (S c * kd)%nat - G (xs c) * y (c * kd)%nat)
    <= s * e ^ 2 * h c + / (2 * s) * (RInt (fun x => fed kd y 0 c x * fed kd y 0 c x) (xs c) (xs (S c))
                                       + RInt (fun x => fed kd y 1 c x * fed kd y 1 c x) (xs c) (xs (S c))).
  Proof.
    intros Hc Hs HG HF HE. pose proof (h_pos c Hc) as Hh. pose proof (m1_kd _ _ _ _ _ _ HM) as Hk.
    assert (GC : forall x, continuous G x) by (intro x; apply (cont_of_derive G F), HG).
    assert (FC := fun k a m x => fed_cont k a m c x Hc).
    set (Y := fed kd y 0 c). set (Y1 := fed kd y 1 c). set (A2 := fed kp a2 0 c). set (A1 := fed kp a1 1 c).
    assert (YC : forall x, continuous Y x) by (intro; apply FC). assert (Y1C : forall x, continuous Y1 x) by (intro; apply FC).
    assert (A2C : forall x, continuous A2 x) by (intro; apply FC). assert (A1C : forall x, continuous A1 x) by (intro; apply FC).
    assert (IP : RInt (fun x => F x * Y x + G x * Y1 x) (xs c) (xs (S c)) = G (xs (S c)) * y (S c * kd)%nat - G (xs c) * y (c * kd)%nat).
    { rewrite <- (fed_right kd y c Hk Hc), <- (fed_left kd y c Hk Hc). apply (is_RInt_unique (V := R_CompleteNormedModule)).
      apply (is_RInt_derive (fun x => G x * Y x) (fun x => F x * Y x + G x * Y1 x)).
      - intros x _. apply (is_derive_mult G Y x (F x) (Y1 x)); [apply HG|apply fed_derive, Hc|]. intros; apply Rmult_comm.
      - intros x _. ct. }
    rewrite <- IP.
    assert (C1 : forall x, continuous (fun x => A2 x * Y x) x) by (intro; ct).
    assert (C2 : forall x, continuous (fun x => A1 x * Y1 x) x) by (intro; ct).
    assert (C3 : forall x, continuous (fun x => F x * Y x + G x * Y1 x) x) by (intro; ct).
    assert (C4 : forall x, continuous (fun x => Y x * Y x) x) by (intro; ct).
    assert (C5 : forall x, continuous (fun x => Y1 x * Y1 x) x) by (intro; ct).
    assert (E1 : RInt (fun x => A2 x * Y x) (xs c) (xs (S c)) + RInt (fun x => A1 x * Y1 x) (xs c) (xs (S c))
      - RInt (fun x => F x * Y x + G x * Y1 x) (xs c) (xs (S c))
      = RInt (fun x => (A2 x * Y x + A1 x * Y1 x) + - 1 * (F x * Y x + G x * Y1 x)) (xs c) (xs (S c))).
    { rewrite (RInt_plus_c (fun x => A2 x * Y x + A1 x * Y1 x) (fun x => - 1 * (F x * Y x + G x * Y1 x))); [|intro; ct|intro; ct].
      rewrite (RInt_plus_c (fun x => A2 x * Y x) (fun x => A1 x * Y1 x)) by auto.
      rewrite (RInt_scal_c (fun x => F x * Y x + G x * Y1 x)) by exact C3. ring. }
    assert (E2 : s * e ^ 2 * h c + / (2 * s) * (RInt (fun x => Y x * Y x) (xs c) (xs (S c)) + RInt (fun x => Y1 x * Y1 x) (xs c) (xs (S c)))
      = RInt (fun x => s * e ^ 2 + / (2 * s) * (Y x * Y x + Y1 x * Y1 x)) (xs c) (xs (S c))).
    { rewrite (RInt_plus_c (fun _ => s * e ^ 2) (fun x => / (2 * s) * (Y x * Y x + Y1 x * Y1 x))); [|intro; ct|intro; ct].
      rewrite RInt_const_c, (RInt_scal_c (fun x => Y x * Y x + Y1 x * Y1 x)) by (intro; ct).
      rewrite (RInt_plus_c (fun x => Y x * Y x) (fun x => Y1 x * Y1 x)) by auto. reflexivity. }
    rewrite E1, E2. apply RInt_le; [lra| | |].
    - apply ex_RInt_cont. intro. ct.
    - apply ex_RInt_cont. intro. ct.
    - intros x Hx. destruct (HE x ltac:(lra)) as [H1 H2]. fold A2 in H1. fold A1 in H2.
      pose proof (Young s e (Y x) _ Hs H1) as Q1. pose proof (Young s e (Y1 x) _ Hs H2) as Q2.
      replace (/ (2 * s) * (Y x * Y x + Y1 x * Y1 x)) with (Y x ^ 2 / (2 * s) + Y1 x ^ 2 / (2 * s)) by (field; lra). lra.
  Qed.
  Lemma space_consistency (F G : R -> R) a1 a2 y e s lam : 0 < s -> 0 < lam ->
    (forall x, is_derive G x (F x)) -> (forall x, continuous F x) ->
    (forall c x, (c < n)%nat -> xs c <= x <= xs (S c) -> Rabs (fed kp a2 0 c x - F x) <= e /\ Rabs (fed kp a1 1 c x - G x) <= e) ->
    L2 D Vp Vd a2 y + H1 D Vp Vd a1 y - flux D Vp Vd a1 y
    <= s * e ^ 2 * (l + l / lam) + / (2 * s) * (L2 D Vd Vd y y + H1 D Vd Vd y y + bndw D lam Vd y y).
  Proof.
    intros Hs Hlam HG HF HE. pose proof (m1_n _ _ _ _ _ _ HM) as Hn. pose proof (m1_kd _ _ _ _ _ _ HM) as Hk.
    rewrite (L2_fed Vp Vd), (H1_fed Vp Vd), (L2_fed Vd Vd), (H1_fed Vd Vd) by (cbn [dg]; lia).
    rewrite (C75_flux _ _ _ _ _ _ _ _ a1 y HM), (C75_penalty _ _ _ _ _ _ lam _ y y HM). cbn [dg].
    rewrite !dfe_fed, !fe_fed by lia.
    replace (fed kd y 0 (n - 1) (xs n)) with (y (n * kd)%nat).
    2: { symmetry. replace n with (S (n - 1)) at 2 3 by lia. apply fed_right; [exact Hk|lia]. }
    rewrite (fed_left kd y 0 Hk ltac:(lia)). cbn [Nat.mul].
    set (An := fed kp a1 1 (n - 1) (xs n)). set (A0 := fed kp a1 1 0 (xs 0%nat)).
    assert (HAn : Rabs (An - G (xs n)) <= e).
    { destruct (HE (n - 1)%nat (xs n) ltac:(lia)) as [_ H]; [|exact H]. replace (S (n - 1)) with n by lia.
      pose proof (m1_x _ _ _ _ _ _ HM (n - 1)%nat ltac:(lia)) as Q. replace (S (n - 1)) with n in Q by lia. lra. }
    assert (HA0 : Rabs (A0 - G (xs 0%nat)) <= e).
    { destruct (HE 0%nat (xs 0%nat) ltac:(lia)) as [_ H]; [|exact H]. pose proof (m1_x _ _ _ _ _ _ HM 0%nat ltac:(lia)). lra. }
    assert (HC : sumn n (fun c => RInt (fun x => fed kp a2 0 c x * fed kd y 0 c x) (xs c) (xs (S c)) + RInt (fun x => fed kp a1 1 c x * fed kd y 1 c x) (xs c) (xs (S c))
       - (G (xs (S c)) * y (S c * kd)%nat - G (xs c) * y (c * kd)%nat))
      <= sumn n (fun c => s * e ^ 2 * h c + / (2 * s) * (RInt (fun x => fed kd y 0 c x * fed kd y 0 c x) (xs c) (xs (S c))
                                       + RInt (fun x => fed kd y 1 c x * fed kd y 1 c x) (xs c) (xs (S c))))).
    { apply Rsum_le. intros c Hc. apply in_seq in Hc. apply (cell_consistency F G); [lia|assumption|assumption|assumption|]. intros x Hx. apply HE; [lia|assumption]. }
    rewrite Rsum_minus, !Rsum_plus in HC. rewrite (telescope (fun c => G (xs c) * y (c * kd)%nat) n) in HC. cbn [Nat.mul] in HC.
    rewrite Rsum_scal, sum_h, Rsum_scal, Rsum_plus in HC.
    set (I1 := sumn n _) in *. set (I2 := sumn n _) in *. set (I3 := sumn n _) in *. set (I4 := sumn n _) in *.
    assert (B : forall hh yy dd, 0 < hh <= l -> Rabs dd <= e -> dd * yy <= s / 2 * e ^ 2 * (l / lam) + / (2 * s) * (lam / hh * (yy * yy))).
    { intros hh yy dd Hhh Hdd. pose proof (Young (s * (hh / lam)) e yy dd) as Q.
      assert (P : 0 < hh / lam) by (apply Rdiv_lt_0_compat; lra).
      specialize (Q ltac:(apply Rmult_lt_0_compat; lra) Hdd).
      replace (yy ^ 2 / (2 * (s * (hh / lam)))) with (/ (2 * s) * (lam / hh * (yy * yy))) in Q by (field; lra).
      assert (s * (hh / lam) / 2 * e ^ 2 <= s / 2 * e ^ 2 * (l / lam)).
      { replace (s * (hh / lam) / 2 * e ^ 2) with (s / 2 * e ^ 2 * (hh / lam)) by (field; lra).
        apply Rmult_le_compat_l; [apply Rmult_le_pos; [lra|apply pow2_ge_0]|]. unfold Rdiv. apply Rmult_le_compat_r; [left; apply Rinv_0_lt_compat; exact Hlam|lra]. }
      lra. }
    pose proof (B (xs 1%nat - xs 0%nat) (y 0%nat) (A0 - G (xs 0%nat))) as B0.
    pose proof (B (xs n - xs (n - 1)%nat) (- y (n * kd)%nat) (An - G (xs n))) as Bn.
    specialize (B0 ltac:(split; [apply (h_pos 0); lia|apply (h_le 0); lia]) HA0).
    specialize (Bn ltac:(pose proof (h_pos (n - 1)%nat ltac:(lia)) as Q; pose proof (h_le (n - 1)%nat ltac:(lia)) as Q';
      replace (S (n - 1)) with n in Q, Q' by lia; lra) HAn).
    replace (- y (n * kd)%nat * - y (n * kd)%nat) with (y (n * kd)%nat * y (n * kd)%nat) in Bn by ring.
    lra.
  Qed.
End Space.

(** * A smooth wave *)
(** [w i m] is the derivative of order i in time and m in space of a solution of the
    wave equation on [0,T] x [a,b] that vanishes at a and b; M bounds these derivatives. *)
Record smooth_wave (q k : nat) (T a b M : R) (w : nat -> nat -> R -> R -> R) : Prop := {
  sw_t : forall i m t x, is_derive (fun s => w i m s x) t (w (S i) m t x);
  sw_x : forall i m t x, is_derive (fun y => w i m t y) x (w i (S m) t x);
  sw_eq : forall t x, 0 <= t <= T -> a <= x <= b -> w 2%nat 0%nat t x = w 0%nat 2%nat t x;
  sw_a : forall t, 0 <= t <= T -> w 0%nat 0%nat t a = 0;
  sw_b : forall t, 0 <= t <= T -> w 0%nat 0%nat t b = 0;
  sw_M : forall i m t x, (i <= q + 2)%nat -> (m <= k + 1)%nat -> 0 <= t <= T -> a <= x <= b -> Rabs (w i m t x) <= M }.

(** position of degree of freedom l; the field of nodal values: block j holds
    the time derivative of order j *)
Definition dof_x (xs : nat -> R) (k l : nat) : R := xs (l / k)%nat + (xs (S (l / k)) - xs (l / k)%nat) * node k (l mod k).
Definition nodal (q : nat) (dt : R) (xs : nat -> R) (k : nat) (w : nat -> nat -> R -> R -> R) : field := fun j i l =>
  w j 0%nat (INR (i / S q) * dt + dt * node q (i mod S q)) (dof_x xs k l).

Lemma dof_x_cell xs k c r : (1 <= k)%nat -> (r <= k)%nat -> dof_x xs k (c * k + r) = xs c + (xs (S c) - xs c) * node k r.
Proof.
  intros Hk Hr. unfold dof_x. destruct (Nat.eq_dec r k) as [->|Hne].
  - replace (c * k + k)%nat with (S c * k)%nat by lia. rewrite Nat.div_mul, Nat.mod_mul by lia.
    rewrite node_first, node_last by exact Hk. ring.
  - assert (E1 : ((c * k + r) / k)%nat = c) by (rewrite Nat.div_add_l by lia; rewrite Nat.div_small by lia; lia).
    assert (E2 : ((c * k + r) mod k)%nat = r) by (rewrite Nat.add_comm, Nat.mod_add by lia; apply Nat.mod_small; lia).
    rewrite E1, E2. reflexivity.
Qed.
Lemma dof_x_first xs k : (1 <= k)%nat -> dof_x xs k 0 = xs 0%nat.
Proof. intro Hk. pose proof (dof_x_cell xs k 0 0 Hk ltac:(lia)) as E. cbn [Nat.mul Nat.add] in E. rewrite E, node_first. ring. Qed.
Lemma dof_x_last xs k n : (1 <= k)%nat -> (1 <= n)%nat -> dof_x xs k (n * k) = xs n.
Proof.
  intros Hk Hn. pose proof (dof_x_cell xs k (n - 1) k Hk ltac:(lia)) as E. replace ((n - 1) * k + k)%nat with (n * k)%nat in E by nia.
  rewrite E, node_last by exact Hk. replace (S (n - 1)) with n by lia. ring.
Qed.
Lemma dinterp_zero k a h v m x : (forall i, (i <= k)%nat -> v i = 0) -> dinterp k a h v m x = 0.
Proof. intro H. rewrite dinterp_sum. apply Rsum_zero. intros i Hi. apply in_seq in Hi. rewrite H by lia. ring. Qed.

Section Wave.
  Variables (P : params) (c : config) (n : nat) (xs : nat -> R) (kp kd : nat) (qp : list (R * R)) (deg : nat).
  Variables (w : nat -> nat -> R -> R -> R) (M M0 H omax : R) (om : nat -> R).
  Hypothesis HC : construct P = Ok c.
  Hypothesis HT : 0 < p_T P.
  Hypothesis HM : mesh1 n xs kp kd qp deg.
  Hypothesis Hkp : kp = p_k P.
  Hypothesis Hd1 : (kp + kd <= deg)%nat.
  Hypothesis Hd2 : (2 * kd <= deg)%nat.
  Hypothesis Hin : forall j, (j < List.length qp)%nat -> 0 <= qs qp j <= 1.
  Hypothesis Hq : (1 <= c_q c)%nat.
  Hypothesis Hdt1 : c_dt c <= 1.
  Hypothesis HH : forall e, (e < n)%nat -> xs (S e) - xs e <= H.
  Hypothesis HH1 : H <= 1.
  Hypothesis HW : smooth_wave (c_q c) kp (p_T P) (xs 0%nat) (xs n) M w.
  Hypothesis HM0 : forall t x, 0 <= t <= p_T P -> xs 0%nat <= x <= xs n -> Rabs (w 0%nat 0%nat t x) <= M0.
  Hypothesis Hom : forall p, 0 <= om p <= omax.
  Notation D := (disc1 n xs kp kd qp).
  Notation h e := (xs (S e) - xs e).
  Notation l := (xs n - xs 0%nat).
  Let q := c_q c.
  Let dt := c_dt c.
  Let d := td c.
  Let t0 (nu : nat) := INR nu * dt.
  Let U : field := nodal q dt xs kp w.
  Let HB : built P c := construct_inv P c HC.
  Lemma Hdt : 0 < dt.
  Proof. exact (dt_pos _ _ HC HT). Qed.
  Lemma Hk : (1 <= kp)%nat.
  Proof. exact (m1_kp _ _ _ _ _ _ HM). Qed.
  Lemma Hn : (1 <= n)%nat.
  Proof. exact (m1_n _ _ _ _ _ _ HM). Qed.
  Definition in_slab (nu : nat) (t : R) : Prop := t0 nu <= t <= t0 nu + dt.
  Lemma slab_T nu t : (nu < c_N c)%nat -> in_slab nu t -> 0 <= t <= p_T P.
  Proof.
    intros Hnu [A B]. unfold t0 in *. pose proof Hdt as Hd. pose proof (pos_INR nu) as P0.
    assert (E : INR (c_N c) * dt = p_T P).
    { unfold dt. rewrite (bu_dt _ _ HB), <- (bu_NP _ _ HB). field. apply not_0_INR. pose proof (bu_N _ _ HB). lia. }
    assert (L : INR nu + 1 <= INR (c_N c)) by (rewrite <- S_INR; apply le_INR; lia).
    assert (INR nu * dt + dt <= INR (c_N c) * dt) by nra. assert (0 <= INR nu * dt) by (apply Rmult_le_pos; lra). lra.
  Qed.
  Lemma cell_ab e x : (e < n)%nat -> xs e <= x <= xs (S e) -> xs 0%nat <= x <= xs n.
  Proof.
    intros He Hx. pose proof (xs_mono _ _ _ _ _ _ HM Hd1 Hd2 0 e ltac:(lia) ltac:(lia)). pose proof (xs_mono _ _ _ _ _ _ HM Hd1 Hd2 (S e) n ltac:(lia) ltac:(lia)). lra.
  Qed.

  (** time derivative of order i of the coefficients of block j at time t *)
  Definition Ut (i j nu : nat) (t : R) : vec := fun r =>
    dinterp q (t0 nu) dt (fun s => w j 0%nat (t0 nu + dt * node q s) (dof_x xs kp r)) i t.
  Lemma U_node j nu s r : (s <= q)%nat -> U j (nu * S q + s)%nat r = w j 0%nat (t0 nu + dt * node q s) (dof_x xs kp r).
  Proof.
    intro Hs. unfold U, nodal.
    assert (E1 : ((nu * S q + s) / S q)%nat = nu) by (rewrite Nat.div_add_l by lia; rewrite Nat.div_small by lia; lia).
    assert (E2 : ((nu * S q + s) mod S q)%nat = s) by (rewrite Nat.add_comm, Nat.mod_add by lia; apply Nat.mod_small; lia).
    rewrite E1, E2. reflexivity.
  Qed.
  Lemma ord_p j : (j < 2)%nat -> ord d j = q.
  Proof. intro Hj. unfold ord, d, td. cbn [t_q]. destruct (Nat.ltb_spec j 2); [reflexivity|lia]. Qed.
  Lemma at_U j nu t r : (j < 2)%nat -> at_time d U j nu t r = Ut 0 j nu t r.
  Proof.
    intro Hj. unfold at_time, Ut. rewrite (ord_p j Hj), dinterp_0. apply sumn_ext. intros s Hs.
    rewrite U_node by lia. apply Rmult_comm.
  Qed.
  Lemma ddt_U j nu t r : (j < 2)%nat -> ddt (at_time d U j nu) t r = Ut 1 j nu t r.
  Proof.
    intro Hj. unfold ddt. apply is_derive_unique. apply (is_derive_ext (fun s => Ut 0 j nu s r)); [intro; symmetry; apply at_U, Hj|].
    unfold Ut. apply dinterp_derive. pose proof Hdt. lra.
  Qed.
  Lemma fed_U i m j nu e t x : fed xs kp (Ut i j nu t) m e x
    = interp2 kp q (xs e) (h e) (t0 nu) dt (fun a b => w (j + a)%nat b) i m t x.
  Proof.
    unfold fed, interp2, Ut. rewrite Nat.add_0_r.
    rewrite (dinterp_ext kp _ _ _ (fun r => dinterp q (t0 nu) dt (fun s => w j 0%nat (t0 nu + dt * node q s) (xs e + h e * node kp r)) i t)).
    2: { intros r Hr. rewrite dof_x_cell by (try exact Hk; exact Hr). reflexivity. }
    apply (dinterp_swap kp (xs e) (h e) q (t0 nu) dt (fun s r => w j 0%nat (t0 nu + dt * node q s) (xs e + h e * node kp r))).
  Qed.
  Lemma U_error i m j nu e t x : (i <= S q)%nat -> (m <= S kp)%nat -> (j < 2)%nat -> (nu < c_N c)%nat -> (e < n)%nat ->
    in_slab nu t -> xs e <= x <= xs (S e) ->
    Rabs (fed xs kp (Ut i j nu t) m e x - w (j + i)%nat m t x) <= M * (2 * h e ^ (S kp - m) + dt ^ (S q - i)).
  Proof.
    intros Hi Hm Hj Hnu He Ht Hx. rewrite fed_U.
    apply (interp2_error kp q (xs e) (h e) (t0 nu) dt M (fun a b => w (j + a)%nat b)).
    - exact Hk.
    - exact Hq.
    - exact (h_pos _ _ _ _ _ _ HM e He).
    - split; [exact Hdt|exact Hdt1].
    - intros a b s y. replace (j + S a)%nat with (S (j + a)) by lia. apply (sw_t _ _ _ _ _ _ _ HW).
    - intros a b s y. apply (sw_x _ _ _ _ _ _ _ HW).
    - intros a b s y Ha Hb Hs Hy. apply (sw_M _ _ _ _ _ _ _ HW); [fold q; lia|lia|apply (slab_T nu); assumption|].
      apply (cell_ab e); [exact He|]. lra.
    - exact Hi.
    - exact Hm.
    - exact Ht.
    - lra.
  Qed.
  Lemma M_pos : 0 <= M.
  Proof.
    eapply Rle_trans; [apply Rabs_pos|]. apply (sw_M _ _ _ _ _ _ _ HW 0%nat 0%nat 0 (xs 0%nat)); [lia|lia|lra|].
    pose proof (xs_mono _ _ _ _ _ _ HM Hd1 Hd2 0 n ltac:(lia) ltac:(lia)). lra.
  Qed.
  Lemma H_pos : 0 < H.
  Proof. pose proof Hn. pose proof (h_pos _ _ _ _ _ _ HM 0 ltac:(lia)). pose proof (HH 0%nat ltac:(lia)). lra. Qed.
  Definition eps : R := M * (2 * H ^ kp + dt ^ q).
  Lemma eps_pos : 0 <= eps.
  Proof.
    unfold eps. apply Rmult_le_pos; [apply M_pos|]. pose proof H_pos. pose proof Hdt.
    assert (0 <= H ^ kp) by (apply pow_le; lra). assert (0 <= dt ^ q) by (apply pow_le; lra). lra.
  Qed.
  Lemma pow_le_pow a b : forall r s, 0 <= a <= b -> b <= 1 -> (r <= s)%nat -> a ^ s <= b ^ r.
  Proof.
    intros r s Ha Hb Hrs. apply Rle_trans with (b ^ s); [apply pow_incr; lra|].
    replace s with (r + (s - r))%nat by lia. rewrite pow_add. assert (0 <= b ^ r) by (apply pow_le; lra).
    assert (b ^ (s - r) <= 1) by (rewrite <- (pow1 (s - r)); apply pow_incr; lra). nra.
  Qed.
  Lemma U_eps i m j nu e t x : (i + m <= 1)%nat -> (j < 2)%nat -> (nu < c_N c)%nat -> (e < n)%nat ->
    in_slab nu t -> xs e <= x <= xs (S e) -> Rabs (fed xs kp (Ut i j nu t) m e x - w (j + i)%nat m t x) <= eps.
  Proof.
    intros Him Hj Hnu He Ht Hx. pose proof Hk as Hk0. pose proof Hdt as Hd0.
    eapply Rle_trans; [apply U_error; try assumption; lia|]. unfold eps. apply Rmult_le_compat_l; [apply M_pos|].
    pose proof (h_pos _ _ _ _ _ _ HM e He) as Hh. pose proof (HH e He).
    pose proof (pow_le_pow (h e) H kp (S kp - m) ltac:(lra) HH1 ltac:(lia)).
    pose proof (pow_le_pow dt dt q (S q - i) ltac:(lra) Hdt1 ltac:(lia)). lra.
  Qed.
  Lemma U_eps2 nu e t x : (nu < c_N c)%nat -> (e < n)%nat ->
    in_slab nu t -> xs e <= x <= xs (S e) -> h e * Rabs (fed xs kp (Ut 0 0 nu t) 2 e x - w 0%nat 2%nat t x) <= eps.
  Proof.
    intros Hnu He Ht Hx. pose proof Hk as Hk0. pose proof Hdt as Hd0. pose proof (h_pos _ _ _ _ _ _ HM e He) as Hh. pose proof (HH e He).
    pose proof (U_error 0 2 0 nu e t x ltac:(lia) ltac:(lia) ltac:(lia) Hnu He Ht Hx) as B. cbn [Nat.add] in B.
    pose proof M_pos as Mp.
    apply Rle_trans with (h e * (M * (2 * h e ^ (S kp - 2) + dt ^ (S q - 0)))); [apply Rmult_le_compat_l; [lra|exact B]|].
    unfold eps. replace (h e * (M * (2 * h e ^ (S kp - 2) + dt ^ (S q - 0)))) with (M * (2 * (h e * h e ^ (S kp - 2)) + h e * dt ^ (S q - 0))) by ring.
    apply Rmult_le_compat_l; [exact Mp|].
    assert (E : h e * h e ^ (S kp - 2) = h e ^ kp) by (replace kp with (S (S kp - 2)) at 2 by lia; reflexivity). rewrite E.
    pose proof (pow_le_pow (h e) H kp kp ltac:(lra) HH1 ltac:(lia)).
    pose proof (pow_le_pow dt dt q (S q - 0) ltac:(lra) Hdt1 ltac:(lia)).
    assert (0 <= dt ^ (S q - 0)) by (apply pow_le; lra).
    assert (h e * dt ^ (S q - 0) <= 1 * dt ^ (S q - 0)) by (apply Rmult_le_compat_r; lra). lra.
  Qed.

  (** ** values at the quadrature points *)
  Notation m := (List.length qp).
  Notation X p := (xpt xs qp p).
  Lemma Hqp : qp <> [].
  Proof. exact (m1_qp _ _ _ _ _ _ HM). Qed.
  Lemma in_pt p : In p (d_pts D Dx) -> (p < n * m)%nat.
  Proof. cbn [d_pts disc1]. intro H0. apply in_seq in H0. lia. Qed.
  Lemma pt_e p : In p (d_pts D Dx) -> (p / m < n)%nat.
  Proof. intro Hp. apply (pt_div n qp Hqp), in_pt, Hp. Qed.
  Lemma pt_x p : In p (d_pts D Dx) -> xs (p / m)%nat <= X p <= xs (S (p / m)).
  Proof.
    intro Hp. pose proof (pt_e p Hp) as He. pose proof (h_pos _ _ _ _ _ _ HM _ He) as Hh.
    assert (Hj : (p mod m < m)%nat) by (apply Nat.mod_upper_bound; pose proof (m_pos qp Hqp); lia).
    pose proof (Hin _ Hj) as Q. unfold xpt, len. split; nra.
  Qed.
  Lemma fev_fed a p k : In p (d_pts D Dx) -> fev D Dx Vp Val a p k = fed xs kp a 0 (p / m) (X p).
  Proof.
    intro Hp. rewrite (fev_val n xs kp kd qp Hqp) by (apply in_pt, Hp). unfold fed, dinterp. fold (len xs (p / m)).
    rewrite (xpt_ref n xs qp (m1_x _ _ _ _ _ _ HM) Hqp p (in_pt p Hp)). cbn [dpow pow]. rewrite Rdiv_1. reflexivity.
  Qed.
  Lemma lap_fed a p k : In p (d_pts D Dx) -> fev D Dx Vp Lap a p k = fed xs kp a 2 (p / m) (X p).
  Proof.
    intro Hp. rewrite (fev_lap n xs kp kd qp Hqp) by (apply in_pt, Hp). unfold fed, dinterp. fold (len xs (p / m)).
    rewrite (xpt_ref n xs qp (m1_x _ _ _ _ _ _ HM) Hqp p (in_pt p Hp)). cbn [dpow]. reflexivity.
  Qed.
  Lemma sum_w : Rsum (d_pts D Dx) (fun p => d_w D Dx p) = l.
  Proof.
    transitivity (integ D Dx WOne 1 (fun _ _ => 1) (fun _ _ => 1)).
    { unfold integ. apply Rsum_ext; intro p. cbn [wval seq]. rewrite Rsum_cons, Rsum_nil. ring. }
    rewrite (integ_cells n xs kp kd qp Hqp) by reflexivity. rewrite <- sum_h. apply Rsum_ext; intro e.
    pose proof (m1_exact _ _ _ _ _ _ HM [1] ltac:(cbn; lia)) as E. rewrite (rule_sum qp) in E.
    rewrite (RInt_ext _ (fun _ => 1)) in E by (intros x _; cbn [peval]; match goal with |- ?a = ?b => change (@eq R a b) end; ring). rewrite RInt_const_c in E.
    transitivity (len xs e * sumn m (fun j => qw qp j * peval [1] (qs qp j))).
    - rewrite <- Rsum_scal. apply Rsum_ext; intro j. cbn [peval]. ring.
    - rewrite E. unfold len. ring.
  Qed.
  Lemma w_pos p : In p (d_pts D Dx) -> 0 <= d_w D Dx p.
  Proof. apply (rg_w _ _ (C75_regular _ _ _ _ _ _ om HM (fun p => proj1 (Hom p)))). Qed.
  Lemma l_pos : 0 < l.
  Proof.
    pose proof Hn. pose proof (h_pos _ _ _ _ _ _ HM 0 ltac:(lia)). pose proof (h_le _ _ _ _ _ _ HM Hd1 Hd2 0 ltac:(lia)). lra.
  Qed.
  Lemma integ_le w0 f K : (forall p, In p (d_pts D Dx) -> wval D Dx w0 p * f p 0%nat ^ 2 <= K) -> integ D Dx w0 1 f f <= K * l.
  Proof.
    intro B. rewrite <- sum_w. unfold integ. rewrite <- Rsum_scal. apply Rsum_le. intros p Hp.
    cbn [seq]. rewrite Rsum_cons, Rsum_nil. pose proof (B p Hp). pose proof (w_pos p Hp).
    replace (d_w D Dx p * wval D Dx w0 p * (f p 0%nat * f p 0%nat + 0)) with (d_w D Dx p * (wval D Dx w0 p * f p 0%nat ^ 2)) by ring.
    rewrite (Rmult_comm K). apply Rmult_le_compat_l; assumption.
  Qed.
  Lemma over_le f K nu : (forall x, continuous f x) -> (forall t, in_slab nu t -> f t <= K) -> over_slab d nu f <= dt * K.
  Proof.
    intros Hc B. unfold over_slab. cbn [t_dt td d]. fold dt. pose proof Hdt as Hd.
    apply Rle_trans with (RInt (fun _ => K) (INR nu * dt) (INR nu * dt + dt)).
    - apply RInt_le; [lra|apply ex_RInt_cont, Hc|apply ex_RInt_cont; intro; apply continuous_const|]. intros t Ht. apply B. split; unfold t0; lra.
    - rewrite RInt_const_c. apply Req_le. ring.
  Qed.
  Lemma over_mono f g nu : (forall x, continuous f x) -> (forall x, continuous g x) -> (forall t, in_slab nu t -> f t <= g t) -> over_slab d nu f <= over_slab d nu g.
  Proof.
    intros Hf Hg B. unfold over_slab. cbn [t_dt td d]. fold dt. pose proof Hdt as Hd.
    apply RInt_le; [lra|apply ex_RInt_cont, Hf|apply ex_RInt_cont, Hg|]. intros t Ht. apply B. split; unfold t0; lra.
  Qed.

  (** ** wave equation *)
  Notation lam := (5 * INR (p_k P) ^ 2).
  Lemma lam5 : 5 <= lam.
  Proof. pose proof Hk as K. assert (1 <= INR (p_k P)) by (rewrite <- Hkp; apply (le_INR 1), K). nra. Qed.
  Lemma L2_ext a a' b s : (forall r, a r = a' r) -> L2 D Vp s a b = L2 D Vp s a' b.
  Proof. intro E. unfold L2. apply sp_ext; intros; [apply E|reflexivity]. Qed.
  Lemma H1_ext a a' b s : (forall r, a r = a' r) -> H1 D Vp s a b = H1 D Vp s a' b.
  Proof. intro E. unfold H1. apply sp_ext; intros; [apply E|reflexivity]. Qed.
  Lemma flux_ext a a' b s : (forall r, a r = a' r) -> flux D Vp s a b = flux D Vp s a' b.
  Proof. intro E. unfold flux. apply sp_ext; intros; [apply E|reflexivity]. Qed.
  Lemma gap_eps nu t p : (nu < c_N c)%nat -> in_slab nu t -> In p (d_pts D Dx) ->
    Rabs (fev D Dx Vp Val (vsub (Ut 1 0 nu t) (Ut 0 1 nu t)) p 0) <= 2 * eps.
  Proof.
    intros Hnu Ht Hp. rewrite fev_fed by exact Hp.
    assert (E : fed xs kp (vsub (Ut 1 0 nu t) (Ut 0 1 nu t)) 0 (p / m) (X p)
      = (fed xs kp (Ut 1 0 nu t) 0 (p / m) (X p) - w 1%nat 0%nat t (X p)) - (fed xs kp (Ut 0 1 nu t) 0 (p / m) (X p) - w 1%nat 0%nat t (X p))).
    { unfold fed. rewrite !dinterp_sum. unfold vsub.
      match goal with |- ?A = (?B - ?x) - (?C - ?x) => replace ((B - x) - (C - x)) with (B + -1 * C) by ring end.
      rewrite <- Rsum_scal, <- Rsum_plus. apply Rsum_ext; intro i. ring. }
    rewrite E. pose proof (U_eps 1 0 0 nu (p / m) t (X p) ltac:(lia) ltac:(lia) Hnu (pt_e p Hp) Ht (pt_x p Hp)) as A.
    pose proof (U_eps 0 0 1 nu (p / m) t (X p) ltac:(lia) ltac:(lia) Hnu (pt_e p Hp) Ht (pt_x p Hp)) as B.
    cbn [Nat.add] in A, B. apply Rabs_le_between in A. apply Rabs_le_between in B. apply Rabs_le_between. lra.
  Qed.
  Lemma L2_young a y s K : 0 < s -> (forall p, In p (d_pts D Dx) -> Rabs (fev D Dx Vp Val a p 0) <= K) ->
    L2 D Vp Vd a y <= s / 2 * K ^ 2 * l + / (2 * s) * L2 D Vd Vd y y.
  Proof.
    intros Hs B. rewrite <- sum_w. unfold L2, sp, integ. cbn [ncomp]. rewrite <- !Rsum_scal, <- Rsum_plus. apply Rsum_le. intros p Hp.
    cbn [seq wval]. rewrite !Rsum_cons, !Rsum_nil. pose proof (B p Hp) as Bp. pose proof (w_pos p Hp).
    set (u := fev D Dx Vp Val a p 0) in *. set (v := fev D Dx Vd Val y p 0) in *. pose proof (Young s K v u Hs Bp) as Y.
    replace (s / 2 * K ^ 2 * d_w D Dx p + / (2 * s) * (d_w D Dx p * 1 * (v * v + 0))) with (d_w D Dx p * (s / 2 * K ^ 2 + v ^ 2 / (2 * s))) by (field; lra).
    replace (d_w D Dx p * 1 * (u * v + 0)) with (d_w D Dx p * (u * v)) by ring. apply Rmult_le_compat_l; assumption.
  Qed.
  Ltac cts :=
    lazymatch goal with
    | |- continuous (fun t => _ + _) _ => apply cont_plus_R; cts
    | |- continuous (fun t => _ - _) _ => apply cont_minus_R; cts
    | |- continuous (fun t => sp _ _ _ _ _ _ _ (ddt _ _) _) _ => apply (cont_dv P c D HB Hdt)
    | |- continuous (fun t => sp _ _ _ _ _ _ _ _ _) _ => apply (cont_vv P c D HB)
    end.
  Definition wave_at (Z : field) nu t : R :=
    L2 D Vp Vd (ddt (at_time d U 1 nu) t) (at_time d Z 2 nu t) + H1 D Vp Vd (at_time d U 0 nu t) (at_time d Z 2 nu t)
    - flux D Vp Vd (at_time d U 0 nu t) (at_time d Z 2 nu t)
    + L2 D Vp Vd (vsub (ddt (at_time d U 0 nu) t) (at_time d U 1 nu t)) (at_time d Z 3 nu t).
  Lemma wave_cont Z nu x : continuous (wave_at Z nu) x.
  Proof.
    apply (cont_ext_R (fun t => sp D Dx WOne Val Vp Val Vd (ddt (at_time d U 1 nu) t) (at_time d Z 2 nu t)
      + sp D Dx WOne Grad Vp Grad Vd (at_time d U 0 nu t) (at_time d Z 2 nu t)
      - sp D Ds WOne NGrad Vp Val Vd (at_time d U 0 nu t) (at_time d Z 2 nu t)
      + (sp D Dx WOne Val Vp Val Vd (ddt (at_time d U 0 nu) t) (at_time d Z 3 nu t)
         - sp D Dx WOne Val Vp Val Vd (at_time d U 1 nu t) (at_time d Z 3 nu t)))).
    { intro t. unfold wave_at, L2, H1, flux, vsub. rewrite sp_sub1. reflexivity. }
    cts.
  Qed.
  Lemma wave_pointwise Z nu t s : (nu < c_N c)%nat -> in_slab nu t -> 0 < s ->
    wave_at Z nu t <= s * (7 / 2 * l * eps ^ 2) + / (2 * s) * dual_at c D Z Z nu t.
  Proof.
    intros Hnu Ht Hs. pose proof lam5 as L5. pose proof l_pos as Lp. pose proof eps_pos as E0. pose proof (slab_T nu t Hnu Ht) as HTt.
    set (y1 := at_time d Z 2 nu t). set (y2 := at_time d Z 3 nu t).
    unfold wave_at. fold y1 y2.
    rewrite (L2_ext _ (Ut 1 1 nu t)) by (intro; apply ddt_U; lia).
    rewrite (H1_ext _ (Ut 0 0 nu t)) by (intro; apply at_U; lia).
    rewrite (flux_ext _ (Ut 0 0 nu t)) by (intro; apply at_U; lia).
    rewrite (L2_ext (vsub _ _) (vsub (Ut 1 0 nu t) (Ut 0 1 nu t))) by (intro r; unfold vsub; rewrite ddt_U, at_U by lia; reflexivity).
    pose proof (space_consistency n xs kp kd qp deg HM Hd1 Hd2 (fun x => w 0%nat 2%nat t x) (fun x => w 0%nat 1%nat t x)
      (Ut 0 0 nu t) (Ut 1 1 nu t) y1 eps s lam Hs ltac:(lra)) as A.
    assert (A' : L2 D Vp Vd (Ut 1 1 nu t) y1 + H1 D Vp Vd (Ut 0 0 nu t) y1 - flux D Vp Vd (Ut 0 0 nu t) y1
       <= s * eps ^ 2 * (l + l / lam) + / (2 * s) * (L2 D Vd Vd y1 y1 + H1 D Vd Vd y1 y1 + bndw D lam Vd y1 y1)).
    { apply A; clear A.
      - intro x. apply (sw_x _ _ _ _ _ _ _ HW).
      - intro x. apply (cont_of_derive _ (fun x => w 0%nat 3%nat t x)). apply (sw_x _ _ _ _ _ _ _ HW).
      - intros e x He Hx. split.
        + rewrite <- (sw_eq _ _ _ _ _ _ _ HW t x HTt (cell_ab e x He Hx)).
          apply (U_eps 1 0 1 nu e t x); try assumption; lia.
        + apply (U_eps 0 1 0 nu e t x); try assumption; lia. }
    pose proof (L2_young (vsub (Ut 1 0 nu t) (Ut 0 1 nu t)) y2 s (2 * eps) Hs (fun p Hp => gap_eps nu t p Hnu Ht Hp)) as B.
    unfold dual_at. fold d. fold y1 y2. rewrite (bu_lam _ _ HB).
    assert (Q : l / lam <= l / 5) by (apply Rmult_le_compat_l; [lra|]; apply Rinv_le_contravar; lra).
    assert (Q2 : s * eps ^ 2 * (l + l / lam) <= s * eps ^ 2 * (l + l / 5)).
    { apply Rmult_le_compat_l; [apply Rmult_le_pos; [lra|apply pow2_ge_0]|lra]. }
    assert (Q3 : 0 <= s * eps ^ 2 * l) by (apply Rmult_le_pos; [apply Rmult_le_pos; [lra|apply pow2_ge_0]|lra]).
    replace (s * (7 / 2 * l * eps ^ 2)) with (7 / 2 * (s * eps ^ 2 * l)) by field.
    replace (s / 2 * (2 * eps) ^ 2 * l) with (2 * (s * eps ^ 2 * l)) in B by field.
    replace (s * eps ^ 2 * (l + l / 5)) with (6 / 5 * (s * eps ^ 2 * l)) in Q2 by field.
    rewrite Rmult_plus_distr_l, Rmult_plus_distr_l in A'. rewrite !Rmult_plus_distr_l. lra.
  Qed.
  Lemma optimise x A B : 0 <= A -> 0 <= B -> (forall s, 0 < s -> x <= s * (A / 2) + / (2 * s) * B) -> x <= sqrt A * sqrt B.
  Proof.
    intros HA HB0 Hx. destruct (Req_dec A 0) as [EA|NA].
    - subst A. rewrite sqrt_0, Rmult_0_l. apply Rnot_lt_le. intro Px.
      destruct (Req_dec B 0) as [->|NB]; [pose proof (Hx 1 ltac:(lra)); lra|].
      pose proof (Hx (B / x) ltac:(apply Rdiv_lt_0_compat; lra)) as H0.
      replace (B / x * (0 / 2) + / (2 * (B / x)) * B) with (x / 2) in H0 by (field; lra). lra.
    - destruct (Req_dec B 0) as [EB|NB].
      + subst B. rewrite sqrt_0, Rmult_0_r. apply Rnot_lt_le. intro Px.
        pose proof (Hx (x / A) ltac:(apply Rdiv_lt_0_compat; lra)) as H0.
        replace (x / A * (A / 2) + / (2 * (x / A)) * 0) with (x / 2) in H0 by (field; lra). lra.
      + assert (PA : 0 < sqrt A) by (apply sqrt_lt_R0; lra). assert (PB : 0 < sqrt B) by (apply sqrt_lt_R0; lra).
        pose proof (Hx (sqrt B / sqrt A) ltac:(apply Rdiv_lt_0_compat; lra)) as H0.
        assert (EA : sqrt A * sqrt A = A) by (apply sqrt_sqrt; lra). assert (EB : sqrt B * sqrt B = B) by (apply sqrt_sqrt; lra).
        rewrite <- EA in H0 at 2. rewrite <- EB in H0 at 3.
        replace (sqrt B / sqrt A * (sqrt A * sqrt A / 2) + / (2 * (sqrt B / sqrt A)) * (sqrt B * sqrt B)) with (sqrt A * sqrt B) in H0 by (field; lra).
        exact H0.
  Qed.
  Theorem wave_bound Z nu : (nu < c_N c)%nat ->
    wave D d U Z nu <= sqrt (7 * l * eps ^ 2 * dt) * sqrt (dual D d lam Z Z nu).
  Proof.
    intro Hnu. pose proof l_pos as Lp. pose proof Hdt as Hd. pose proof (pow2_ge_0 eps) as E2.
    assert (DC : forall x, continuous (dual_at c D Z Z nu) x) by (intro; apply (dual_cont P); exact HB).
    assert (ED : dual D d lam Z Z nu = over_slab d nu (dual_at c D Z Z nu)).
    { unfold dual, dual_at. rewrite (bu_lam _ _ HB). reflexivity. }
    apply optimise.
    - apply Rmult_le_pos; [|lra]. apply Rmult_le_pos; lra.
    - rewrite ED. apply (slab_nonneg c Hdt); [exact DC|]. intros t.
      pose proof (dual_at_pos P c om D HB (C75_regular _ _ _ _ _ _ om HM (fun p => proj1 (Hom p))) Z nu t) as Q. unfold dual_at. lra.
    - intros s Hs. change (wave D d U Z nu) with (over_slab d nu (wave_at Z nu)). rewrite ED.
      apply Rle_trans with (over_slab d nu (fun t => s * (7 / 2 * l * eps ^ 2) + / (2 * s) * dual_at c D Z Z nu t)).
      + apply over_mono; [apply wave_cont|intro; apply (cont_plus_R (fun _ => _)); [apply continuous_const|apply cont_scal_R, DC]|].
        intros t Ht. apply wave_pointwise; assumption.
      + unfold over_slab. cbn [t_dt td d]. fold dt.
        rewrite (RInt_plus_c (fun _ => s * (7 / 2 * l * eps ^ 2)) (fun t => / (2 * s) * dual_at c D Z Z nu t));
          [|intro; apply continuous_const|intro; apply cont_scal_R, DC].
        rewrite (RInt_scal_c (dual_at c D Z Z nu)) by exact DC. rewrite RInt_const_c. apply Req_le. field. lra.
  Qed.

  (** ** least-squares terms *)
  Lemma U_ends nu t : (nu < c_N c)%nat -> Ut 0 0 nu t 0%nat = 0 /\ Ut 0 0 nu t (n * kp)%nat = 0.
  Proof.
    intros Hnu. pose proof Hdt as Hd.
    assert (HN : forall s, (s <= q)%nat -> 0 <= t0 nu + dt * node q s <= p_T P).
    { intros s Hs. apply (slab_T nu); [exact Hnu|]. unfold in_slab.
      assert (0 <= node q s <= 1).
      { unfold node. assert (0 < INR q) by (apply lt_0_INR; unfold q; lia). split.
        - apply Rmult_le_pos; [apply pos_INR|left; apply Rinv_0_lt_compat; lra].
        - apply (Rmult_le_reg_r (INR q)); [lra|]. replace (INR s / INR q * INR q) with (INR s) by (field; lra). rewrite Rmult_1_l. apply le_INR, Hs. }
      split; nra. }
    split; unfold Ut; apply dinterp_zero; intros s Hs.
    - rewrite dof_x_first by exact Hk. apply (sw_a _ _ _ _ _ _ _ HW), HN, Hs.
    - rewrite dof_x_last by (exact Hk || exact Hn). apply (sw_b _ _ _ _ _ _ _ HW), HN, Hs.
  Qed.
  Lemma bnd_zero a lm : a 0%nat = 0 -> a (n * kp)%nat = 0 -> bndw D lm Vp a a = 0.
  Proof.
    intros A0 A1. rewrite (C75_penalty n xs kp kd qp deg lm Vp a a HM). cbn [dg]. rewrite !fe_fed.
    pose proof Hn as Hn1.
    rewrite (fed_left n xs kp kd qp deg HM Hd1 Hd2 kp a 0 Hk ltac:(lia)). cbn [Nat.mul]. rewrite A0.
    replace (xs n) with (xs (S (n - 1))) at 2 3 by (f_equal; lia).
    rewrite (fed_right n xs kp kd qp deg HM Hd1 Hd2 kp a (n - 1) Hk ltac:(lia)). replace (S (n - 1) * kp)%nat with (n * kp)%nat by (f_equal; lia).
    rewrite A1. ring.
  Qed.
  Lemma facet_le a K : (forall v, (1 <= v < n)%nat -> Rabs (slope_jump xs kp a v) <= K) -> facet D Vp a a <= K ^ 2 * l.
  Proof.
    intro B. rewrite (C75_jumps n xs kp kd qp deg Vp a a HM). cbn [dg].
    apply Rle_trans with (Rsum (seq 1 (n - 1)) (fun v => K ^ 2 * ((xs (v + 1)%nat - xs (v - 1)%nat) / 2))).
    - apply Rsum_le. intros v Hv. apply in_seq in Hv. rewrite Rmult_comm. apply Rmult_le_compat_r.
      + pose proof (xs_mono _ _ _ _ _ _ HM Hd1 Hd2 (v - 1) (v + 1) ltac:(lia) ltac:(lia)). lra.
      + rewrite <- Rsqr_pow2. rewrite (Rsqr_abs K). replace (slope_jump xs kp a v * slope_jump xs kp a v) with (Rsqr (slope_jump xs kp a v)) by reflexivity.
        rewrite (Rsqr_abs (slope_jump xs kp a v)). apply Rsqr_incr_1; [|apply Rabs_pos|apply Rabs_pos].
        eapply Rle_trans; [apply (B v); lia|apply Rle_abs].
    - rewrite Rsum_scal. apply Rmult_le_compat_l; [apply pow2_ge_0|]. rewrite (Rsum_seq_shift 1).
      rewrite (Rsum_ext _ _ (fun v => / 2 * ((xs (S (S v)) + xs (S v)) - (xs (S v) + xs v)))).
      2: { intro v. replace (1 + v + 1)%nat with (S (S v)) by lia. replace (1 + v - 1)%nat with v by lia. field. }
      rewrite Rsum_scal, (telescope (fun v => xs (S v) + xs v)). pose proof Hn. replace (S (n - 1)) with n by lia.
      pose proof (xs_mono _ _ _ _ _ _ HM Hd1 Hd2 0 1 ltac:(lia) ltac:(lia)).
      pose proof (xs_mono _ _ _ _ _ _ HM Hd1 Hd2 (n - 1) n ltac:(lia) ltac:(lia)). lra.
  Qed.
  Lemma sq_le a K : Rabs a <= K -> a ^ 2 <= K ^ 2.
  Proof. intro B. rewrite <- (pow2_abs a). apply pow_incr. split; [apply Rabs_pos|exact B]. Qed.
  Lemma primal_pointwise nu t : (nu < c_N c)%nat -> in_slab nu t -> primal_at c D U U nu t <= 12 * l * eps ^ 2.
  Proof.
    intros Hnu Ht. pose proof (slab_T nu t Hnu Ht) as HTt. unfold primal_at. fold d.
    assert (A1 : L2 D Vp Vp (vsub (ddt (at_time d U 0 nu) t) (at_time d U 1 nu t)) (vsub (ddt (at_time d U 0 nu) t) (at_time d U 1 nu t)) <= (2 * eps) ^ 2 * l).
    { unfold L2, sp. cbn [ncomp]. apply integ_le. intros p Hp. cbn [wval]. rewrite Rmult_1_l. apply sq_le.
      rewrite (fev_ext D Dx Vp Val _ (vsub (Ut 1 0 nu t) (Ut 0 1 nu t))) by (intros r _; unfold vsub; rewrite ddt_U, at_U by lia; reflexivity).
      apply gap_eps; assumption. }
    assert (A2 : integ D Dx WH2 1 (fun p _ => res2 D d U nu t p) (fun p _ => res2 D d U nu t p) <= (2 * eps) ^ 2 * l).
    { apply integ_le. intros p Hp. cbn [wval d_h disc1]. unfold len.
      replace (h (p / m) ^ 2 * res2 D d U nu t p ^ 2) with ((h (p / m) * res2 D d U nu t p) ^ 2) by ring. apply sq_le.
      unfold res2. rewrite (fev_ext D Dx Vp Val _ (Ut 1 1 nu t)) by (intros r _; apply ddt_U; lia).
      rewrite (fev_ext D Dx Vp Lap _ (Ut 0 0 nu t)) by (intros r _; apply at_U; lia).
      rewrite fev_fed, lap_fed by exact Hp. pose proof (pt_e p Hp) as He. pose proof (pt_x p Hp) as Hx.
      pose proof (U_eps 1 0 1 nu (p / m) t (X p) ltac:(lia) ltac:(lia) Hnu He Ht Hx) as B1.
      pose proof (U_eps2 nu (p / m) t (X p) Hnu He Ht Hx) as B2. cbn [Nat.add] in B1.
      rewrite (sw_eq _ _ _ _ _ _ _ HW t (X p) HTt (cell_ab (p / m) (X p) He Hx)) in B1.
      pose proof (h_pos _ _ _ _ _ _ HM _ He) as Hh. pose proof (HH _ He) as Hh1.
      set (u := fed xs kp (Ut 1 1 nu t) 0 (p / m) (X p)) in *. set (v := fed xs kp (Ut 0 0 nu t) 2 (p / m) (X p)) in *.
      set (f := w 0%nat 2%nat t (X p)) in *. set (hh := h (p / m)) in *.
      replace (hh * (u - v)) with (hh * (u - f) - hh * (v - f)) by ring.
      eapply Rle_trans; [apply Rabs_triang|]. rewrite Rabs_Ropp, !Rabs_mult, (Rabs_pos_eq hh) by lra.
      pose proof (Rabs_pos (u - f)). assert (hh * Rabs (u - f) <= 1 * Rabs (u - f)) by (apply Rmult_le_compat_r; lra). lra. }
    destruct (U_ends nu t Hnu) as [E0 E1].
    assert (A3 : bndw D (c_lam c) Vp (at_time d U 0 nu t) (at_time d U 0 nu t) = 0) by (apply bnd_zero; rewrite at_U by lia; assumption).
    assert (A4 : facet D Vp (at_time d U 0 nu t) (at_time d U 0 nu t) <= (2 * eps) ^ 2 * l).
    { apply facet_le. intros v Hv. unfold slope_jump.
      rewrite (dfe_fed n xs kp kd qp deg HM kp _ (v - 1)), (dfe_fed n xs kp kd qp deg HM kp _ v) by lia.
      assert (FE : forall e x, fed xs kp (at_time d U 0 nu t) 1 e x = fed xs kp (Ut 0 0 nu t) 1 e x).
      { intros e x. unfold fed. apply dinterp_ext. intros r _. apply at_U. lia. }
      rewrite !FE.
      assert (Ev : xs (v - 1)%nat <= xs v <= xs (S (v - 1))).
      { replace (S (v - 1)) with v by lia. pose proof (xs_mono _ _ _ _ _ _ HM Hd1 Hd2 (v - 1) v ltac:(lia) ltac:(lia)). lra. }
      assert (Ew : xs v <= xs v <= xs (S v)) by (pose proof (h_pos _ _ _ _ _ _ HM v ltac:(lia)); lra).
      pose proof (U_eps 0 1 0 nu (v - 1) t (xs v) ltac:(lia) ltac:(lia) Hnu ltac:(lia) Ht Ev) as B1.
      pose proof (U_eps 0 1 0 nu v t (xs v) ltac:(lia) ltac:(lia) Hnu ltac:(lia) Ht Ew) as B2.
      apply Rabs_le_between in B1. apply Rabs_le_between in B2. apply Rabs_le_between. lra. }
    rewrite A3. replace (12 * l * eps ^ 2) with ((2 * eps) ^ 2 * l + (2 * eps) ^ 2 * l + 0 + (2 * eps) ^ 2 * l) by ring. lra.
  Qed.
  Theorem primal_bound nu : (nu < c_N c)%nat -> primal D d lam U U nu <= dt * (12 * l * eps ^ 2).
  Proof.
    intro Hnu. replace (primal D d lam U U nu) with (over_slab d nu (primal_at c D U U nu)).
    - apply over_le; [intro; apply (primal_cont P c D HB Hdt)|]. intros t Ht. apply primal_pointwise; assumption.
    - unfold primal_at, primal. rewrite (bu_lam _ _ HB). reflexivity.
  Qed.

  (** ** measurements *)
  Lemma value_le nu t p : (nu < c_N c)%nat -> in_slab nu t -> In p (d_pts D Dx) -> Rabs (fev D Dx Vp Val (Ut 0 0 nu t) p 0) <= M0 + eps.
  Proof.
    intros Hnu Ht Hp. rewrite fev_fed by exact Hp. pose proof (pt_e p Hp) as He. pose proof (pt_x p Hp) as Hx.
    pose proof (U_eps 0 0 0 nu (p / m) t (X p) ltac:(lia) ltac:(lia) Hnu He Ht Hx) as A.
    pose proof (HM0 t (X p) (slab_T nu t Hnu Ht) (cell_ab _ _ He Hx)) as B.
    cbn [Nat.add] in A. apply Rabs_le_between in A. apply Rabs_le_between in B. apply Rabs_le_between. lra.
  Qed.
  Lemma omax_pos : 0 <= omax.
  Proof. pose proof (Hom 0%nat). lra. Qed.
  Theorem data_bound nu : (nu < c_N c)%nat -> data D d om U U nu <= dt * (omax * (M0 + eps) ^ 2 * l).
  Proof.
    intro Hnu. change (data D d om U U nu) with (over_slab d nu (data_at c om D U U nu)).
    apply over_le; [intro; apply (data_cont P c om D HB)|]. intros t Ht. unfold data_at, L2w, sp. cbn [ncomp]. apply integ_le. intros p Hp.
    cbn [wval]. rewrite (fev_ext D Dx Vp Val _ (Ut 0 0 nu t)) by (intros r _; apply at_U; lia).
    pose proof (sq_le _ _ (value_le nu t p Hnu Ht Hp)). pose proof (Hom p).
    apply Rmult_le_compat; [lra|apply pow2_ge_0|lra|assumption].
  Qed.
  Lemma qr_weights : (forall tau w0, In (tau, w0) (c_qr c) -> 0 <= w0) /\ Rsum (c_qr c) (fun '(tau, w0) => w0) <= 2.
  Proof.
    destruct (bu_qr _ _ HB) as [qr [E1 E2]]. cbn in E1. injection E1; intros <-; clear E1.
    cbn in E2. injection E2; intros <-; clear E2. split.
    - cbn [In]. intros tau w0 H0. decompose [or] H0; clear H0; try contradiction;
        match goal with E : (_, _) = _ |- _ => injection E; intros; subst end; decimals; lra.
    - rewrite !Rsum_cons, Rsum_nil. decimals. lra.
  Qed.
  (** samples of the measured wave, needed only inside the data domain *)
  Definition measured : Prop := forall t p, 0 <= t <= p_T P -> In p (d_pts D Dx) -> om p <> 0 -> p_v P t (d_x D p) = w 0%nat 0%nat t (X p).
  Theorem misfit_bound nu : (nu < c_N c)%nat -> measured ->
    dt * Rsum (c_qr c) (fun '(tau, w0) => w0 * Rsum (d_pts D Dx) (fun p => d_w D Dx p * om p
       * (p_v P (INR nu * dt + dt * tau) (d_x D p) - fev D Dx Vp Val (at_time d U 0 nu (INR nu * dt + dt * tau)) p 0) ^ 2))
    <= dt * (2 * (omax * eps ^ 2 * l)).
  Proof.
    intros Hnu Hmeas. pose proof Hdt as Hd. destruct qr_weights as [W1 W2]. pose proof omax_pos as O0. pose proof l_pos as Lp.
    apply Rmult_le_compat_l; [lra|].
    apply Rle_trans with (Rsum (c_qr c) (fun '(tau, w0) => w0 * (omax * eps ^ 2 * l))).
    - apply Rsum_le. intros [tau w0] Hin0. apply Rmult_le_compat_l; [exact (W1 _ _ Hin0)|].
      rewrite <- sum_w, <- Rsum_scal. apply Rsum_le. intros p Hp.
      pose proof (qr_range P c HB tau w0 Hin0) as Htau. set (t := INR nu * dt + dt * tau).
      assert (Ht : in_slab nu t) by (unfold in_slab, t0, t; split; nra).
      pose proof (w_pos p Hp) as Wp. pose proof (Hom p) as Op.
      destruct (Req_dec (om p) 0) as [Z|NZ].
      + rewrite Z. rewrite Rmult_0_r, Rmult_0_l. apply Rmult_le_pos; [apply Rmult_le_pos; [lra|apply pow2_ge_0]|exact Wp].
      + rewrite (Hmeas t p (slab_T nu t Hnu Ht) Hp NZ).
        rewrite (fev_ext D Dx Vp Val _ (Ut 0 0 nu t)) by (intros r _; apply at_U; lia). rewrite fev_fed by exact Hp.
        pose proof (U_eps 0 0 0 nu (p / m) t (X p) ltac:(lia) ltac:(lia) Hnu (pt_e p Hp) Ht (pt_x p Hp)) as B. cbn [Nat.add] in B.
        rewrite Rabs_minus_sym in B. pose proof (sq_le _ _ B) as S.
        set (g := w 0%nat 0%nat t (X p) - fed xs kp (Ut 0 0 nu t) 0 (p / m) (X p)) in *.
        rewrite (Rmult_assoc (d_w D Dx p)), (Rmult_comm (omax * eps ^ 2)). apply Rmult_le_compat_l; [exact Wp|].
        apply Rmult_le_compat; [lra|apply pow2_ge_0|lra|exact S].
    - rewrite (Rsum_ext (c_qr c) _ (fun x => (omax * eps ^ 2 * l) * (let '(tau, w0) := x in w0))) by (intros [tau w0]; ring).
      rewrite Rsum_scal, Rmult_comm. apply Rmult_le_compat_r; [|exact W2].
      apply Rmult_le_pos; [apply Rmult_le_pos; [lra|apply pow2_ge_0]|lra].
  Qed.

  (** ** jumps and initial values *)
  Lemma upper_U j nu r : (j < 2)%nat -> upper d U j nu r = w j 0%nat (t0 nu) (dof_x xs kp r).
  Proof.
    intro Hj. pose proof Hdt as Hd. unfold upper. rewrite at_U by exact Hj. unfold Ut. change (t_dt d) with dt.
    pose proof (dinterp_node q (t0 nu) dt (fun s => w j 0%nat (t0 nu + dt * node q s) (dof_x xs kp r)) 0 Hq ltac:(lra) ltac:(lia)) as E.
    cbv beta in E. rewrite node_first, Rmult_0_r, Rplus_0_r in E. exact E.
  Qed.
  Lemma lower_U j nu r : (j < 2)%nat -> (1 <= nu)%nat -> lower d U j nu r = w j 0%nat (t0 nu) (dof_x xs kp r).
  Proof.
    intros Hj Hnu. pose proof Hdt as Hd. unfold lower. rewrite at_U by exact Hj. unfold Ut. change (t_dt d) with dt.
    assert (ET : t0 (nu - 1) + dt = t0 nu) by (unfold t0; rewrite minus_INR by exact Hnu; cbn [INR]; ring).
    pose proof (dinterp_node q (t0 (nu - 1)) dt (fun s => w j 0%nat (t0 (nu - 1) + dt * node q s) (dof_x xs kp r)) q Hq ltac:(lra) ltac:(lia)) as E.
    cbv beta in E. rewrite node_last, Rmult_1_r, ET in E by exact Hq. exact E.
  Qed.
  Lemma jumps_U nu : (1 <= nu)%nat -> jumps D d U U nu = 0.
  Proof.
    intro Hnu. assert (Z : forall j r, (j < 2)%nat -> jumpv d U j nu r = 0).
    { intros j r Hj. unfold jumpv, vsub. rewrite upper_U, lower_U by assumption. ring. }
    unfold jumps, energy, L2, H1. rewrite !sp_zero1 by (intros; apply Z; lia). ring.
  Qed.
  Theorem rest_bound : integ D Dx WOne 1 (fun p k => 1 - fev D Dx Vp Val (U 0%nat 0%nat) p k) (fun p k => 1 - fev D Dx Vp Val (U 0%nat 0%nat) p k)
    <= (1 + M0 + eps) ^ 2 * l.
  Proof.
    pose proof Hdt as Hd. pose proof (bu_N _ _ HB) as HN. apply integ_le. intros p Hp. cbn [wval]. rewrite Rmult_1_l. apply sq_le.
    rewrite (fev_ext D Dx Vp Val _ (Ut 0 0 0 0)).
    2: { intros r _. pose proof (upper_U 0 0 r ltac:(lia)) as E. unfold upper in E. rewrite at_U in E by lia. cbn [INR] in E.
         rewrite Rmult_0_l in E. rewrite E. change (U 0%nat 0%nat r) with (U 0%nat (0 * S q + 0)%nat r).
         rewrite U_node, node_first by lia. rewrite Rmult_0_r, Rplus_0_r. reflexivity. }
    pose proof (value_le 0 0 p ltac:(lia) ltac:(unfold in_slab, t0; cbn [INR]; lra) Hp) as B. apply Rabs_le_between in B. apply Rabs_le_between. lra.
  Qed.
  (** ** the residual of one slab *)
  Variables (g : gammas) (u1v u1g u2v : nat -> nat -> R).
  Hypothesis G1 : 0 <= g_data g.
  Hypothesis G2 : 0 < g_dual g.
  Hypothesis G3 : 0 <= g_primal g.
  Hypothesis Hmeas : measured.
  (** initial data handed over as finite element functions: nodal values of the wave at time 0 *)
  Definition initial : Prop := p_wp P = true -> forall p k, In p (d_pts D Dx) -> (k < 1)%nat ->
    u1v p k = fev D Dx Vp Val (fun r => w 0%nat 0%nat 0 (dof_x xs kp r)) p k
    /\ u1g p k = fev D Dx Vp Grad (fun r => w 0%nat 0%nat 0 (dof_x xs kp r)) p k
    /\ u2v p k = fev D Dx Vp Val (fun r => w 1%nat 0%nat 0 (dof_x xs kp r)) p k.
  Hypothesis Hinit : initial.
  Definition rate : R := l * (eps ^ 2 * (8 * g_data g * omax + 7 / g_dual g + 12 * g_primal g) + 2e-10 * g_data g * omax * (M0 + eps) ^ 2).
  Lemma residual_bound nu : (nu < c_N c)%nat ->
    residual2 P (c_qr c) g om D (d_x D) u1v u1g u2v U (fun _ => sqrt (7 * l * eps ^ 2 * dt)) nu <= dt * rate.
  Proof.
    intro Hnu. pose proof Hdt as Hd. pose proof l_pos as Lp. pose proof (pow2_ge_0 eps) as E2.
    unfold residual2. rewrite <- (tgrid_td _ _ HC). fold d. cbv zeta. change (t_dt d) with dt.
    assert (A1 := misfit_bound nu Hnu Hmeas). assert (A2 := data_bound nu Hnu). assert (A3 := primal_bound nu Hnu).
    set (mis := dt * Rsum (c_qr c) _) in *. clearbody mis.
    set (A := data D d om U U nu) in *. set (B := primal D d lam U U nu) in *. clearbody A B.
    assert (A4 : sqrt (7 * l * eps ^ 2 * dt) ^ 2 = 7 * l * eps ^ 2 * dt) by (apply pow2_sqrt; apply Rmult_le_pos; [apply Rmult_le_pos; lra|lra]).
    rewrite A4.
    assert (A5 : (if Nat.ltb 0 nu then (g_jump g + if p_jumps P then (1 + if Z.eqb (p_qstar P) 0 then 1e-15 else 0) ^ 2 / g_dual g else 0) * jumps D d U U nu
       else if p_wp P then
       g_jump g * (1 / dt * integ D Dx WOne 1 (fun p k => u1v p k - fev D Dx Vp Val (upper d U 0 0) p k) (fun p k => u1v p k - fev D Dx Vp Val (upper d U 0 0) p k)
                   + dt * integ D Dx WOne (d_gd D) (fun p k => u1g p k - fev D Dx Vp Grad (upper d U 0 0) p k) (fun p k => u1g p k - fev D Dx Vp Grad (upper d U 0 0) p k)
                   + 1 / dt * integ D Dx WOne 1 (fun p k => u2v p k - fev D Dx Vp Val (upper d U 1 0) p k) (fun p k => u2v p k - fev D Dx Vp Val (upper d U 1 0) p k))
     else 0) = 0).
    { destruct (Nat.ltb_spec 0 nu) as [L|L]; [rewrite jumps_U by lia; ring|]. destruct (p_wp P) eqn:Ewp; [|reflexivity].
      assert (T00 : t0 0 = 0) by (unfold t0; cbn [INR]; ring).
      rewrite !integ_zero; [ring| | |]; intros p k Hp Hk0; cbn [d_gd disc1] in Hk0;
        destruct (Hinit Ewp p k Hp Hk0) as [I1 [I2 I3]]; first [rewrite I1|rewrite I2|rewrite I3];
        match goal with |- _ - fev _ _ _ _ (upper d U ?j 0) _ _ = _ =>
          rewrite (fev_ext D Dx Vp _ (upper d U j 0) (fun r => w j 0%nat 0 (dof_x xs kp r))) by (intros r _; rewrite upper_U, T00 by lia; reflexivity) end; ring. }
    rewrite A5. unfold rate. pose proof (Rmult_le_compat_l _ _ _ G1 A1) as B1. pose proof (Rmult_le_compat_l _ _ _ G1 A2) as B2.
    pose proof (Rmult_le_compat_l _ _ _ G3 A3) as B3. decimals.
    replace (dt * (l * (eps ^ 2 * (8 * g_data g * omax + 7 / g_dual g + 12 * g_primal g) + 2 / 10000000000 * g_data g * omax * (M0 + eps) ^ 2)))
      with (4 * (g_data g * (dt * (2 * (omax * eps ^ 2 * l)))) + 2 / 10000000000 * (g_data g * (dt * (omax * (M0 + eps) ^ 2 * l)))
        + 7 * l * eps ^ 2 * dt / g_dual g + g_primal g * (dt * (12 * l * eps ^ 2))) by (field; lra).
    lra.
  Qed.
End Wave.
