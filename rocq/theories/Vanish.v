(** Vanish.v -- stability of the operator that the drivers hand to GMRES, and the size of the
    solution for the right-hand side without data (proof file of C77). *)
From Coq Require Import Reals List ZArith Lra Lia Bool String.
From Coquelicot Require Import Coquelicot.
From Verif Require Import FormCons Base TimeModel TimeSpec TimeProofs QuadProofs FormModel FormSpec FormProofs
  SpaceTimeForms FormBlocks GuardProofs FormTime FormC12 FormSym FormStruct FormWf FormExample Props_Forms
  SpaceTimeModel SlabOps ApplyProofs MarchProofs MarchSum Lifecycle LifeProofs OpsProofs LinAlg WellPosed Injective Props_Ops
  GmresModel Props_Gmres DriverModel DriverConfig Props_Solve Props_WellPosed Stability Props_Stability Observe Props_Observe Delivered Props_Config Space1D NoData Elliptic1D Props_Space1D ErrorsModel ErrorsSpec ErrorsProofs Props_Errors.
Import ListNotations.
Open Scope R_scope.

(** * Cauchy-Schwarz and the triangle inequality at the quadrature points *)
Lemma quad_cs A B M : 0 <= A -> 0 <= B -> (forall k, 0 <= A - 2 * k * M + k ^ 2 * B) -> M <= sqrt A * sqrt B.
Proof.
  intros HA HB H. rewrite <- sqrt_mult by assumption. destruct (Rle_lt_dec M 0) as [L|L]; [eapply Rle_trans; [exact L|apply sqrt_pos]|].
  rewrite <- (sqrt_Rsqr M) by lra. apply sqrt_le_1_alt. unfold Rsqr. destruct (Req_dec B 0) as [->|Bn].
  - specialize (H ((A + 1) / (2 * M))). exfalso.
    replace (A - 2 * ((A + 1) / (2 * M)) * M + ((A + 1) / (2 * M)) ^ 2 * 0) with (-1) in H by (field; lra). lra.
  - specialize (H (M / B)). assert (E : A - 2 * (M / B) * M + (M / B) ^ 2 * B = / B * (A * B - M * M)) by (field; exact Bn).
    rewrite E in H. assert (0 < / B) by (apply Rinv_0_lt_compat; lra).
    assert (0 <= A * B - M * M); [|lra]. apply (Rmult_le_reg_l (/ B)); lra.
Qed.
Lemma dist2_nonneg D f : nonneg_dx D -> 0 <= dist2 D f.
Proof. intro H. apply Rsum_nonneg. intros p Hp. apply Rmult_le_pos; [apply H, Hp|apply pow2_ge_0]. Qed.
Lemma dist2_triangle D f v : nonneg_dx D -> Rabs (sqrt (dist2 D (fun p => f p - v p)) - sqrt (dist2 D v)) <= sqrt (dist2 D f).
Proof.
  intro Hw. set (A := dist2 D (fun p => f p - v p)). set (B := dist2 D v). set (F := dist2 D f).
  assert (NA : 0 <= A) by (apply dist2_nonneg, Hw). assert (NB : 0 <= B) by (apply dist2_nonneg, Hw). assert (NF : 0 <= F) by (apply dist2_nonneg, Hw).
  set (M := Rsum (d_pts D Dx) (fun p => d_w D Dx p * ((f p - v p) * - v p))).
  assert (Q : M <= sqrt A * sqrt B).
  { apply quad_cs; try assumption. intro k.
    assert (E : A - 2 * k * M + k ^ 2 * B = dist2 D (fun p => (f p - v p) + k * v p)).
    { unfold A, B, M, dist2. rewrite <- !Rsum_scal. rewrite <- Rsum_minus, <- Rsum_plus. apply Rsum_ext; intro p. ring. }
    rewrite E. apply dist2_nonneg, Hw. }
  assert (EF : F = A + B - 2 * M).
  { unfold F, A, B, M, dist2. rewrite <- Rsum_scal, <- Rsum_plus, <- Rsum_minus. apply Rsum_ext; intro p. ring. }
  rewrite <- sqrt_Rsqr_abs. apply sqrt_le_1_alt. unfold Rsqr. pose proof (sqrt_sqrt A NA). pose proof (sqrt_sqrt B NB). lra.
Qed.
Lemma cub_sup a t : 0 <= t <= 1 -> cub a t * cub a t <= 16 * cub_sq a.
Proof.
  intro Ht. unfold cub_sq, cub. set (a0 := a 0%nat). set (a1 := a 1%nat). set (a2 := a 2%nat). set (a3 := a 3%nat). cbn zeta.
  set (b3 := a3 / 20). set (b2 := (a2 + 30 * b3) / 6). set (b1 := (a1 + 6 * b2 - 12 * b3) / 2).
  set (b0 := a0 + b1 - b2 + b3).
  assert (E3 : a3 = 20 * b3) by (unfold b3; field).
  assert (E2 : a2 = 6 * b2 - 30 * b3) by (unfold b2; field).
  assert (E1 : a1 = 2 * b1 - 6 * b2 + 12 * b3) by (unfold b1; field).
  assert (E0 : a0 = b0 - b1 + b2 - b3) by (unfold b0; ring).
  rewrite E0, E1, E2, E3. clearbody b0 b1 b2 b3. clear - Ht.
  set (x := 2 * t - 1). assert (Hx : -1 <= x <= 1) by (unfold x; lra).
  set (l2 := (3 * x ^ 2 - 1) / 2). set (l3 := (5 * x ^ 3 - 3 * x) / 2).
  assert (Hl2 : -1 <= l2 <= 1).
  { unfold l2. pose proof (pow2_ge_0 x). assert (0 <= (1 - x) * (1 + x)) by (apply Rmult_le_pos; lra). split; lra. }
  assert (Hl3 : -1 <= l3 <= 1).
  { assert (P1 : 0 <= (1 - x) * (5 * x ^ 2 + 5 * x + 2)).
    { apply Rmult_le_pos; [lra|]. pose proof (pow2_ge_0 (x + 1 / 2)). lra. }
    assert (P2 : 0 <= (1 + x) * (5 * x ^ 2 - 5 * x + 2)).
    { apply Rmult_le_pos; [lra|]. pose proof (pow2_ge_0 (x - 1 / 2)). lra. }
    unfold l3. split; lra. }
  assert (EP : b0 - b1 + b2 - b3 + (2 * b1 - 6 * b2 + 12 * b3) * t + (6 * b2 - 30 * b3) * t ^ 2 + 20 * b3 * t ^ 3 = b0 + b1 * x + b2 * l2 + b3 * l3)
    by (unfold l2, l3, x; field).
  rewrite EP. clear EP. clearbody l2 l3 x. clear t Ht.
  assert (Sq : forall y, -1 <= y <= 1 -> y * y <= 1).
  { intros y Hy. assert (0 <= (1 - y) * (1 + y)) by (apply Rmult_le_pos; lra). lra. }
  pose proof (Sq x Hx) as X1. pose proof (Sq l2 Hl2) as X2. pose proof (Sq l3 Hl3) as X3.
  (* (b . y)^2 <= (sum b_k^2 / (2k+1)) (sum (2k+1) y_k^2) *)
  set (m := b0 * b0 + b1 * b1 / 3 + b2 * b2 / 5 + b3 * b3 / 7).
  assert (Em : (b0 - b1 + b2 - b3) * (b0 - b1 + b2 - b3) + (b0 - b1 + b2 - b3) * (2 * b1 - 6 * b2 + 12 * b3)
    + (2 * (b0 - b1 + b2 - b3) * (6 * b2 - 30 * b3) + (2 * b1 - 6 * b2 + 12 * b3) * (2 * b1 - 6 * b2 + 12 * b3)) / 3
    + ((b0 - b1 + b2 - b3) * (20 * b3) + (2 * b1 - 6 * b2 + 12 * b3) * (6 * b2 - 30 * b3)) / 2
    + (2 * (2 * b1 - 6 * b2 + 12 * b3) * (20 * b3) + (6 * b2 - 30 * b3) * (6 * b2 - 30 * b3)) / 5
    + (6 * b2 - 30 * b3) * (20 * b3) / 3 + 20 * b3 * (20 * b3) / 7 = m) by (unfold m; field).
  rewrite Em.
  assert (Hm : 0 <= m). { unfold m. pose proof (Rle_0_sqr b0). pose proof (Rle_0_sqr b1). pose proof (Rle_0_sqr b2). pose proof (Rle_0_sqr b3). unfold Rsqr in *. lra. }
  assert (CS : (b0 + b1 * x + b2 * l2 + b3 * l3) * (b0 + b1 * x + b2 * l2 + b3 * l3) <= m * (1 + 3 * (x * x) + 5 * (l2 * l2) + 7 * (l3 * l3))).
  { assert (EQ : m * (1 + 3 * (x * x) + 5 * (l2 * l2) + 7 * (l3 * l3)) - (b0 + b1 * x + b2 * l2 + b3 * l3) * (b0 + b1 * x + b2 * l2 + b3 * l3)
      = Rsqr (3 * x * b0 - b1) / 3 + Rsqr (5 * l2 * b0 - b2) / 5 + Rsqr (7 * l3 * b0 - b3) / 7
        + Rsqr (5 * l2 * b1 - 3 * x * b2) / 15 + Rsqr (7 * l3 * b1 - 3 * x * b3) / 21 + Rsqr (7 * l3 * b2 - 5 * l2 * b3) / 35)
      by (unfold m, Rsqr; field).
    pose proof (Rle_0_sqr (3 * x * b0 - b1)). pose proof (Rle_0_sqr (5 * l2 * b0 - b2)). pose proof (Rle_0_sqr (7 * l3 * b0 - b3)).
    pose proof (Rle_0_sqr (5 * l2 * b1 - 3 * x * b2)). pose proof (Rle_0_sqr (7 * l3 * b1 - 3 * x * b3)). pose proof (Rle_0_sqr (7 * l3 * b2 - 5 * l2 * b3)). lra. }
  eapply Rle_trans; [exact CS|]. rewrite Rmult_comm. apply Rmult_le_compat_r; [exact Hm|]. lra.
Qed.

Section Van.
  Variables (P : params) (E : env) (g : gammas) (om : nat -> R) (K H : R).
  Notation c := (e_c E).
  Notation D := (e_D E).
  Notation L := (e_Lf E).
  Notation N := (c_N c).
  Notation q1 := (S (c_q c)).
  Notation qs1 := (S (c_qs c)).
  Notation d := (td c).
  Hypotheses (HC : construct P = Ok c) (HT : 0 < p_T P) (HE : env_ok E) (Hj : p_jumps P = false) (Hw : p_wp P = false).
  Hypotheses (HR : regular D om) (HK0 : 0 < K) (HK : elliptic_bound D (5 * INR (p_k P) ^ 2) K)
    (HH : forall p, In p (d_pts D Dx) -> d_h D Dx p <= H).
  Hypotheses (G1 : 0 <= g_data g) (G2 : 0 < g_dual g) (G3 : 0 < g_primal g) (G4 : 0 <= g_jump g).
  Notation fa := (factor (Z.to_nat (p_q P)) (t_dt (tgrid P)) K H).
  Let HB := construct_inv _ _ HC.
  Let Hdt := dt_pos _ _ HC HT.

  Lemma fa_pos : 0 < fa.
  Proof.
    unfold factor. rewrite (tgrid_dt P c HC). assert (0 < 180 / c_dt c ^ 2) by (apply Rdiv_lt_0_compat; [lra|apply pow_lt, Hdt]).
    pose proof (pow2_ge_0 H). assert (0 <= 3 * H ^ 2 * (180 / c_dt c ^ 2)) by (apply Rmult_le_pos; lra).
    apply Rmult_lt_0_compat; [apply Rmult_lt_0_compat; lra|]. destruct (Nat.leb _ _); [lra|].
    assert (0 <= 3 * H ^ 2 * K * (180 / c_dt c ^ 2) ^ 2); [|lra]. apply Rmult_le_pos; [apply Rmult_le_pos; lra|apply pow2_ge_0].
  Qed.
  (** values of u1 at the start of a slab *)
  Lemma start_by_primal X n :
    c_dt c / 16 * L2 D Vp Vp (X 0%nat (n * q1)%nat) (X 0%nat (n * q1)%nat) <= fa * primal D d (c_lam c) X X n.
  Proof.
    pose proof (C76_primal_controls P c om D K H X n HC HT HR (Rlt_le _ _ HK0) HK HH) as Q.
    rewrite <- (tgrid_td _ _ HC), <- (lam_pos P c HC) in Q.
    pose proof (data_trace P c (fun _ => 1) D HB Hdt (regular_ones D om HR) 1 ltac:(lra) ltac:(intros; lra) X n) as T.
    assert (E1 : data D (td c) (fun _ => 1) X X n = over_slab (td c) n (fun t => L2 D Vp Vp (at_time (td c) X 0 n t) (at_time (td c) X 0 n t))) by reflexivity.
    rewrite E1 in T. rewrite (tgrid_td _ _ HC) in *. lra.
  Qed.
  Lemma reg_pos : 0 < reg.
  Proof. unfold reg. decimals. lra. Qed.
  (** the 1e-20 products are absorbed *)
  Lemma cross X n : 256 * reg ^ 2 * fa <= g_primal g * g_dual g * c_dt c ^ 2 ->
    reg * L2 D Vp Vd (X 0%nat (n * q1)%nat) (X 2%nat (n * qs1)%nat)
    <= / 2 * (g_primal g * primal D d (c_lam c) X X n + g_dual g * dual D d (c_lam c) X X n).
  Proof.
    intro Hk. pose proof reg_pos as Rp. pose proof fa_pos as Fp.
    assert (Gd : 0 < g_dual g * c_dt c) by (apply Rmult_lt_0_compat; assumption).
    pose proof (young om D HR Vp Vd reg (g_dual g * c_dt c / 32) (X 0%nat (n * q1)%nat) (X 2%nat (n * qs1)%nat) ltac:(lra)) as Y.
    pose proof (start_by_primal X n) as S0. pose proof (dual_trace P c om D HB Hdt HR X n) as S2.
    set (A := L2 D Vp Vp (X 0%nat (n * q1)%nat) (X 0%nat (n * q1)%nat)) in *.
    set (B := L2 D Vd Vd (X 2%nat (n * qs1)%nat) (X 2%nat (n * qs1)%nat)) in *.
    set (pr := primal D d (c_lam c) X X n) in *. set (du := dual D d (c_lam c) X X n) in *.
    assert (Np : 0 <= pr) by apply (primal_pos P c om D HB Hdt HR X n).
    apply (Rle_trans _ _ _ Y).
    assert (Q1 : g_dual g * c_dt c / 32 * B <= / 2 * (g_dual g * du)).
    { replace (g_dual g * c_dt c / 32 * B) with (/ 2 * (g_dual g * (c_dt c / 16 * B))) by field.
      apply Rmult_le_compat_l; [lra|]. apply Rmult_le_compat_l; lra. }
    assert (Q2 : reg ^ 2 / (4 * (g_dual g * c_dt c / 32)) * A <= / 2 * (g_primal g * pr)).
    { replace (reg ^ 2 / (4 * (g_dual g * c_dt c / 32)) * A) with (128 * reg ^ 2 / (g_dual g * c_dt c ^ 2) * (c_dt c / 16 * A)) by (field; split; lra).
      assert (C0 : 0 < g_dual g * c_dt c ^ 2) by (apply Rmult_lt_0_compat; [lra|apply pow_lt, Hdt]).
      apply (Rle_trans _ (128 * reg ^ 2 / (g_dual g * c_dt c ^ 2) * (fa * pr))).
      - apply Rmult_le_compat_l; [|exact S0]. apply Rlt_le, Rdiv_lt_0_compat; [|exact C0]. pose proof (pow_lt _ 2 Rp). lra.
      - replace (128 * reg ^ 2 / (g_dual g * c_dt c ^ 2) * (fa * pr)) with (/ 2 * ((256 * reg ^ 2 * fa) * / (g_dual g * c_dt c ^ 2) * pr)) by (field; split; lra).
        apply Rmult_le_compat_l; [lra|]. apply Rmult_le_compat_r; [exact Np|].
        apply (Rmult_le_reg_r (g_dual g * c_dt c ^ 2)); [exact C0|]. rewrite Rmult_assoc, Rinv_l by lra. lra. }
    lra.
  Qed.
  Lemma del_vs_st X Y : eval D (del_form E g om) X Y = eval D (st_form c g om false) X Y
    + sumn N (fun n => if Nat.ltb 0 n then reg * L2 D Vp Vd (X 0%nat (n * q1)%nat) (Y 2%nat (n * qs1)%nat)
        + reg * L2 D Vp Vp (X 0%nat (n * q1 - 1)%nat) (Y 0%nat (n * q1 - 1)%nat) else 0).
  Proof.
    rewrite (eval_del P E g om HC HE Hj), eval_st.
    assert (G : regterm D X Y = sumn N (fun n => if Nat.ltb 0 n then 0 else reg * L2 D Vp Vd (X 0%nat (n * q1)%nat) (Y 2%nat (n * qs1)%nat))).
    { pose proof (eo_N _ HE) as HN. destruct N as [|m]; [lia|]. cbn [seq]. rewrite !Rsum_cons.
      change (Nat.ltb 0 0) with false. cbv iota. rewrite (Rsum_zero (seq 1 m)).
      - unfold regterm. rewrite !Nat.mul_0_l. ring.
      - intros n Hn. apply in_seq in Hn. destruct (Nat.ltb_spec 0 n); [reflexivity|lia]. }
    rewrite G, Rplus_assoc, <- !Rsum_plus. apply Rsum_ext; intro n.
    unfold slab_extra. rewrite (bu_jumps _ _ HB), Hj, (bu_wp _ _ HB), Hw, andb_false_r. cbn [andb].
    destruct (Nat.ltb 0 n); ring.
  Qed.
  Lemma del_stable X : 256 * reg ^ 2 * fa <= g_primal g * g_dual g * c_dt c ^ 2 ->
    enorm2 P g om D X <= 2 * eval D (del_form E g om) X (flip X).
  Proof.
    intro Hk. pose proof reg_pos as Rp. rewrite del_vs_st, (signs P c g om D HB Hdt), (enorm2_qsum P c g om D X HC). unfold qsum.
    assert (QP := fun n => quad_spec_pos P c g om D HB Hdt HR X n G1 (Rlt_le _ _ G2) (Rlt_le _ _ G3) G4).
    assert (S1 : sumn N (fun n => reg * L2 D Vp Vd (X 0%nat (n * q1)%nat) (X 2%nat (n * qs1)%nat)) <= / 2 * sumn N (quad_spec c g om D X)).
    { rewrite <- Rsum_scal. apply Rsum_le_in. intros n _. eapply Rle_trans; [apply (cross X n Hk)|].
      apply Rmult_le_compat_l; [lra|]. unfold quad_spec.
      destruct (QP n) as [A1 [A2 [A3 [A4 [A5 [A6 A7]]]]]]. rewrite (bu_wp _ _ HB), Hw, (bu_jumps _ _ HB), Hj.
      destruct (Nat.ltb 0 n); lra. }
    assert (S2 : sumn N (fun n => if Nat.ltb 0 n then reg * L2 D Vp Vd (X 0%nat (n * q1)%nat) (flip X 2%nat (n * qs1)%nat)
        + reg * L2 D Vp Vp (X 0%nat (n * q1 - 1)%nat) (flip X 0%nat (n * q1 - 1)%nat) else 0)
        >= reg * L2 D Vp Vd (X 0%nat 0%nat) (X 2%nat 0%nat) - sumn N (fun n => reg * L2 D Vp Vd (X 0%nat (n * q1)%nat) (X 2%nat (n * qs1)%nat))).
    { pose proof (eo_N _ HE) as HN. destruct N as [|m]; [lia|]. cbn [seq]. rewrite !Rsum_cons.
      change (Nat.ltb 0 0) with false. cbv iota. rewrite !Nat.mul_0_l.
      assert (Q : - Rsum (seq 1 m) (fun n => reg * L2 D Vp Vd (X 0%nat (n * q1)%nat) (X 2%nat (n * qs1)%nat)) <=
        Rsum (seq 1 m) (fun n => if Nat.ltb 0 n then reg * L2 D Vp Vd (X 0%nat (n * q1)%nat) (flip X 2%nat (n * qs1)%nat)
        + reg * L2 D Vp Vp (X 0%nat (n * q1 - 1)%nat) (flip X 0%nat (n * q1 - 1)%nat) else 0)); [|lra].
      rewrite <- (Rmult_1_l (Rsum (seq 1 m) _)), <- Ropp_mult_distr_l_reverse, <- Rsum_scal. apply Rsum_le_in. intros n Hn. apply in_seq in Hn.
      destruct (Nat.ltb_spec 0 n) as [_|Hx]; [|lia].
      change (flip X 0%nat (n * q1 - 1)%nat) with (X 0%nat (n * q1 - 1)%nat).
      pose proof (Rmult_le_pos _ _ (Rlt_le _ _ Rp) (L2_nonneg om D HR Vp (X 0%nat (n * q1 - 1)%nat))).
      unfold flip at 1. cbn [Nat.ltb Nat.leb]. unfold L2 at 2. rewrite sp_opp2. fold (L2 D Vp Vd (X 0%nat (n * q1)%nat) (X 2%nat (n * qs1)%nat)).
      change (fun l => X 2%nat (n * qs1)%nat l) with (X 2%nat (n * qs1)%nat). unfold L2 in *. lra. }
    change 1e-20 with reg. lra.
  Qed.
  Lemma dot_st_op x x' : flipped c D L x x' -> dotn (dimF E) x' (st_op P E g om x) = eval D (del_form E g om) (field_of L x) (flip (field_of L x)).
  Proof.
    intro HF. rewrite (eval_ext D 4 (nc_full c) (del_form E g om) _ (field_of L x) _ (field_of L x') (wf_del E g om HE) (feq_refl _ _ _ _)).
    - rewrite <- (dot_assemble D 4 (nc_full c) L) by (try apply (eo_f _ HE); apply (wf_del E g om HE)).
      unfold dotn, dimF. apply Rsum_ext; intro I. rewrite (st_op_form P E g om HC HT HE Hj). reflexivity.
    - intros j i l H1 H2 H3. unfold flip, field_of. rewrite (HF j i l H1 H2 H3). reflexivity.
  Qed.

  (** ** the size of the solution without data *)
  Definition area : R := Rsum (d_pts D Dx) (d_w D Dx).
  Lemma tiny_dot v y : is_rhs E (fun _ => 0) v ->
    dotn (dimF E) y v = reg * integ D Dx WOne 1 (fun _ _ => 1) (fev D Dx Vd Val (field_of L y 2%nat 0%nat)).
  Proof.
    intros [gj [gd [u10 [u20 [_ [_ ->]]]]]]. unfold dotn, dimF.
    rewrite (dot_assemble_vec D 4 (nc_full c)) by (first [apply (eo_f _ HE)|apply wf_rhs, (eo_N _ HE)]).
    rewrite (rhs_slabs c (fun _ => 0) D). rewrite Rsum_zero; [rewrite Rplus_0_r; reflexivity|].
    intros n _. rewrite (rhs_data_eval P c (fun _ => 0) D HB).
    unfold rhs_init. rewrite (bu_wp _ _ HB), Hw, andb_false_r. unfold leval. rewrite Rsum_nil.
    rewrite Rsum_zero; [ring|]. intros [tau w] _. rewrite Rsum_zero; [ring|]. intros k _. unfold integ. rewrite Rsum_zero; [ring|].
    intros p _. cbn [wval]. ring.
  Qed.
  Lemma ones_young be a : 0 < be ->
    - (reg * integ D Dx WOne 1 (fun _ _ => 1) (fev D Dx Vd Val a)) <= reg ^ 2 / (4 * be) * area + be * L2 D Vd Vd a a.
  Proof.
    intro Hb. rewrite L2_pts. unfold integ, area.
    match goal with |- - (reg * ?s) <= _ => replace (- (reg * s)) with ((- reg) * s) by ring end.
    rewrite <- !Rsum_scal, <- Rsum_plus. apply Rsum_le_in. intros p Hp. cbn [wval seq]. rewrite Rsum_cons, Rsum_nil.
    set (y := fev D Dx Vd Val a p 0). clearbody y. pose proof (rg_w _ _ HR Dx p Hp) as W.
    assert (Q : 0 <= be * Rsqr (y + reg / (2 * be))) by (apply Rmult_le_pos; [lra|apply Rle_0_sqr]).
    assert (EQ : be * Rsqr (y + reg / (2 * be)) = be * (y * y) + reg * y + reg ^ 2 / (4 * be)) by (unfold Rsqr; field; lra).
    rewrite EQ in Q. pose proof (Rmult_le_pos _ _ W Q). lra.
  Qed.
  Hypothesis Hk : 256 * reg ^ 2 * fa <= g_primal g * g_dual g * c_dt c ^ 2.
  Lemma enorm2_parts X n : (n < N)%nat ->
    g_dual g * dual D d (c_lam c) X X n <= enorm2 P g om D X /\ g_primal g * primal D d (c_lam c) X X n <= enorm2 P g om D X.
  Proof.
    intro Hn. rewrite (enorm2_qsum P c g om D X HC). unfold qsum.
    assert (QP := fun m => quad_spec_pos P c g om D HB Hdt HR X m G1 (Rlt_le _ _ G2) (Rlt_le _ _ G3) G4).
    assert (Z : forall m, 0 <= quad_spec c g om D X m) by (intro m; apply QP).
    assert (S1 : quad_spec c g om D X n <= sumn N (quad_spec c g om D X)).
    { replace N with (n + S (N - S n))%nat by lia. rewrite seq_app, Rsum_app. cbn [seq]. rewrite Rsum_cons, Nat.add_0_l.
      pose proof (Rsum_nonneg (seq 0 n) (quad_spec c g om D X) (fun m _ => Z m)).
      pose proof (Rsum_nonneg (seq (S n) (N - S n)) (quad_spec c g om D X) (fun m _ => Z m)). lra. }
    destruct (QP n) as [A1 [A2 [A3 [A4 [A5 [A6 A7]]]]]]. unfold quad_spec in S1 at 1.
    rewrite (bu_wp _ _ HB), Hw, (bu_jumps _ _ HB), Hj in S1. destruct (Nat.ltb 0 n); split; lra.
  Qed.
  Lemma small v x : is_rhs E (fun _ => 0) v -> veq (dimF E) (st_op P E g om x) v ->
    enorm2 P g om D (field_of L x) <= 64 * reg ^ 2 * area / (g_dual g * c_dt c).
  Proof.
    intros Hv Hx. destruct (flip_exists D L c x (eo_f _ HE)) as [x' HF].
    pose proof (del_stable (field_of L x) Hk) as S0. rewrite <- (dot_st_op x x' HF) in S0.
    assert (E1 : dotn (dimF E) x' (st_op P E g om x) = dotn (dimF E) x' v).
    { unfold dotn. apply sumn_ext. intros i Hi. rewrite (Hx i Hi). reflexivity. }
    rewrite E1, (tiny_dot v x' Hv) in S0.
    assert (E2 : integ D Dx WOne 1 (fun _ _ => 1) (fev D Dx Vd Val (field_of L x' 2%nat 0%nat))
      = - integ D Dx WOne 1 (fun _ _ => 1) (fev D Dx Vd Val (field_of L x 2%nat 0%nat))).
    { unfold integ.
      rewrite <- (Rmult_1_l (Rsum _ (fun p => d_w D Dx p * wval D Dx WOne p * sumn 1 (fun k => 1 * fev D Dx Vd Val (field_of L x 2%nat 0%nat) p k)))).
      rewrite <- Ropp_mult_distr_l_reverse, <- Rsum_scal. apply Rsum_ext; intro p. cbn [seq]. rewrite !Rsum_cons, !Rsum_nil.
      rewrite (fev_ext D Dx Vd Val (field_of L x' 2%nat 0%nat) (fun l => - field_of L x 2%nat 0%nat l)).
      - replace (fev D Dx Vd Val (fun l => - field_of L x 2%nat 0%nat l) p 0) with (- fev D Dx Vd Val (field_of L x 2%nat 0%nat) p 0); [ring|].
        unfold fev. rewrite <- (Rmult_1_l (Rsum _ _)), <- Ropp_mult_distr_l_reverse, <- Rsum_scal. apply Rsum_ext; intro l. ring.
      - intros l Hl. unfold field_of. rewrite (HF 2%nat 0%nat l); [reflexivity|lia|unfold nc_full; cbn; pose proof (eo_N _ HE); nia|exact Hl]. }
    rewrite E2 in S0.
    assert (Gd : 0 < g_dual g * c_dt c) by (apply Rmult_lt_0_compat; assumption).
    pose proof (ones_young (g_dual g * c_dt c / 64) (field_of L x 2%nat 0%nat) ltac:(lra)) as Y.
    pose proof (dual_trace P c om D HB Hdt HR (field_of L x) 0) as T. change (0 * qs1)%nat with 0%nat in T.
    destruct (enorm2_parts (field_of L x) 0 ltac:(pose proof (eo_N _ HE); lia)) as [B1 _].
    set (e := enorm2 P g om D (field_of L x)) in *. set (B := L2 D Vd Vd (field_of L x 2%nat 0%nat) (field_of L x 2%nat 0%nat)) in *.
    set (du := dual D d (c_lam c) (field_of L x) (field_of L x) 0) in *.
    assert (Q1 : g_dual g * c_dt c / 64 * B <= / 4 * (g_dual g * du)).
    { replace (g_dual g * c_dt c / 64 * B) with (/ 4 * (g_dual g * (c_dt c / 16 * B))) by field.
      apply Rmult_le_compat_l; [lra|]. apply Rmult_le_compat_l; lra. }
    assert (Q2 : reg ^ 2 / (4 * (g_dual g * c_dt c / 64)) * area = 16 * reg ^ 2 * area / (g_dual g * c_dt c)) by (field; split; lra).
    rewrite Q2 in Y. replace (64 * reg ^ 2 * area / (g_dual g * c_dt c)) with (4 * (16 * reg ^ 2 * area / (g_dual g * c_dt c))) by (field; split; lra).
    set (z := 16 * reg ^ 2 * area / (g_dual g * c_dt c)) in *. set (w := integ D Dx WOne 1 (fun _ _ => 1) _) in *. lra.
  Qed.
  (** values of u1 at any time of a slab *)
  Lemma at_any X n t : (n < N)%nat -> within d n t ->
    L2 D Vp Vp (at_time d X 0 n t) (at_time d X 0 n t) <= 16 / c_dt c * (fa * primal D d (c_lam c) X X n).
  Proof.
    intros Hn Ht. pose proof (C76_primal_controls P c om D K H X n HC HT HR (Rlt_le _ _ HK0) HK HH) as Q.
    rewrite <- (lam_pos P c HC) in Q.
    apply (Rle_trans _ (16 / c_dt c * over_slab d n (fun t => L2 D Vp Vp (at_time d X 0 n t) (at_time d X 0 n t)))).
    2: { apply Rmult_le_compat_l; [apply Rlt_le, Rdiv_lt_0_compat; lra|]. rewrite (tgrid_td _ _ HC). exact Q. }
    destruct (at_cub P c HB Hdt X 0 n) as [C HCu].
    pose proof (val_int c D Hdt C n) as I1.
    assert (E1 : over_slab d n (fun t => L2 D Vp Vp (at_time d X 0 n t) (at_time d X 0 n t)) = c_dt c * ci D Dx WOne 1 (vals D Dx Val C)).
    { unfold over_slab. cbn [t_dt td]. apply is_RInt_unique. apply is_RInt_ext_R with (2 := I1). intro s.
      rewrite !L2_pts. apply Rsum_ext; intro p.
      rewrite (fev_ext D Dx Vp Val (at_time d X 0 n s) (vcub C ((s - INR n * c_dt c) / c_dt c))) by (intros l _; apply HCu). reflexivity. }
    rewrite E1. replace (16 / c_dt c * (c_dt c * ci D Dx WOne 1 (vals D Dx Val C))) with (16 * ci D Dx WOne 1 (vals D Dx Val C)) by (field; lra).
    rewrite L2_pts. unfold ci. rewrite <- Rsum_scal. apply Rsum_le_in. intros p Hp. cbn [wval seq]. rewrite Rsum_cons, Rsum_nil.
    rewrite (fev_ext D Dx Vp Val (at_time d X 0 n t) (vcub C ((t - INR n * c_dt c) / c_dt c))) by (intros l _; apply HCu).
    rewrite fev_cub. set (a := fun m => fev D Dx Vp Val (C m) p 0). fold (vals D Dx Val C).
    assert (Hta : 0 <= (t - INR n * c_dt c) / c_dt c <= 1).
    { destruct Ht as [T1 T2]. cbn [t_dt td] in *. split.
      - apply Rle_div_r; [exact Hdt|]. lra.
      - apply Rle_div_l; [exact Hdt|]. lra. }
    pose proof (cub_sup a _ Hta) as CS. pose proof (rg_w _ _ HR Dx p Hp) as W.
    change (cub_sq (fun m => vals D Dx Val C m p 0)) with (cub_sq a).
    replace (16 * (d_w D Dx p * 1 * (cub_sq a + 0))) with (d_w D Dx p * (16 * cub_sq a)) by ring. apply Rmult_le_compat_l; assumption.
  Qed.
  Lemma three_sq a b e k : -1 <= k <= 1 -> (a - k * (b - e)) ^ 2 <= 3 * (a * a + b * b + e * e).
  Proof.
    intro Hk1. assert (k * k <= 1) by (assert (0 <= (1 - k) * (1 + k)) by (apply Rmult_le_pos; lra); lra).
    pose proof (Rle_0_sqr (a + k * b)). pose proof (Rle_0_sqr (a - k * e)). pose proof (Rle_0_sqr (k * b + k * e)).
    assert (k * k * (b * b) <= 1 * (b * b)) by (apply Rmult_le_compat_r; [apply Rle_0_sqr|lra]).
    assert (k * k * (e * e) <= 1 * (e * e)) by (apply Rmult_le_compat_r; [apply Rle_0_sqr|lra]).
    unfold Rsqr in *. lra.
  Qed.
  Notation bnd e := (16 / c_dt c * (fa / g_primal g * e)).
  Lemma at_small X n t : (n < N)%nat -> within d n t -> L2 D Vp Vp (at_time d X 0 n t) (at_time d X 0 n t) <= bnd (enorm2 P g om D X).
  Proof.
    intros Hn Ht. eapply Rle_trans; [apply (at_any X n t Hn Ht)|]. pose proof fa_pos as Fp.
    apply Rmult_le_compat_l; [apply Rlt_le, Rdiv_lt_0_compat; lra|]. destruct (enorm2_parts X n Hn) as [_ B].
    replace (fa / g_primal g * enorm2 P g om D X) with (fa * (enorm2 P g om D X * / g_primal g)) by (field; lra).
    apply Rmult_le_compat_l; [lra|]. apply (Rmult_le_reg_r (g_primal g)); [exact G3|]. rewrite Rmult_assoc, Rinv_l by lra. lra.
  Qed.
  Lemma recon_small X n t : (n < N)%nat -> within d n t ->
    dist2 D (fun p => fev D Dx Vp Val (recon d X n t) p 0) <= 9 * bnd (enorm2 P g om D X).
  Proof.
    intros Hn Ht.
    assert (Wn : forall m, within d m (INR m * t_dt d)) by (intro m; unfold within; cbn [t_dt td]; lra).
    pose proof (at_small X n t Hn Ht) as B1.
    pose proof (at_small X n _ Hn (Wn n)) as B2.
    assert (B3 : (0 < n)%nat -> L2 D Vp Vp (at_time d X 0 (n - 1) (INR n * t_dt d)) (at_time d X 0 (n - 1) (INR n * t_dt d)) <= bnd (enorm2 P g om D X)).
    { intro Hp. apply at_small; [lia|]. unfold within. cbn [t_dt td].
      assert (EI : INR n = INR (n - 1) + 1) by (rewrite <- S_INR; f_equal; lia). rewrite EI. lra. }
    assert (B0 : 0 <= bnd (enorm2 P g om D X)) by (eapply Rle_trans; [apply (L2_nonneg om D HR Vp)|exact B1]).
    set (bb := bnd (enorm2 P g om D X)) in *.
    set (k := lift_pol ((2 * t - (2 * INR n + 1) * t_dt d) / t_dt d)).
    assert (Hk1 : -1 <= k <= 1).
    { unfold k, lift_pol. set (x := _ / t_dt d). assert (Hx : -1 <= x <= 1).
      { unfold x. destruct Ht as [T1 T2]. cbn [t_dt td] in *. split; [apply Rle_div_r|apply Rle_div_l]; lra. }
      assert (0 <= (1 - x) * (1 + x)) by (apply Rmult_le_pos; lra). assert (0 <= (1 - x) * (1 - x)) by apply Rle_0_sqr.
      assert (0 <= (x + 1) * (x + 1)) by apply Rle_0_sqr. split; lra. }
    assert (W : forall p, In p (d_pts D Dx) -> 0 <= d_w D Dx p) by (intros p Hp; exact (rg_w _ _ HR Dx p Hp)).
    destruct (Nat.ltb 0 n) eqn:En.
    - apply Nat.ltb_lt in En. specialize (B3 En). rewrite L2_pts in B1, B2, B3.
      apply (Rle_trans _ (3 * (Rsum (d_pts D Dx) (fun p => d_w D Dx p * (fev D Dx Vp Val (at_time d X 0 n t) p 0 * fev D Dx Vp Val (at_time d X 0 n t) p 0))
        + Rsum (d_pts D Dx) (fun p => d_w D Dx p * (fev D Dx Vp Val (at_time d X 0 n (INR n * t_dt d)) p 0 * fev D Dx Vp Val (at_time d X 0 n (INR n * t_dt d)) p 0))
        + Rsum (d_pts D Dx) (fun p => d_w D Dx p * (fev D Dx Vp Val (at_time d X 0 (n - 1) (INR n * t_dt d)) p 0 * fev D Dx Vp Val (at_time d X 0 (n - 1) (INR n * t_dt d)) p 0)))));
        [|lra].
      rewrite <- !Rsum_plus, <- Rsum_scal. unfold dist2. apply Rsum_le_in. intros p Hp.
      assert (ER : fev D Dx Vp Val (recon d X n t) p 0 = fev D Dx Vp Val (at_time d X 0 n t) p 0
        - k * (fev D Dx Vp Val (at_time d X 0 n (INR n * t_dt d)) p 0 - fev D Dx Vp Val (at_time d X 0 (n - 1) (INR n * t_dt d)) p 0)).
      { unfold fev. rewrite <- Rsum_minus, <- Rsum_scal, <- Rsum_minus. apply Rsum_ext; intro l. unfold recon.
        assert (Nat.ltb 0 n = true) as -> by (apply Nat.ltb_lt; exact En). fold k. unfold jumpv, vsub, upper, lower. ring. }
      rewrite ER. pose proof (three_sq (fev D Dx Vp Val (at_time d X 0 n t) p 0) (fev D Dx Vp Val (at_time d X 0 n (INR n * t_dt d)) p 0)
        (fev D Dx Vp Val (at_time d X 0 (n - 1) (INR n * t_dt d)) p 0) k Hk1) as T3.
      pose proof (Rmult_le_compat_l _ _ _ (W p Hp) T3). lra.
    - apply (Rle_trans _ bb); [|lra]. eapply Rle_trans; [|exact B1]. right. rewrite L2_pts. unfold dist2. apply Rsum_ext; intro p.
      rewrite (fev_ext D Dx Vp Val (recon d X n t) (at_time d X 0 n t)); [ring|]. intros l _. unfold recon. rewrite En. ring.
  Qed.
  Lemma recon_vanishes v x n t : is_rhs E (fun _ => 0) v -> veq (dimF E) (st_op P E g om x) v -> (n < N)%nat -> within d n t ->
    dist2 D (fun p => fev D Dx Vp Val (recon d (field_of L x) n t) p 0) <= 9216 * reg ^ 2 * area * fa / (g_primal g * g_dual g * c_dt c ^ 2).
  Proof.
    intros Hv Hx Hn Ht. eapply Rle_trans; [apply (recon_small (field_of L x) n t Hn Ht)|]. pose proof (small v x Hv Hx) as S0. pose proof fa_pos as Fp.
    replace (9216 * reg ^ 2 * area * fa / (g_primal g * g_dual g * c_dt c ^ 2)) with (9 * bnd (64 * reg ^ 2 * area / (g_dual g * c_dt c))) by (field; repeat split; lra).
    apply Rmult_le_compat_l; [lra|]. apply Rmult_le_compat_l; [apply Rlt_le, Rdiv_lt_0_compat; lra|].
    apply Rmult_le_compat_l; [apply Rlt_le, Rdiv_lt_0_compat; lra|]. exact S0.
  Qed.
End Van.
