(** Injective.v -- kernels of the slab forms with jump terms and of the
    well-posed space-time form are trivial (C67, C68). *)
From Coq Require Import Reals List ZArith Lra Lia Bool String.
From Coquelicot Require Import Coquelicot.
From Verif Require Import Base TimeModel TimeSpec TimeProofs QuadProofs FormModel FormSpec FormProofs
  SpaceTimeForms FormBlocks GuardProofs FormTime FormC12 FormSym RhsProofs FormStruct WellPosed.
Import ListNotations.
Open Scope R_scope.

(** * The value at 0 of a cubic is bounded by its mean square *)
Lemma cub_continuous a x : continuous (cub a) x.
Proof.
  apply (ex_derive_continuous (V := R_NormedModule)). unfold cub. auto_derive. exact I.
Qed.
Definition cub_sq (a : nat -> R) : R :=
  let a0 := a 0%nat in let a1 := a 1%nat in let a2 := a 2%nat in let a3 := a 3%nat in
  a0 * a0 + a0 * a1 + (2 * a0 * a2 + a1 * a1) / 3 + (a0 * a3 + a1 * a2) / 2
  + (2 * a1 * a3 + a2 * a2) / 5 + a2 * a3 / 3 + a3 * a3 / 7.
Lemma cub_sq_int a : is_RInt (fun x => cub a x * cub a x) 0 1 (cub_sq a).
Proof.
  set (F := fun x : R => let a0 := a 0%nat in let a1 := a 1%nat in let a2 := a 2%nat in let a3 := a 3%nat in
    a0 * a0 * x + a0 * a1 * x ^ 2 + (2 * a0 * a2 + a1 * a1) / 3 * x ^ 3 + (a0 * a3 + a1 * a2) / 2 * x ^ 4
    + (2 * a1 * a3 + a2 * a2) / 5 * x ^ 5 + a2 * a3 / 3 * x ^ 6 + a3 * a3 / 7 * x ^ 7).
  replace (cub_sq a) with (F 1 - F 0) by (unfold F, cub_sq; cbn zeta; field).
  apply (is_RInt_derive (V := R_CompleteNormedModule)).
  - intros x _. unfold F, cub. cbn zeta. auto_derive; [exact I|]. field.
  - intros x _. apply (continuous_mult (K := R_AbsRing)); apply cub_continuous.
Qed.
Lemma cub_sq_ge a : a 0%nat * a 0%nat <= 16 * cub_sq a.
Proof.
  unfold cub_sq. set (a0 := a 0%nat). set (a1 := a 1%nat). set (a2 := a 2%nat). set (a3 := a 3%nat). cbn zeta.
  (* coefficients in the Legendre basis *)
  set (b3 := a3 / 20). set (b2 := (a2 + 30 * b3) / 6). set (b1 := (a1 + 6 * b2 - 12 * b3) / 2).
  set (b0 := a0 + b1 - b2 + b3).
  assert (E3 : a3 = 20 * b3) by (unfold b3; field).
  assert (E2 : a2 = 6 * b2 - 30 * b3) by (unfold b2; field).
  assert (E1 : a1 = 2 * b1 - 6 * b2 + 12 * b3) by (unfold b1; field).
  assert (E0 : a0 = b0 - b1 + b2 - b3) by (unfold b0; ring).
  rewrite E0, E1, E2, E3. clearbody b0 b1 b2 b3. clear.
  pose proof (Rle_0_sqr (b0 + b1 / 3)) as S1. pose proof (Rle_0_sqr (b0 - b2 / 5)) as S2.
  pose proof (Rle_0_sqr (b0 + b3 / 7)) as S3. pose proof (Rle_0_sqr (b1 / 3 + b2 / 5)) as S4.
  pose proof (Rle_0_sqr (b1 / 3 - b3 / 7)) as S5. pose proof (Rle_0_sqr (b2 / 5 + b3 / 7)) as S6.
  unfold Rsqr in *. lra.
Qed.
Lemma is_RInt_Rsum {A} (l : list A) (f : A -> R -> R) (J : A -> R) a b :
  (forall p, is_RInt (f p) a b (J p)) -> is_RInt (fun t => Rsum l (fun p => f p t)) a b (Rsum l J).
Proof.
  intro H. induction l as [|p l IH].
  - apply (is_RInt_ext (V := R_NormedModule) (fun _ => 0)); [intros; reflexivity|].
    pose proof (is_RInt_const (V := R_NormedModule) a b 0) as E.
    replace (Rsum (@nil A) J) with (scal (b - a) 0); [exact E|]. rewrite Rsum_nil. unfold scal; cbn; unfold mult; cbn. ring.
  - apply is_RInt_ext_R with (f := fun t => f p t + Rsum l (fun p => f p t)).
    + intro t. rewrite Rsum_cons. reflexivity.
    + rewrite Rsum_cons. apply (is_RInt_plus (V := R_NormedModule)); [apply H|exact IH].
Qed.

Section Inj.
  Variables (P : params) (c : config) (g : gammas) (om : nat -> R) (D : disc).
  Hypothesis HB : built P c.
  Hypothesis Hdt : 0 < c_dt c.
  Let d := td c.
  Let Hq := q_le P c HB.
  Let Hqs := qs_le P c HB.
  Hypothesis HR : regular D om.
  Hypothesis HDp : forall a, L2 D Vp Vp a a = 0 -> forall l, (l < d_dim D Vp)%nat -> a l = 0.
  Hypothesis HDd : forall a, L2 D Vd Vd a a = 0 -> forall l, (l < d_dim D Vd)%nat -> a l = 0.
  Notation r := (restr (ntime c)).

  Lemma L2_nonneg s a : 0 <= L2 D s s a a.
  Proof. apply sp_nonneg. apply (reg_one D om Dx HR). Qed.
  Lemma H1_nonneg s a : 0 <= H1 D s s a a.
  Proof. apply sp_nonneg. apply (reg_one D om Dx HR). Qed.

  Lemma L2_pts s1 s2 a b : L2 D s1 s2 a b
    = Rsum (d_pts D Dx) (fun p => d_w D Dx p * (fev D Dx s1 Val a p 0 * fev D Dx s2 Val b p 0)).
  Proof.
    unfold L2, sp, integ. apply Rsum_ext; intro p. cbn [wval ncomp seq]. rewrite Rsum_cons, Rsum_nil. ring.
  Qed.
  Lemma Rsum_le_in {A} (l : list A) f h : (forall p, In p l -> f p <= h p) -> Rsum l f <= Rsum l h.
  Proof.
    induction l as [|p l IH]; intro H; [rewrite !Rsum_nil; lra|]. rewrite !Rsum_cons.
    pose proof (H p (or_introl eq_refl)). pose proof (IH (fun q Hq => H q (or_intror Hq))). lra.
  Qed.
  (** Young's inequality *)
  Lemma young s1 s2 rho be a b : 0 < be ->
    rho * L2 D s1 s2 a b <= rho ^ 2 / (4 * be) * L2 D s1 s1 a a + be * L2 D s2 s2 b b.
  Proof.
    intro Hb. rewrite !L2_pts, <- !Rsum_scal, <- Rsum_plus. apply Rsum_le_in. intros p Hp.
    set (x := fev D Dx s1 Val a p 0). set (y := fev D Dx s2 Val b p 0). clearbody x y.
    pose proof (rg_w _ _ HR Dx p Hp) as Hw.
    assert (Q : 0 <= be * Rsqr (y - rho * x / (2 * be))) by (apply Rmult_le_pos; [lra|apply Rle_0_sqr]).
    assert (E : be * Rsqr (y - rho * x / (2 * be)) = be * (y * y) - rho * (x * y) + rho ^ 2 / (4 * be) * (x * x))
      by (unfold Rsqr; field; lra).
    rewrite E in Q. pose proof (Rmult_le_pos _ _ Hw Q). lra.
  Qed.
  Lemma L2_flip s1 s2 a b : L2 D s1 s2 a b = L2 D s2 s1 b a.
  Proof. rewrite !L2_pts. apply Rsum_ext; intro p. ring. Qed.

  (** the dual stabilisation controls the first dual coefficient *)
  Lemma dual_trace X n :
    c_dt c / 16 * L2 D Vd Vd (X 2%nat (n * S (c_qs c))%nat) (X 2%nat (n * S (c_qs c))%nat)
    <= dual D d (c_lam c) X X n.
  Proof.
    destruct (at_cub P c HB Hdt X 2 n) as [C HC]. fold d in HC.
    set (a := INR n * c_dt c).
    set (co := fun p m => fev D Dx Vd Val (C m) p 0).
    assert (I1 : is_RInt (fun t => L2 D Vd Vd (at_time d X 2 n t) (at_time d X 2 n t)) a (a + c_dt c)
       (Rsum (d_pts D Dx) (fun p => d_w D Dx p * (c_dt c * cub_sq (co p))))).
    { apply is_RInt_ext_R with (f := fun t => Rsum (d_pts D Dx) (fun p =>
         d_w D Dx p * (cub (co p) ((t - a) / c_dt c) * cub (co p) ((t - a) / c_dt c)))).
      - intro t. rewrite L2_pts. apply Rsum_ext; intro p.
        rewrite (fev_ext D Dx Vd Val (at_time d X 2 n t) (vcub C ((t - a) / c_dt c))) by (intros l _; apply HC).
        rewrite fev_cub. reflexivity.
      - apply is_RInt_Rsum. intro p. apply is_RInt_scal_R.
        pose proof (prod_int a (c_dt c) (cub (co p)) (cub (co p)) Hdt (cub_continuous _) (cub_continuous _)) as E.
        rewrite (is_RInt_unique _ _ _ _ (cub_sq_int (co p))) in E. exact E. }
    assert (S1 : c_dt c / 16 * L2 D Vd Vd (X 2%nat (n * S (c_qs c))%nat) (X 2%nat (n * S (c_qs c))%nat)
       <= Rsum (d_pts D Dx) (fun p => d_w D Dx p * (c_dt c * cub_sq (co p)))).
    { rewrite L2_pts, <- Rsum_scal. apply Rsum_le_in. intros p Hp.
      assert (E0 : fev D Dx Vd Val (X 2%nat (n * S (c_qs c))%nat) p 0 = co p 0%nat).
      { unfold co. apply fev_ext. intros l _. rewrite <- (upper_d P c HB Hdt X 2 n l) by lia. unfold upper.
        cbn [t_dt td]. fold d. rewrite (proj1 (HC _ l)). unfold vcub, cub.
        replace ((INR n * c_dt c - INR n * c_dt c) / c_dt c) with 0 by (field; lra). ring. }
      rewrite E0. pose proof (cub_sq_ge (co p)) as Q. pose proof (rg_w _ _ HR Dx p Hp) as Hw.
      assert (Q' : 0 <= d_w D Dx p * c_dt c * (16 * cub_sq (co p) - co p 0%nat * co p 0%nat))
        by (apply Rmult_le_pos; [apply Rmult_le_pos; lra|lra]). lra. }
    apply (Rle_trans _ _ _ S1). unfold dual, over_slab. cbn [t_dt td d]. fold a.
    apply (is_RInt_le (fun t => L2 D Vd Vd (at_time d X 2 n t) (at_time d X 2 n t)) (dual_at c D X X n) a (a + c_dt c)).
    - lra.
    - exact I1.
    - apply (RInt_correct (V := R_CompleteNormedModule)).
      apply (ex_RInt_continuous (V := R_CompleteNormedModule)). intros x _. apply (dual_cont P); assumption.
    - intros x _. pose proof (dual_at_pos P c om D HB HR X n x) as Q. unfold dual_at. fold d in Q |- *. lra.
  Qed.

  (** zero dual stabilisation: zero dual coefficients *)
  Lemma dual_unique X n : dual D d (c_lam c) X X n = 0 ->
    forall j i l, (2 <= j < 4)%nat -> (i <= c_qs c)%nat -> (l < d_dim D Vd)%nat -> X j (n * S (c_qs c) + i)%nat l = 0.
  Proof.
    intros K2 j i l Hj Hi Hl.
    set (t := INR n * c_dt c + node (c_qs c) i * c_dt c).
    assert (Hnode := node_range (c_qs c) i Hi).
    assert (Ht : INR n * c_dt c <= t <= INR n * c_dt c + c_dt c).
    { unfold t. pose proof (Rmult_le_compat_r (c_dt c) _ _ ltac:(lra) (proj2 Hnode)).
      pose proof (Rmult_le_pos _ _ (proj1 Hnode) (Rlt_le _ _ Hdt)). lra. }
    assert (P2 : dual_at c D X X n t = 0).
    { apply (slab_zero c Hdt (dual_at c D X X n) n); auto.
      - intro x; apply (dual_cont P); assumption.
      - intro x; pose proof (dual_at_pos P c om D HB HR X n x); unfold dual_at; lra. }
    pose proof (dual_at_pos P c om D HB HR X n t) as Q2. unfold dual_at in P2. fold d in P2, Q2.
    assert (Z : at_time d X j n t l = 0).
    { assert (j = 2 \/ j = 3)%nat as [->| ->] by lia; apply HDd; try assumption; lra. }
    unfold at_time in Z.
    assert (Eo : ord d j = c_qs c) by (unfold ord; destruct (Nat.ltb_spec j 2); [lia|reflexivity]).
    rewrite Eo in Z. cbn [t_dt td d] in Z.
    replace ((t - INR n * c_dt c) / c_dt c) with (node (c_qs c) i) in Z by (unfold t; field; lra).
    rewrite (sumn_ext _ _ (fun i0 => delta i i0 * X j (n * S (c_qs c) + i0)%nat l)) in Z.
    - rewrite sumn_delta in Z by lia. exact Z.
    - intros i0 Hi0. f_equal. apply lag_node; lia.
  Qed.

  Hypothesis Gd : 0 <= g_data g.
  Hypothesis Gz : 0 < g_dual g.
  Hypothesis Gp : 0 < g_primal g.
  Hypothesis Gj : 0 < g_jump g.

  (** scalar part: the start of a slab vanishes *)
  Lemma start_zero1 rho kap a1 a2 b1 b2 Q dl : 0 <= Q ->
    c_dt c / 16 * L2 D Vd Vd b1 b1 <= dl ->
    kap ^ 2 + 16 * rho ^ 2 < 4 * g_jump g * g_dual g ->
    - (rho * L2 D Vp Vd a1 b1) + Q + g_dual g * dl
      + g_jump g * (1 / c_dt c * L2 D Vp Vp a1 a1 + c_dt c * H1 D Vp Vp a1 a1 + 1 / c_dt c * L2 D Vp Vp a2 a2)
      + (g_dual g * (c_dt c * (L2 D Vd Vd b2 b2 + L2 D Vd Vd b1 b1)) - kap * (L2 D Vp Vd a2 b1 + L2 D Vp Vd a1 b2)) = 0 ->
    L2 D Vp Vp a1 a1 = 0 /\ L2 D Vp Vp a2 a2 = 0.
  Proof.
    intros HQ Hdl Hc E.
    assert (Gdt : 0 < g_dual g * c_dt c) by (apply Rmult_lt_0_compat; lra).
    pose proof (young Vp Vd rho (g_dual g * c_dt c / 16) a1 b1 ltac:(lra)) as Y1.
    pose proof (young Vp Vd kap (g_dual g * c_dt c) a2 b1 Gdt) as Y2.
    pose proof (young Vp Vd kap (g_dual g * c_dt c) a1 b2 Gdt) as Y3.
    pose proof (L2_nonneg Vp a1) as N1. pose proof (L2_nonneg Vp a2) as N2.
    pose proof (H1_nonneg Vp a1) as N3.
    assert (N4 : 0 <= g_jump g * (c_dt c * H1 D Vp Vp a1 a1)) by (repeat apply Rmult_le_pos; lra).
    assert (Hdl' : g_dual g * c_dt c / 16 * L2 D Vd Vd b1 b1 <= g_dual g * dl).
    { replace (g_dual g * c_dt c / 16 * L2 D Vd Vd b1 b1) with (g_dual g * (c_dt c / 16 * L2 D Vd Vd b1 b1)) by field.
      apply Rmult_le_compat_l; lra. }
    set (al := g_jump g * (1 / c_dt c)).
    set (A1 := rho ^ 2 / (4 * (g_dual g * c_dt c / 16)) + kap ^ 2 / (4 * (g_dual g * c_dt c))).
    assert (HA : A1 < al).
    { unfold A1, al. apply (Rmult_lt_reg_l (4 * (g_dual g * c_dt c))); [lra|].
      replace (4 * (g_dual g * c_dt c) * (rho ^ 2 / (4 * (g_dual g * c_dt c / 16)) + kap ^ 2 / (4 * (g_dual g * c_dt c))))
        with (kap ^ 2 + 16 * rho ^ 2) by (field; split; lra).
      replace (4 * (g_dual g * c_dt c) * (g_jump g * (1 / c_dt c))) with (4 * g_jump g * g_dual g) by (field; lra).
      exact Hc. }
    assert (HA2 : kap ^ 2 / (4 * (g_dual g * c_dt c)) <= A1).
    { unfold A1. assert (0 <= rho ^ 2 / (4 * (g_dual g * c_dt c / 16))).
      { apply Rmult_le_pos; [apply pow2_ge_0|]. left. apply Rinv_0_lt_compat. lra. } lra. }
    assert (M1 : 0 <= (al - A1) * L2 D Vp Vp a1 a1) by (apply Rmult_le_pos; lra).
    assert (M2 : 0 <= (al - A1) * L2 D Vp Vp a2 a2) by (apply Rmult_le_pos; lra).
    assert (M3 : 0 <= (A1 - kap ^ 2 / (4 * (g_dual g * c_dt c))) * L2 D Vp Vp a2 a2) by (apply Rmult_le_pos; lra).
    assert (Sm : (al - A1) * L2 D Vp Vp a1 a1 + (al - A1) * L2 D Vp Vp a2 a2 <= 0).
    { unfold A1 in *. fold al in E |- *.
      assert (E' : - (rho * L2 D Vp Vd a1 b1) + Q + g_dual g * dl + (al * L2 D Vp Vp a1 a1 + g_jump g * (c_dt c * H1 D Vp Vp a1 a1)
        + al * L2 D Vp Vp a2 a2) + g_dual g * c_dt c * L2 D Vd Vd b2 b2 + g_dual g * c_dt c * L2 D Vd Vd b1 b1
        - kap * L2 D Vp Vd a2 b1 - kap * L2 D Vp Vd a1 b2 = 0) by (unfold al; lra).
      lra. }
    split.
    - assert (Z : (al - A1) * L2 D Vp Vp a1 a1 = 0) by lra. apply Rmult_integral in Z. destruct Z; lra.
    - assert (Z : (al - A1) * L2 D Vp Vp a2 a2 = 0) by lra. apply Rmult_integral in Z. destruct Z; lra.
  Qed.

  Lemma start_zero rho (b : bool) kap a1 a2 b1 b2 Q dl : 0 <= Q ->
    c_dt c / 16 * L2 D Vd Vd b1 b1 <= dl ->
    (if b then kap else 0) ^ 2 + 16 * rho ^ 2 < 4 * g_jump g * g_dual g ->
    - (rho * L2 D Vp Vd a1 b1) + Q + g_dual g * dl
      + g_jump g * (1 / c_dt c * L2 D Vp Vp a1 a1 + c_dt c * H1 D Vp Vp a1 a1 + 1 / c_dt c * L2 D Vp Vp a2 a2)
      + (if b then g_dual g * (c_dt c * (L2 D Vd Vd b2 b2 + L2 D Vd Vd b1 b1)) - kap * (L2 D Vp Vd a2 b1 + L2 D Vp Vd a1 b2) else 0) = 0 ->
    L2 D Vp Vp a1 a1 = 0 /\ L2 D Vp Vp a2 a2 = 0.
  Proof.
    intros HQ Hdl Hc E. destruct b; [apply (start_zero1 rho kap a1 a2 b1 b2 Q dl); assumption|].
    (* without the dual jump terms the same estimate with kap = 0 *)
    assert (Gdt : 0 < g_dual g * c_dt c) by (apply Rmult_lt_0_compat; lra).
    pose proof (young Vp Vd rho (g_dual g * c_dt c / 16) a1 b1 ltac:(lra)) as Y1.
    pose proof (L2_nonneg Vp a1) as N1. pose proof (L2_nonneg Vp a2) as N2.
    pose proof (H1_nonneg Vp a1) as N3.
    assert (N4 : 0 <= g_jump g * (c_dt c * H1 D Vp Vp a1 a1)) by (repeat apply Rmult_le_pos; lra).
    assert (Hdl' : g_dual g * c_dt c / 16 * L2 D Vd Vd b1 b1 <= g_dual g * dl).
    { replace (g_dual g * c_dt c / 16 * L2 D Vd Vd b1 b1) with (g_dual g * (c_dt c / 16 * L2 D Vd Vd b1 b1)) by field.
      apply Rmult_le_compat_l; lra. }
    set (al := g_jump g * (1 / c_dt c)).
    assert (Hal : 0 < al) by (unfold al; apply Rmult_lt_0_compat; [lra|apply Rdiv_lt_0_compat; lra]).
    set (A1 := rho ^ 2 / (4 * (g_dual g * c_dt c / 16))) in *.
    assert (HA : A1 < al).
    { unfold A1, al. apply (Rmult_lt_reg_l (4 * (g_dual g * c_dt c))); [lra|].
      replace (4 * (g_dual g * c_dt c) * (rho ^ 2 / (4 * (g_dual g * c_dt c / 16))))
        with (0 ^ 2 + 16 * rho ^ 2) by (field; split; lra).
      replace (4 * (g_dual g * c_dt c) * (g_jump g * (1 / c_dt c))) with (4 * g_jump g * g_dual g) by (field; lra).
      exact Hc. }
    assert (M1 : 0 <= (al - A1) * L2 D Vp Vp a1 a1) by (apply Rmult_le_pos; lra).
    assert (M2 : 0 <= al * L2 D Vp Vp a2 a2) by (apply Rmult_le_pos; lra).
    assert (E' : - (rho * L2 D Vp Vd a1 b1) + Q + g_dual g * dl + (al * L2 D Vp Vp a1 a1 + g_jump g * (c_dt c * H1 D Vp Vp a1 a1)
        + al * L2 D Vp Vp a2 a2) = 0) by (unfold al; lra).
    split.
    - assert (Z : (al - A1) * L2 D Vp Vp a1 a1 = 0) by lra. apply Rmult_integral in Z. destruct Z; lra.
    - assert (Z : al * L2 D Vp Vp a2 a2 = 0) by lra. apply Rmult_integral in Z. destruct Z; lra.
  Qed.

  (** the energy identity of a slab *)
  Lemma core_signs X : eval D (core c g om) X (flip X)
    = g_data g * data D d om X X 0 + g_dual g * dual D d (c_lam c) X X 0 + g_primal g * primal D d (c_lam c) X X 0.
  Proof.
    pose proof (core_slab P c g om D HB Hdt X (flip X) 0) as E.
    change (r 0 X) with X in E. change (r 0 (flip X)) with (flip X) in E. rewrite E. unfold slab_spec. fold d.
    unfold d. rewrite (wave_flip2 P c D HB Hdt), (wave_flip1 P c D HB Hdt), (data_flip P c om D HB), (primal_flip P c D HB), (dual_flip P c D HB).
    ring.
  Qed.

  Definition zero_on (n : nat) (X : field) : Prop :=
    (forall j i l, (j < 2)%nat -> (i <= c_q c)%nat -> (l < d_dim D Vp)%nat -> X j (n * S (c_q c) + i)%nat l = 0)
    /\ (forall j i l, (2 <= j < 4)%nat -> (i <= c_qs c)%nat -> (l < d_dim D Vd)%nat -> X j (n * S (c_qs c) + i)%nat l = 0).
  (** coefficient of the coupling between primal and dual at the start of a slab *)
  Definition kappa : R := if c_jumps c then 1 + c_eps c else 0.

  (** trivial kernel of a slab form with jump terms *)
  Lemma slab_inj rho X : kappa ^ 2 + 16 * rho ^ 2 < 4 * g_jump g * g_dual g ->
    (forall Y, rho * L2 D Vp Vd (X 0%nat 0%nat) (Y 2%nat 0%nat) + eval D (core c g om) X Y + slab_extra_pre c g D true X Y = 0) ->
    zero_on 0 X.
  Proof.
    intros Hc HK. specialize (HK (flip X)). rewrite core_signs in HK.
    unfold slab_extra_pre, en in HK. unfold flip in HK. cbn [Nat.ltb Nat.leb] in HK.
    assert (O2 : forall s1 s2 a b, L2 D s1 s2 a (fun l => - b l) = - L2 D s1 s2 a b) by (intros; unfold L2; apply sp_opp2).
    assert (O1 : forall s1 s2 a b, L2 D s1 s2 (fun l => - a l) b = - L2 D s1 s2 a b)
      by (intros; rewrite L2_flip, O2, L2_flip; reflexivity).
    change (fun l => X 0%nat 0%nat l) with (X 0%nat 0%nat) in HK. change (fun l => X 1%nat 0%nat l) with (X 1%nat 0%nat) in HK.
    rewrite !O1, !O2, (L2_flip Vd Vp (X 2%nat 0%nat)), (L2_flip Vd Vp (X 3%nat 0%nat)) in HK.
    pose proof (data_pos P c om D HB Hdt HR X 0) as D1. pose proof (primal_pos P c om D HB Hdt HR X 0) as D3.
    pose proof (dual_pos P c om D HB Hdt HR X 0) as D2. fold d in D1, D2, D3.
    assert (Q1 := Rmult_le_pos _ _ Gd D1). assert (Q3 := Rmult_le_pos _ _ (Rlt_le _ _ Gp) D3).
    assert (Q2 := Rmult_le_pos _ _ (Rlt_le _ _ Gz) D2).
    pose proof (dual_trace X 0) as TR. change (0 * S (c_qs c))%nat with 0%nat in TR.
    pose proof (L2_nonneg Vd (X 2%nat 0%nat)) as N2. pose proof (L2_nonneg Vd (X 3%nat 0%nat)) as N3.
    assert (Gdt : 0 < g_dual g * c_dt c) by (apply Rmult_lt_0_compat; lra).
    assert (Q4 : 0 <= g_dual g * c_dt c * (L2 D Vd Vd (X 3%nat 0%nat) (X 3%nat 0%nat) + L2 D Vd Vd (X 2%nat 0%nat) (X 2%nat 0%nat)))
      by (apply Rmult_le_pos; lra).
    assert (ST : L2 D Vp Vp (X 0%nat 0%nat) (X 0%nat 0%nat) = 0 /\ L2 D Vp Vp (X 1%nat 0%nat) (X 1%nat 0%nat) = 0).
    { apply (start_zero rho (c_jumps c) (1 + c_eps c) _ _ (X 2%nat 0%nat) (X 3%nat 0%nat)
          (g_data g * data D d om X X 0 + g_primal g * primal D d (c_lam c) X X 0) _ ltac:(lra) TR Hc).
      destruct (c_jumps c); lra. }
    destruct ST as [S0 S1]. pose proof (HDp _ S0) as Z0. pose proof (HDp _ S1) as Z1.
    assert (CZ : L2 D Vp Vd (X 0%nat 0%nat) (X 2%nat 0%nat) = 0 /\ L2 D Vp Vd (X 1%nat 0%nat) (X 2%nat 0%nat) = 0
       /\ L2 D Vp Vd (X 0%nat 0%nat) (X 3%nat 0%nat) = 0).
    { unfold L2. rewrite !sp_zero1 by assumption. auto. }
    destruct CZ as [C1 [C2 C3]].
    rewrite S0, S1, C1 in HK. rewrite C2, C3 in HK.
    pose proof (H1_nonneg Vp (X 0%nat 0%nat)) as N4.
    assert (N5 : 0 <= g_jump g * (c_dt c * H1 D Vp Vp (X 0%nat 0%nat) (X 0%nat 0%nat))) by (repeat apply Rmult_le_pos; lra).
    assert (KP : g_dual g * dual D d (c_lam c) X X 0 = 0 /\ g_primal g * primal D d (c_lam c) X X 0 = 0)
      by (destruct (c_jumps c); lra).
    destruct KP as [KP1 KP2]. apply zero_of_prod in KP1; [|exact Gz]. apply zero_of_prod in KP2; [|exact Gp].
    split.
    - apply (slab_unique P c om D HB Hdt HR HDp X 0 KP2). intros j l Hj Hl.
      assert (j = 0 \/ j = 1)%nat as [->| ->] by lia; [apply Z0|apply Z1]; exact Hl.
    - apply dual_unique; exact KP1.
  Qed.

  (** no energy and zero values at the start: zero *)
  Lemma quad_start_zero X : (forall j l, (j < 2)%nat -> (l < d_dim D Vp)%nat -> X j 0%nat l = 0) ->
    (forall n, (n < c_N c)%nat -> quad_spec c g om D X n = 0) -> forall n, (n < c_N c)%nat -> zero_on n X.
  Proof.
    intros Z0 QZ.
    assert (KP : forall n, (n < c_N c)%nat -> dual D d (c_lam c) X X n = 0 /\ primal D d (c_lam c) X X n = 0
        /\ ((0 < n)%nat -> jumps D d X X n = 0)).
    { intros n Hn. pose proof (QZ n Hn) as K. unfold quad_spec in K.
      pose proof (quad_spec_pos P c g om D HB Hdt HR X n ltac:(lra) ltac:(lra) ltac:(lra) ltac:(lra))
        as [A1 [A2 [A3 [A4 [A5 [A6 _]]]]]].
      fold d in K, A1, A2, A3, A4, A5, A6.
      destruct (Nat.ltb_spec 0 n) as [h|h].
      - destruct (c_jumps c); repeat split; try intros _;
        first [apply (zero_of_prod (g_dual g)); lra |apply (zero_of_prod (g_primal g)); lra | apply (zero_of_prod (g_jump g)); lra].
      - destruct (c_wp c); repeat split; try lia;
        first [apply (zero_of_prod (g_dual g)); lra |apply (zero_of_prod (g_primal g)); lra]. }
    induction n as [|n IH]; intro Hn; destruct (KP _ Hn) as [K1 [K2 K3]]; (split; [|apply dual_unique; exact K1]);
      apply (slab_unique P c om D HB Hdt HR HDp X _ K2); intros j l Hj Hl.
    - apply Z0; assumption.
    - specialize (K3 ltac:(lia)). destruct (IH ltac:(lia)) as [I1 _].
      unfold jumps, energy in K3. cbn [t_dt td d] in K3.
      pose proof (L2_nonneg Vp (jumpv d X 0 (S n))) as P0. pose proof (L2_nonneg Vp (jumpv d X 1 (S n))) as P1.
      pose proof (H1_nonneg Vp (jumpv d X 0 (S n))) as P2.
      assert (Hi : 0 < 1 / c_dt c) by (apply Rdiv_lt_0_compat; lra).
      pose proof (Rmult_le_pos _ _ (Rlt_le _ _ Hi) P0). pose proof (Rmult_le_pos _ _ (Rlt_le _ _ Hi) P1).
      pose proof (Rmult_le_pos _ _ (Rlt_le _ _ Hdt) P2). fold d in K3.
      assert (J : L2 D Vp Vp (jumpv d X j (S n)) (jumpv d X j (S n)) = 0).
      { apply (zero_of_prod (1 / c_dt c)); [exact Hi|]. assert (j = 0 \/ j = 1)%nat as [->| ->] by lia; lra. }
      pose proof (HDp _ J l Hl) as J0. unfold d in J0. rewrite (jumpv_jmp P c HB Hdt) in J0 by lia.
      unfold jmp, vsub, lastc in J0.
      replace (S n * S (c_q c) - 1)%nat with (n * S (c_q c) + c_q c)%nat in J0 by lia.
      rewrite (I1 j (c_q c) l Hj ltac:(lia) Hl) in J0. lra.
  Qed.

  (** trivial kernel of the space-time form when initial data are prescribed *)
  Lemma st_inj X : c_wp c = true -> 16 * 1e-20 ^ 2 < 4 * g_jump g * g_dual g ->
    (forall Y, eval D (st_form c g om false) X Y = 0) -> forall n, (n < c_N c)%nat -> zero_on n X.
  Proof.
    intros Hwp Hc HK. specialize (HK (flip X)). rewrite (signs P c g om D HB Hdt X) in HK.
    assert (QP : forall n, 0 <= quad_spec c g om D X n)
      by (intro n; apply (quad_spec_pos P c g om D HB Hdt HR X n); lra).
    assert (HN := bu_N _ _ HB).
    assert (SP : sumn (c_N c) (quad_spec c g om D X)
       = quad_spec c g om D X 0 + sumn (c_N c - 1) (fun n => quad_spec c g om D X (S n))).
    { destruct (c_N c) as [|N]; [lia|]. cbn [seq]. rewrite Rsum_cons. f_equal.
      replace (S N - 1)%nat with N by lia. rewrite <- seq_shift, Rsum_map. reflexivity. }
    assert (RP : 0 <= sumn (c_N c - 1) (fun n => quad_spec c g om D X (S n))) by (apply Rsum_nonneg; intros; apply QP).
    rewrite SP in HK. unfold quad_spec at 1 in HK. cbn [Nat.ltb Nat.leb] in HK. rewrite Hwp in HK. fold d in HK.
    assert (EI : init D d X X = 1 / c_dt c * L2 D Vp Vp (X 0%nat 0%nat) (X 0%nat 0%nat)
       + c_dt c * H1 D Vp Vp (X 0%nat 0%nat) (X 0%nat 0%nat) + 1 / c_dt c * L2 D Vp Vp (X 1%nat 0%nat) (X 1%nat 0%nat)).
    { unfold init, energy, L2, H1. cbn [t_dt td d].
      rewrite !(sp_ext _ _ _ _ _ _ _ (upper d X 0 0) (upper d X 0 0) (X 0%nat 0%nat) (X 0%nat 0%nat)) by
        (intros l _; exact (upper_p P c HB Hdt X 0 0 l ltac:(lia))).
      rewrite !(sp_ext _ _ _ _ _ _ _ (upper d X 1 0) (upper d X 1 0) (X 1%nat 0%nat) (X 1%nat 0%nat)) by
        (intros l _; exact (upper_p P c HB Hdt X 1 0 l ltac:(lia))). reflexivity. }
    rewrite EI in HK.
    pose proof (data_pos P c om D HB Hdt HR X 0) as D1. pose proof (primal_pos P c om D HB Hdt HR X 0) as D3.
    fold d in D1, D3.
    assert (Q1 := Rmult_le_pos _ _ Gd D1). assert (Q3 := Rmult_le_pos _ _ (Rlt_le _ _ Gp) D3).
    pose proof (dual_trace X 0) as TR. change (0 * S (c_qs c))%nat with 0%nat in TR.
    assert (ST : L2 D Vp Vp (X 0%nat 0%nat) (X 0%nat 0%nat) = 0 /\ L2 D Vp Vp (X 1%nat 0%nat) (X 1%nat 0%nat) = 0).
    { apply (start_zero 1e-20 false 0 _ _ (X 2%nat 0%nat) (X 3%nat 0%nat)
          (g_data g * data D d om X X 0 + g_primal g * primal D d (c_lam c) X X 0
             + sumn (c_N c - 1) (fun n => quad_spec c g om D X (S n))) _ ltac:(lra) TR ltac:(lra)). lra. }
    destruct ST as [S0 S1]. pose proof (HDp _ S0) as Z0. pose proof (HDp _ S1) as Z1.
    assert (QZ : forall n, (n < c_N c)%nat -> quad_spec c g om D X n = 0).
    { intros n Hn. apply (Rsum_nonneg_zero (seq 0 (c_N c)) (quad_spec c g om D X)); [intros; apply QP| |apply in_seq; lia].
      rewrite SP. unfold quad_spec at 1. cbn [Nat.ltb Nat.leb]. rewrite Hwp. fold d. rewrite EI.
      assert (C1 : L2 D Vp Vd (X 0%nat 0%nat) (X 2%nat 0%nat) = 0) by (unfold L2; apply sp_zero1; assumption).
      rewrite C1 in HK. lra. }
    apply quad_start_zero; [|exact QZ]. intros j l Hj Hl.
    assert (j = 0 \/ j = 1)%nat as [->| ->] by lia; [apply Z0|apply Z1]; exact Hl.
  Qed.

  (** ** the preconditioner form is solved slab after slab *)
  Definition place (m : nat) (Y : field) : field := fun j k l =>
    if Nat.eqb (k / ntime c j) m then Y j (k mod ntime c j)%nat l else 0.
  Lemma place_in m Y j i l : (i < ntime c j)%nat -> place m Y j (m * ntime c j + i)%nat l = Y j i l.
  Proof.
    intro Hi. unfold place. rewrite Nat.div_add_l, (Nat.div_small i) by lia. rewrite Nat.add_0_r, Nat.eqb_refl.
    rewrite Nat.add_comm, Nat.mod_add by lia. rewrite Nat.mod_small by exact Hi. reflexivity.
  Qed.
  Lemma place_out m n Y j i l : (i < ntime c j)%nat -> n <> m -> place m Y j (n * ntime c j + i)%nat l = 0.
  Proof.
    intros Hi Hn. unfold place. rewrite Nat.div_add_l, (Nat.div_small i) by lia. rewrite Nat.add_0_r.
    destruct (Nat.eqb_spec n m); [contradiction|reflexivity].
  Qed.
  Lemma ntime_p j : (j < 2)%nat -> ntime c j = S (c_q c).
  Proof. intro H. unfold ntime, sto. destruct (Nat.ltb_spec j 2); [reflexivity|lia]. Qed.
  Lemma ntime_d j : (2 <= j)%nat -> ntime c j = S (c_qs c).
  Proof. intro H. unfold ntime, sto. destruct (Nat.ltb_spec j 2); [lia|reflexivity]. Qed.
  Lemma ntime_pos j : (0 < ntime c j)%nat.
  Proof. unfold ntime. lia. Qed.
  Lemma place_p m n Y j l : (j < 2)%nat -> place m Y j (n * S (c_q c))%nat l = if Nat.eqb n m then Y j 0%nat l else 0.
  Proof.
    intro Hj. rewrite <- (ntime_p j Hj). rewrite <- (Nat.add_0_r (n * ntime c j)). destruct (Nat.eqb_spec n m) as [->|Hn].
    - apply place_in, ntime_pos.
    - apply place_out; [apply ntime_pos|exact Hn].
  Qed.
  Lemma sumn_single n m (f : nat -> R) : (m < n)%nat -> (forall k, (k < n)%nat -> k <> m -> f k = 0) -> sumn n f = f m.
  Proof.
    intros Hm H. rewrite (sumn_ext n f (fun k => delta m k * f k)).
    - rewrite sumn_delta by exact Hm. reflexivity.
    - intros k Hk. unfold delta. destruct (Nat.eqb_spec m k) as [->|Hne]; [ring|]. rewrite (H k Hk) by congruence. ring.
  Qed.
  Lemma pre_place m X Y : c_jumps c = false -> (m < c_N c)%nat -> (forall n, (n < m)%nat -> zero_on n X) ->
    eval D (st_form c g om true) X (place m Y)
    = (if Nat.eqb m 0 then 1e-20 else 0) * L2 D Vp Vd (r m X 0%nat 0%nat) (Y 2%nat 0%nat)
      + eval D (core c g om) (r m X) Y + slab_extra_pre c g D (Nat.ltb 0 m || c_wp c) (r m X) Y.
  Proof.
    intros Hj Hm HZ. rewrite eval_st.
    pose proof (wf_core c g om) as W.
    assert (OFF : forall k, (k < c_N c)%nat -> k <> m ->
      eval D (core c g om) (r k X) (r k (place m Y)) + slab_extra c g D true k X (place m Y) = 0).
    { intros k Hk Hne.
      rewrite (eval_ext D 4 (nc_pre c) _ (r k X) (r k X) (r k (place m Y)) fzero W (feq_refl _ _ _ _)) by
        (intros j i l _ Hi _; unfold restr; apply place_out; [exact Hi|exact Hne]).
      rewrite eval_zero2 by (apply (wf_bform_proper _ _ _ W)).
      unfold slab_extra. rewrite Hj. cbn [andb].
      assert (PZ : forall j l, (j < 2)%nat -> place m Y j (k * S (c_q c))%nat l = 0)
        by (intros j l Hj2; rewrite place_p by exact Hj2; destruct (Nat.eqb_spec k m); [contradiction|reflexivity]).
      rewrite (en_zero2 c D (jmp c X 0 k)) by (intros l _; apply PZ; lia).
      destruct (Nat.eqb_spec k 0) as [->|]; cbn [andb].
      - rewrite (en_zero2 c D (X 0%nat 0%nat)) by (intros l _; apply (PZ _ l); lia).
        destruct (c_wp c), (Nat.ltb 0 0); ring.
      - destruct (Nat.ltb 0 k); ring. }
    rewrite (sumn_single (c_N c) m _ Hm OFF).
    rewrite (eval_ext D 4 (nc_pre c) _ (r m X) (r m X) (r m (place m Y)) Y W (feq_refl _ _ _ _)) by
      (intros j i l _ Hi _; unfold restr; apply place_in; exact Hi).
    rewrite <- Rplus_assoc. f_equal; [f_equal|].
    - unfold regterm. destruct (Nat.eqb_spec m 0) as [->|Hne].
      + unfold L2. unfold reg. f_equal. apply sp_ext; [reflexivity|]. intros l _.
        exact (place_in 0 Y 2 0 l (ntime_pos 2)).
      + rewrite Rmult_0_l. unfold L2. rewrite sp_zero2; [ring|]. intros l _.
        exact (place_out m 0 Y 2 0 l (ntime_pos 2) ltac:(lia)).
    - unfold slab_extra, slab_extra_pre. rewrite Hj. cbn [andb].
      assert (YP : forall j l, (j < 2)%nat -> place m Y j (m * S (c_q c))%nat l = Y j 0%nat l)
        by (intros; rewrite place_p, Nat.eqb_refl by assumption; reflexivity).
      destruct (Nat.eqb_spec m 0) as [->|Hne].
      + cbn [Nat.ltb Nat.leb orb andb]. destruct (c_wp c); [|ring].
        unfold en, L2, H1.
        rewrite !(sp_ext _ _ _ _ _ _ _ (X 0%nat 0%nat) (place 0 Y 0%nat 0%nat) (r 0 X 0%nat 0%nat) (Y 0%nat 0%nat)) by
          (intros l _; first [reflexivity | exact (YP 0%nat l ltac:(lia))]).
        rewrite !(sp_ext _ _ _ _ _ _ _ (X 1%nat 0%nat) (place 0 Y 1%nat 0%nat) (r 0 X 1%nat 0%nat) (Y 1%nat 0%nat)) by
          (intros l _; first [reflexivity | exact (YP 1%nat l ltac:(lia))]). ring.
      + destruct (Nat.ltb_spec 0 m) as [Hp|]; [|lia]. cbn [orb].
        assert (JX : forall j l, (j < 2)%nat -> (l < d_dim D Vp)%nat -> jmp c X j m l = r m X j 0%nat l).
        { intros j l Hj2 Hl. unfold jmp, vsub, restr, lastc. rewrite (ntime_p j Hj2), Nat.add_0_r.
          destruct (HZ (m - 1)%nat ltac:(lia)) as [Z1 _].
          replace (m * S (c_q c) - 1)%nat with ((m - 1) * S (c_q c) + c_q c)%nat by nia.
          rewrite (Z1 j (c_q c) l Hj2 ltac:(lia) Hl). ring. }
        unfold en, L2, H1.
        rewrite !(sp_ext _ _ _ _ _ _ _ (jmp c X 0 m) (place m Y 0%nat (m * S (c_q c))%nat) (r m X 0%nat 0%nat) (Y 0%nat 0%nat)) by
          (intros l Hl; first [exact (JX 0%nat l ltac:(lia) Hl) | exact (YP 0%nat l ltac:(lia))]).
        rewrite !(sp_ext _ _ _ _ _ _ _ (jmp c X 1 m) (place m Y 1%nat (m * S (c_q c))%nat) (r m X 1%nat 0%nat) (Y 1%nat 0%nat)) by
          (intros l Hl; first [exact (JX 1%nat l ltac:(lia) Hl) | exact (YP 1%nat l ltac:(lia))]). cbn [andb]. ring.
  Qed.
  Lemma zero_on_restr m X : zero_on 0 (r m X) -> zero_on m X.
  Proof.
    intros [A B]. split; intros j i l Hj Hi Hl.
    - pose proof (A j i l Hj Hi Hl) as E. unfold restr in E. rewrite ntime_p in E by exact Hj. exact E.
    - pose proof (B j i l Hj Hi Hl) as E. unfold restr in E. rewrite ntime_d in E by lia. exact E.
  Qed.
  Lemma pre_inj X : c_jumps c = false -> 16 * 1e-20 ^ 2 < 4 * g_jump g * g_dual g ->
    c_wp c = true \/ (forall Z, (forall Y, eval D (slab_form c g om false) Z Y = 0) -> zero_on 0 Z) ->
    (forall Y, eval D (st_form c g om true) X Y = 0) -> forall n, (n < c_N c)%nat -> zero_on n X.
  Proof.
    intros Hj Hc H0 HK.
    assert (Hk : kappa = 0) by (unfold kappa; rewrite Hj; reflexivity).
    apply (well_founded_induction Wf_nat.lt_wf (fun n => (n < c_N c)%nat -> zero_on n X)).
    intros m IH Hm. apply zero_on_restr.
    assert (E : forall Y, (if Nat.eqb m 0 then 1e-20 else 0) * L2 D Vp Vd (r m X 0%nat 0%nat) (Y 2%nat 0%nat)
      + eval D (core c g om) (r m X) Y + slab_extra_pre c g D (Nat.ltb 0 m || c_wp c) (r m X) Y = 0).
    { intro Y. rewrite <- pre_place; auto. intros n Hn. apply IH; lia. }
    destruct (Nat.eqb_spec m 0) as [->|Hne].
    - destruct H0 as [H0|H0].
      + rewrite H0 in E. cbn [Nat.ltb Nat.leb orb] in E. apply (slab_inj 1e-20); [rewrite Hk; lra|exact E].
      + destruct (c_wp c) eqn:Ew.
        * cbn [Nat.ltb Nat.leb orb] in E. apply (slab_inj 1e-20); [rewrite Hk; lra|exact E].
        * cbn [Nat.ltb Nat.leb orb] in E. apply H0. intro Y. rewrite eval_slab. exact (E Y).
    - destruct (Nat.ltb_spec 0 m) as [Hp|]; [|lia]. cbn [orb] in E. apply (slab_inj 0); [rewrite Hk; lra|exact E].
  Qed.
End Inj.
