(** Observe.v -- the start value is controlled by the measurements: what replaces
    initial data in the ill-posed mode (C72). *)
From Coq Require Import Reals List ZArith Lra Lia Bool String FunctionalExtensionality.
From Coquelicot Require Import Coquelicot.
From Verif Require Import Base TimeModel TimeSpec TimeProofs QuadProofs FormModel FormSpec FormProofs
  SpaceTimeForms FormBlocks GuardProofs FormTime FormC12 FormSym FormStruct WellPosed Injective.
Import ListNotations.
Open Scope R_scope.

Section Obs.
  Variables (P : params) (c : config) (g : gammas) (om : nat -> R) (D : disc).
  Hypothesis HB : built P c.
  Hypothesis Hdt : 0 < c_dt c.
  Let d := td c.
  Hypothesis HR : regular D om.
  Hypothesis HDp : forall a, L2 D Vp Vp a a = 0 -> forall l, (l < d_dim D Vp)%nat -> a l = 0.
  Hypothesis HDd : forall a, L2 D Vd Vd a a = 0 -> forall l, (l < d_dim D Vd)%nat -> a l = 0.
  Hypothesis Gd : 0 <= g_data g.
  Hypothesis Gz : 0 < g_dual g.
  Hypothesis Gp : 0 < g_primal g.

  (** ** the first slab problem *)
  Definition first_energy (X : field) : R := g_data g * data D d om X X 0 + g_primal g * primal D d (c_lam c) X X 0.
  Lemma first_pos X : 0 <= first_energy X.
  Proof.
    unfold first_energy. pose proof (data_pos P c om D HB Hdt HR X 0) as D1. pose proof (primal_pos P c om D HB Hdt HR X 0) as D3.
    fold d in D1, D3. pose proof (Rmult_le_pos _ _ Gd D1). pose proof (Rmult_le_pos _ _ (Rlt_le _ _ Gp) D3). lra.
  Qed.
  (** the energy of one slab and the 1e-20 term *)
  Section Slab.
    Variables (rho ka : R).
    Hypothesis Hc : 4 * rho ^ 2 < ka * g_dual g.
    Hypothesis Ha : forall X, ka * L2 D Vp Vp (X 0%nat 0%nat) (X 0%nat 0%nat) <= c_dt c * first_energy X.
    Hypothesis Hb : forall X, first_energy X = 0 -> L2 D Vp Vp (X 1%nat 0%nat) (X 1%nat 0%nat) = 0.
    Definition slab_quad (X : field) : R :=
      first_energy X + g_dual g * dual D d (c_lam c) X X 0 - rho * L2 D Vp Vd (X 0%nat 0%nat) (X 2%nat 0%nat).
    Lemma slab_quad_ge X :
      first_energy X - 4 * rho ^ 2 / (g_dual g * c_dt c) * L2 D Vp Vp (X 0%nat 0%nat) (X 0%nat 0%nat) <= slab_quad X.
    Proof.
      unfold slab_quad. pose proof (dual_trace P c om D HB Hdt HR X 0) as TR. change (0 * S (c_qs c))%nat with 0%nat in TR. fold d in TR.
      assert (Gdt : 0 < g_dual g * c_dt c) by (apply Rmult_lt_0_compat; lra).
      pose proof (young om D HR Vp Vd rho (g_dual g * c_dt c / 16) (X 0%nat 0%nat) (X 2%nat 0%nat) ltac:(lra)) as Y.
      set (a := L2 D Vp Vp (X 0%nat 0%nat) (X 0%nat 0%nat)) in *.
      set (b := L2 D Vd Vd (X 2%nat 0%nat) (X 2%nat 0%nat)) in *.
      assert (T2 : g_dual g * c_dt c / 16 * b <= g_dual g * dual D d (c_lam c) X X 0).
      { replace (g_dual g * c_dt c / 16 * b) with (g_dual g * (c_dt c / 16 * b)) by field. apply Rmult_le_compat_l; lra. }
      replace (rho ^ 2 / (4 * (g_dual g * c_dt c / 16))) with (4 * rho ^ 2 / (g_dual g * c_dt c)) in Y by (field; split; lra). lra.
    Qed.
    Lemma slab_quad_scaled X :
      0 <= (ka * g_dual g - 4 * rho ^ 2) * L2 D Vp Vp (X 0%nat 0%nat) (X 0%nat 0%nat) <= g_dual g * c_dt c * slab_quad X.
    Proof.
      pose proof (slab_quad_ge X) as Q. pose proof (Ha X) as HaX. pose proof (L2_nonneg om D HR Vp (X 0%nat 0%nat)) as N0.
      assert (Gdt : 0 < g_dual g * c_dt c) by (apply Rmult_lt_0_compat; lra).
      set (a := L2 D Vp Vp (X 0%nat 0%nat) (X 0%nat 0%nat)) in *. split; [apply Rmult_le_pos; lra|].
      pose proof (Rmult_le_compat_l (g_dual g * c_dt c) _ _ (Rlt_le _ _ Gdt) Q) as Q'.
      replace (g_dual g * c_dt c * (first_energy X - 4 * rho ^ 2 / (g_dual g * c_dt c) * a))
        with (g_dual g * (c_dt c * first_energy X) - 4 * rho ^ 2 * a) in Q' by (field; split; lra).
      pose proof (Rmult_le_compat_l (g_dual g) _ _ (Rlt_le _ _ Gz) HaX). lra.
    Qed.
    Lemma slab_quad_pos X : 0 <= slab_quad X.
    Proof.
      assert (Gdt : 0 < g_dual g * c_dt c) by (apply Rmult_lt_0_compat; lra). pose proof (slab_quad_scaled X).
      apply (Rmult_le_reg_l (g_dual g * c_dt c)); lra.
    Qed.
    Lemma slab_quad_zero X : slab_quad X = 0 -> zero_on c D 0 X.
    Proof.
      intro Q0. pose proof (slab_quad_scaled X) as QS. pose proof (slab_quad_ge X) as QG. rewrite Q0 in QS, QG.
      pose proof (L2_nonneg om D HR Vp (X 0%nat 0%nat)) as N0. pose proof (first_pos X) as F.
      assert (A0 : L2 D Vp Vp (X 0%nat 0%nat) (X 0%nat 0%nat) = 0).
      { apply Rle_antisym; [|exact N0]. apply (Rmult_le_reg_l (ka * g_dual g - 4 * rho ^ 2)); lra. }
      rewrite A0 in QG. assert (F0 : first_energy X = 0) by lra.
      pose proof (Hb X F0) as V0. pose proof (HDp _ A0) as Z0. pose proof (HDp _ V0) as Z1.
      assert (M0 : L2 D Vp Vd (X 0%nat 0%nat) (X 2%nat 0%nat) = 0) by (unfold L2; apply sp_zero1; exact Z0).
      unfold slab_quad in Q0. rewrite M0, F0 in Q0.
      pose proof (dual_pos P c om D HB Hdt HR X 0) as D2. fold d in D2.
      assert (K1 : dual D d (c_lam c) X X 0 = 0) by (apply (zero_of_prod (g_dual g)); lra).
      assert (K2 : primal D d (c_lam c) X X 0 = 0).
      { unfold first_energy in F0. pose proof (data_pos P c om D HB Hdt HR X 0) as D1. pose proof (primal_pos P c om D HB Hdt HR X 0) as D3.
        fold d in D1, D3. pose proof (Rmult_le_pos _ _ Gd D1). pose proof (Rmult_le_pos _ _ (Rlt_le _ _ Gp) D3).
        apply (zero_of_prod (g_primal g)); lra. }
      split.
      - apply (slab_unique P c om D HB Hdt HR HDp X 0 K2). intros j l Hj Hl.
        assert (j = 0 \/ j = 1)%nat as [->| ->] by lia; [apply Z0|apply Z1]; exact Hl.
      - apply (dual_unique P c om D HB Hdt HR HDd); exact K1.
    Qed.
    (** the slab form tested with the flipped field *)
    Lemma slab_quad_core X : eval D (core c g om) X (flip X) - rho * L2 D Vp Vd (X 0%nat 0%nat) (X 2%nat 0%nat) = slab_quad X.
    Proof. rewrite (core_signs P c g om D HB Hdt). fold d. unfold slab_quad, first_energy. ring. Qed.
    Lemma first_inj X :
      (forall Y, rho * L2 D Vp Vd (X 0%nat 0%nat) (Y 2%nat 0%nat) + eval D (core c g om) X Y = 0) -> zero_on c D 0 X.
    Proof.
      intro HK. apply slab_quad_zero. rewrite <- slab_quad_core. specialize (HK (flip X)). revert HK.
      assert (O2 : L2 D Vp Vd (X 0%nat 0%nat) (flip X 2%nat 0%nat) = - L2 D Vp Vd (X 0%nat 0%nat) (X 2%nat 0%nat))
        by (unfold flip, L2; cbn [Nat.ltb Nat.leb]; apply sp_opp2).
      rewrite O2. lra.
    Qed.
  End Slab.

  (** ** measurements on the whole domain *)
  Section Full.
    Variable w0 : R.
    Hypothesis Hw0 : 0 < w0.
    Hypothesis Hom : forall p, In p (d_pts D Dx) -> w0 <= om p.
    Lemma L2w_ge a : w0 * L2 D Vp Vp a a <= L2w D om Vp a a.
    Proof.
      unfold L2w, L2, sp, integ. rewrite <- Rsum_scal. apply Rsum_le_in. intros p Hp. cbn [wval ncomp seq].
      rewrite Rsum_cons, Rsum_nil. set (x := fev D Dx Vp Val a p 0). pose proof (rg_w _ _ HR Dx p Hp) as Hw.
      assert (Q : 0 <= d_w D Dx p * (om p - w0) * (x * x)).
      { apply Rmult_le_pos; [apply Rmult_le_pos; [exact Hw|pose proof (Hom p Hp); lra]|apply Rle_0_sqr]. }
      lra.
    Qed.
    Lemma data_trace X n :
      w0 * c_dt c / 16 * L2 D Vp Vp (X 0%nat (n * S (c_q c))%nat) (X 0%nat (n * S (c_q c))%nat) <= data D d om X X n.
    Proof.
      destruct (at_cub P c HB Hdt X 0 n) as [C HC]. fold d in HC.
      set (a := INR n * c_dt c).
      set (co := fun p m => fev D Dx Vp Val (C m) p 0).
      assert (I1 : is_RInt (fun t => w0 * L2 D Vp Vp (at_time d X 0 n t) (at_time d X 0 n t)) a (a + c_dt c)
         (w0 * Rsum (d_pts D Dx) (fun p => d_w D Dx p * (c_dt c * cub_sq (co p))))).
      { apply is_RInt_scal_R.
        apply is_RInt_ext_R with (f := fun t => Rsum (d_pts D Dx) (fun p =>
           d_w D Dx p * (cub (co p) ((t - a) / c_dt c) * cub (co p) ((t - a) / c_dt c)))).
        - intro t. rewrite L2_pts. apply Rsum_ext; intro p.
          rewrite (fev_ext D Dx Vp Val (at_time d X 0 n t) (vcub C ((t - a) / c_dt c))) by (intros l _; apply HC).
          rewrite fev_cub. reflexivity.
        - apply is_RInt_Rsum. intro p. apply is_RInt_scal_R.
          pose proof (prod_int a (c_dt c) (cub (co p)) (cub (co p)) Hdt (cub_continuous _) (cub_continuous _)) as E.
          rewrite (is_RInt_unique _ _ _ _ (cub_sq_int (co p))) in E. exact E. }
      assert (S1 : w0 * c_dt c / 16 * L2 D Vp Vp (X 0%nat (n * S (c_q c))%nat) (X 0%nat (n * S (c_q c))%nat)
         <= w0 * Rsum (d_pts D Dx) (fun p => d_w D Dx p * (c_dt c * cub_sq (co p)))).
      { replace (w0 * c_dt c / 16 * L2 D Vp Vp (X 0%nat (n * S (c_q c))%nat) (X 0%nat (n * S (c_q c))%nat))
          with (w0 * (c_dt c / 16 * L2 D Vp Vp (X 0%nat (n * S (c_q c))%nat) (X 0%nat (n * S (c_q c))%nat))) by field.
        apply Rmult_le_compat_l; [lra|]. rewrite L2_pts, <- Rsum_scal. apply Rsum_le_in. intros p Hp.
        assert (E0 : fev D Dx Vp Val (X 0%nat (n * S (c_q c))%nat) p 0 = co p 0%nat).
        { unfold co. apply fev_ext. intros l _. rewrite <- (upper_p P c HB Hdt X 0 n l) by lia. unfold upper.
          cbn [t_dt td]. fold d. rewrite (proj1 (HC _ l)). unfold vcub, cub.
          replace ((INR n * c_dt c - INR n * c_dt c) / c_dt c) with 0 by (field; lra). ring. }
        rewrite E0. pose proof (cub_sq_ge (co p)) as Q. pose proof (rg_w _ _ HR Dx p Hp) as Hw.
        assert (Q' : 0 <= d_w D Dx p * c_dt c * (16 * cub_sq (co p) - co p 0%nat * co p 0%nat))
          by (apply Rmult_le_pos; [apply Rmult_le_pos; lra|lra]). lra. }
      apply (Rle_trans _ _ _ S1). unfold data, over_slab. cbn [t_dt td d]. fold a.
      apply (is_RInt_le (fun t => w0 * L2 D Vp Vp (at_time d X 0 n t) (at_time d X 0 n t)) (data_at c om D X X n) a (a + c_dt c)).
      - lra.
      - exact I1.
      - apply (RInt_correct (V := R_CompleteNormedModule)).
        apply (ex_RInt_continuous (V := R_CompleteNormedModule)). intros x _. exact (data_cont P c om D HB X X n x).
      - intros x _. apply L2w_ge.
    Qed.
    (** no misfit and no primal residual on a slab: everything vanishes *)
    Lemma full_velocity X n : data D d om X X n = 0 -> primal D d (c_lam c) X X n = 0 ->
      forall l, (l < d_dim D Vp)%nat -> X 1%nat (n * S (c_q c))%nat l = 0.
    Proof.
      intros K1 K2.
      assert (DZ : forall t, INR n * c_dt c <= t <= INR n * c_dt c + c_dt c -> forall l, (l < d_dim D Vp)%nat -> at_time d X 0 n t l = 0).
      { intros t Ht. apply HDp.
        assert (E : data_at c om D X X n t = 0).
        { apply (slab_zero c Hdt (data_at c om D X X n) n); auto.
          - intro x; exact (data_cont P c om D HB X X n x).
          - intro x. exact (data_at_pos c om D HR X n x). }
        pose proof (L2w_ge (at_time d X 0 n t)) as Q. unfold data_at in E. fold d in E. rewrite E in Q.
        pose proof (L2_nonneg om D HR Vp (at_time d X 0 n t)) as N. apply Rle_antisym; [|exact N]. apply (Rmult_le_reg_l w0); lra. }
      assert (CZ : forall i l, (i <= c_q c)%nat -> (l < d_dim D Vp)%nat -> X 0%nat (n * S (c_q c) + i)%nat l = 0).
      { intros i l Hi Hl. set (t := INR n * c_dt c + node (c_q c) i * c_dt c).
        assert (Hnode := node_range (c_q c) i Hi).
        assert (Ht : INR n * c_dt c <= t <= INR n * c_dt c + c_dt c).
        { unfold t. pose proof (Rmult_le_compat_r (c_dt c) _ _ ltac:(lra) (proj2 Hnode)).
          pose proof (Rmult_le_pos _ _ (proj1 Hnode) (Rlt_le _ _ Hdt)). lra. }
        pose proof (DZ t Ht l Hl) as Z. unfold at_time in Z. cbn [ord Nat.ltb Nat.leb t_q t_dt td d] in Z.
        replace ((t - INR n * c_dt c) / c_dt c) with (node (c_q c) i) in Z by (unfold t; field; lra).
        change (ord d 0) with (c_q c) in Z.
        pose proof (q_le P c HB) as Hq.
        rewrite (sumn_ext _ _ (fun i0 => delta i i0 * X 0%nat (n * S (c_q c) + i0)%nat l)) in Z.
        - rewrite sumn_delta in Z by lia. exact Z.
        - intros i0 Hi0. f_equal. apply lag_node; lia. }
      set (t := INR n * c_dt c).
      assert (AZ : forall x l, (l < d_dim D Vp)%nat -> at_time d X 0 n x l = 0).
      { intros x l Hl. unfold at_time. change (ord d 0) with (c_q c). apply Rsum_zero. intros i Hi. apply in_seq in Hi.
        rewrite CZ by (auto; lia). ring. }
      assert (E : primal_at c D X X n t = 0).
      { apply (slab_zero c Hdt (primal_at c D X X n) n); auto.
        - intro x; exact (primal_cont P c D HB Hdt X X n x).
        - intro x. pose proof (primal_at_pos P c om D HB HR X n x) as Q. unfold primal_at. fold d in Q |- *. lra.
        - unfold t. lra. }
      pose proof (primal_at_pos P c om D HB HR X n t) as Q. unfold primal_at in E. fold d in E, Q.
      assert (V : L2 D Vp Vp (vsub (ddt (at_time d X 0 n) t) (at_time d X 1 n t)) (vsub (ddt (at_time d X 0 n) t) (at_time d X 1 n t)) = 0) by lra.
      intros l Hl. pose proof (HDp _ V l Hl) as V'. unfold vsub, ddt in V'.
      rewrite (Derive_ext _ (fun _ => 0)) in V' by (intro x; apply AZ, Hl). rewrite Derive_const in V'.
      rewrite <- (upper_p P c HB Hdt X 1 n l) by lia. unfold upper. cbn [t_dt td]. fold d. fold t. lra.
    Qed.
  End Full.
End Obs.
