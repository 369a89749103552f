(** OpsExample.v -- a discretisation with piecewise constants in time whose slab
    matrices are injective: exact, total, linear slab solvers exist for it. *)
From Coq Require Import Reals List ZArith Lra Lia Bool String.
From Coquelicot Require Import Coquelicot.
From Verif Require Import QuadProofs Base TimeModel TimeSpec FormModel FormSpec FormProofs SpaceTimeForms FormBlocks FormTime FormC12 FormSym
  FormWf FormExample Props_Forms SpaceTimeModel SlabOps ApplyProofs MarchProofs MarchLoops MarchSum MarchUnique
  ErrorsModel Lifecycle LifeProofs OpsProofs SetupOk LinAlg.
Import ListNotations.
Open Scope R_scope.

(** * The object *)
Definition exE (D : disc) (c : config) : env :=
  mkEnv c D (std_layout 4 (nc_full c) (fun j => d_dim D (spc j))) (std_layout 4 (nc_pre c) (fun j => d_dim D (spc j)))
    (std_layout 2 nc_coup (fun j => d_dim D (spc j))) (std_layout 2 nc_bnd (fun j => d_dim D (spc j))).
Lemma exE_ok D c : (1 <= c_N c)%nat -> env_ok (exE D c).
Proof. intro H. constructor; [exact H| | | |]; apply std_layout_ok. Qed.
Lemma exE_good D q qs N jm wp c : construct (exP q qs N jm wp) = Ok c -> good (exP q qs N jm wp) (exE D c) exG.
Proof.
  intro H. constructor; [exact H|cbn; lra|cbn; lia|reflexivity|cbn; lra|cbn; lra].
Qed.

(** * Injective slab matrices *)
Section Inj.
  Variables (N : nat) (c : config).
  Hypothesis HC : construct (exP 0 0 N false false) = Ok c.
  Let HB := construct_inv _ _ HC.
  Lemma x_dt : 0 < c_dt c.
  Proof. apply (dt_pos _ _ HC). cbn. lra. Qed.
  Lemma x_q : c_q c = 0%nat /\ c_qs c = 0%nat.
  Proof. split; [rewrite (bu_cq _ _ HB)|rewrite (bu_cqs _ _ HB)]; reflexivity. Qed.
  Notation d := (td c).
  Lemma x_at X j n t l : at_time d X j n t l = X j n l.
  Proof.
    destruct x_q as [Q1 Q2]. unfold at_time. assert (Ho : ord d j = 0%nat).
    { unfold ord, td. cbn [t_q t_qs]. rewrite Q1, Q2. destruct (Nat.ltb j 2); reflexivity. }
    rewrite Ho. cbn [seq]. rewrite Rsum_cons, Rsum_nil, Nat.mul_1_r, Nat.add_0_r. cbn. ring.
  Qed.
  Lemma x_ddt X j n t l : ddt (at_time d X j n) t l = 0.
  Proof.
    unfold ddt. rewrite (Derive_ext _ (fun _ => X j n l)) by (intro; apply x_at). apply Derive_const.
  Qed.
  Lemma x_over n f k : (forall t, f t = k) -> over_slab d n f = c_dt c * k.
  Proof.
    intro H. unfold over_slab. cbn [t_dt td].
    assert (HI : is_RInt f (INR n * c_dt c) (INR n * c_dt c + c_dt c) (scal ((INR n * c_dt c + c_dt c) - INR n * c_dt c) k)).
    { apply (is_RInt_ext (fun _ => k)); [intros; symmetry; apply H|]. apply (is_RInt_const (V := R_NormedModule)). }
    rewrite (is_RInt_unique _ _ _ _ HI). unfold scal; cbn; unfold mult; cbn. ring.
  Qed.
  Lemma x_data X : data exI d om1 X X 0 = c_dt c * L2 exI Vp Vp (X 0%nat 0%nat) (X 0%nat 0%nat).
  Proof.
    unfold data. apply x_over. intro t. unfold L2w.
    rewrite (sp_ext _ _ _ _ _ _ _ _ _ (X 0%nat 0%nat) (X 0%nat 0%nat)) by (intros; apply x_at).
    unfold L2, sp, integ, om1, wval. reflexivity.
  Qed.
  Lemma x_dual X : c_dt c * (L2 exI Vd Vd (X 2%nat 0%nat) (X 2%nat 0%nat) + L2 exI Vd Vd (X 3%nat 0%nat) (X 3%nat 0%nat))
    <= dual exI d (c_lam c) X X 0.
  Proof.
    unfold dual. rewrite (x_over 0 _ (L2 exI Vd Vd (X 2%nat 0%nat) (X 2%nat 0%nat) + H1 exI Vd Vd (X 2%nat 0%nat) (X 2%nat 0%nat)
      + L2 exI Vd Vd (X 3%nat 0%nat) (X 3%nat 0%nat) + bndw exI (c_lam c) Vd (X 2%nat 0%nat) (X 2%nat 0%nat))).
    - apply Rmult_le_compat_l; [left; apply x_dt|].
      assert (A : 0 <= H1 exI Vd Vd (X 2%nat 0%nat) (X 2%nat 0%nat)) by (apply sp_nonneg, (reg_one _ om1), exI_regular).
      assert (B : 0 <= bndw exI (c_lam c) Vd (X 2%nat 0%nat) (X 2%nat 0%nat))
        by (apply sp_nonneg, (reg_lamh _ om1); [apply (lam_pos _ c HB)|apply exI_regular]).
      lra.
    - intro t. cbv zeta. unfold L2, H1, bndw.
      apply f_equal2; [apply f_equal2; [apply f_equal2|]|]; apply sp_ext; intros; apply x_at.
  Qed.
  Lemma x_primal X : c_dt c * L2 exI Vp Vp (X 1%nat 0%nat) (X 1%nat 0%nat) <= primal exI d (c_lam c) X X 0.
  Proof.
    unfold primal.
    rewrite (x_over 0 _ (L2 exI Vp Vp (X 1%nat 0%nat) (X 1%nat 0%nat)
      + integ exI Dx WH2 1 (fun p _ => - fev exI Dx Vp Lap (X 0%nat 0%nat) p 0) (fun p _ => - fev exI Dx Vp Lap (X 0%nat 0%nat) p 0)
      + bndw exI (c_lam c) Vp (X 0%nat 0%nat) (X 0%nat 0%nat) + facet exI Vp (X 0%nat 0%nat) (X 0%nat 0%nat))).
    - apply Rmult_le_compat_l; [left; apply x_dt|].
      assert (A : 0 <= integ exI Dx WH2 1 (fun p _ => - fev exI Dx Vp Lap (X 0%nat 0%nat) p 0) (fun p _ => - fev exI Dx Vp Lap (X 0%nat 0%nat) p 0))
        by (apply integ_nonneg, (reg_h2 _ om1), exI_regular).
      assert (B : 0 <= bndw exI (c_lam c) Vp (X 0%nat 0%nat) (X 0%nat 0%nat))
        by (apply sp_nonneg, (reg_lamh _ om1); [apply (lam_pos _ c HB)|apply exI_regular]).
      assert (C : 0 <= facet exI Vp (X 0%nat 0%nat) (X 0%nat 0%nat)) by (apply sp_nonneg, (reg_havg _ om1), exI_regular).
      lra.
    - intro t. cbv zeta. apply f_equal2; [apply f_equal2; [apply f_equal2|]|].
      + unfold L2. rewrite (sp_ext _ _ _ _ _ _ _ _ _ (fun l => - X 1%nat 0%nat l) (fun l => - X 1%nat 0%nat l)).
        * rewrite sp_opp1, sp_opp2. ring.
        * intros l _. unfold vsub. rewrite x_ddt, x_at. ring.
        * intros l _. unfold vsub. rewrite x_ddt, x_at. ring.
      + apply integ_ext; intros p Hp; intros; unfold res2;
        rewrite (fev_ext exI Dx Vp Val _ (fun _ => 0)) by (intros; apply x_ddt);
        rewrite (fev_ext exI Dx Vp Lap _ (X 0%nat 0%nat)) by (intros; apply x_at);
        unfold fev; rewrite (Rsum_zero _ (fun l => 0 * _)) by (intros; ring); ring.
      + unfold bndw. apply sp_ext; intros; apply x_at.
      + unfold facet. apply sp_ext; intros; apply x_at.
  Qed.
  Lemma x_slab b X : c_dt c * (L2 exI Vp Vp (X 0%nat 0%nat) (X 0%nat 0%nat) + L2 exI Vp Vp (X 1%nat 0%nat) (X 1%nat 0%nat)
      + L2 exI Vd Vd (X 2%nat 0%nat) (X 2%nat 0%nat) + L2 exI Vd Vd (X 3%nat 0%nat) (X 3%nat 0%nat))
      - 1e-20 * L2 exI Vp Vd (X 0%nat 0%nat) (X 2%nat 0%nat)
    <= eval exI (slab_form c exG om1 b) X (flip X).
  Proof.
    rewrite eval_slab. 
    change (eval exI (core c exG om1) X (flip X)) with (eval exI (core c exG om1) (restr (ntime c) 0 X) (restr (ntime c) 0 (flip X))).
    rewrite (core_slab _ c exG om1 exI HB x_dt). unfold slab_spec.
    rewrite (wave_flip2 _ c exI HB x_dt), (wave_flip1 _ c exI HB x_dt), (data_flip _ c om1 exI HB), (primal_flip _ c exI HB), (dual_flip _ c exI HB).
    cbn [g_data g_dual g_primal exG].
    pose proof (x_data X) as H1'. pose proof (x_dual X) as H2'. pose proof (x_primal X) as H3'.
    assert (H4 : 0 <= slab_extra_pre c exG exI b X (flip X)).
    { unfold slab_extra_pre. rewrite (bu_jumps _ _ HB). cbn [p_jumps exP]. destruct b; [|lra].
      rewrite Rplus_0_r. cbn [g_jump exG]. rewrite Rmult_1_l. apply (energy_pos c om1 exI x_dt exI_regular). }
    unfold regterm. change (flip X 2%nat 0%nat) with (fun l => - X 2%nat 0%nat l).
    unfold L2 at 6. rewrite sp_opp2. unfold reg. fold (L2 exI Vp Vd (X 0%nat 0%nat) (X 2%nat 0%nat)). lra.
  Qed.
  Notation L := (e_Lp (exE exI c)).
  Lemma x_dim : lay_dim L = 12%nat.
  Proof. destruct x_q as [Q1 Q2]. cbn. rewrite Q1, Q2. reflexivity. Qed.
  Lemma x_dof j l : (j < 4)%nat -> (l < 3)%nat -> dof L j 0 l = (3 * j + l)%nat.
  Proof.
    destruct x_q as [Q1 Q2]. intros Hj Hl.
    destruct j as [|[|[|[|j]]]]; [| | | |lia]; (destruct l as [|[|[|l]]]; [| | |lia]); cbn; rewrite ?Q1, ?Q2; reflexivity.
  Qed.
  Hypothesis HN1000 : (N <= 1000)%nat.
  Lemma x_injective b : injective (lay_dim L) (assemble exI L (slab_form c exG om1 b)).
  Proof.
    intros x Hx. set (X := field_of L x).
    set (y := fun I => if Nat.ltb I 6 then x I else - x I).
    assert (HY : feq exI 4 (nc_pre c) (flip X) (field_of L y)).
    { intros j i l Hj Hi Hl. destruct x_q as [Q1 Q2].
      assert (i = 0%nat) as -> by (unfold nc_pre, ntime, sto in Hi; rewrite Q1, Q2 in Hi; destruct (Nat.ltb j 2); lia).
      cbn in Hl. unfold X, flip, field_of, y. rewrite x_dof by assumption.
      destruct (Nat.ltb_spec j 2), (Nat.ltb_spec (3 * j + l) 6); try reflexivity; lia. }
    assert (H0 : eval exI (slab_form c exG om1 b) X (flip X) = 0).
    { rewrite (eval_ext exI 4 (nc_pre c) _ X X _ (field_of L y)); [|apply wf_slab|apply feq_refl|exact HY].
      unfold X. rewrite <- (dot_assemble exI 4 (nc_pre c)); [|apply std_layout_ok|apply wf_slab].
      apply Rsum_zero. intros I HI. apply in_seq in HI. rewrite Hx by lia. ring. }
    pose proof (x_slab b X) as HS. rewrite H0, !exI_mass in HS.
    assert (Hd : 1e-3 <= c_dt c).
    { rewrite (bu_dt _ _ HB). cbn [p_T p_N exP]. apply le_INR in HN1000. rewrite (INR_IZR_INZ 1000) in HN1000. cbn in HN1000.
      assert (0 < INR N) by (pose proof (bu_N _ _ HB) as Q; rewrite (bu_NP _ _ HB) in Q; apply lt_0_INR; exact Q).
      apply Rmult_le_reg_r with (INR N); [assumption|]. replace (1 / INR N * INR N) with 1 by (field; lra). decimals. lra. }
    assert (HZ : forall j l, (j < 4)%nat -> (l < 3)%nat -> X j 0%nat l = 0).
    { assert (SQ : forall j l, 0 <= X j 0%nat l * X j 0%nat l) by (intros; apply Rle_0_sqr).
      assert (AB : forall l, X 0%nat 0%nat l * X 2%nat 0%nat l <= (X 0%nat 0%nat l * X 0%nat 0%nat l + X 2%nat 0%nat l * X 2%nat 0%nat l) / 2).
      { intro l. pose proof (Rle_0_sqr (X 0%nat 0%nat l - X 2%nat 0%nat l)) as Q. unfold Rsqr in Q. lra. }
      set (S := fun j => X j 0%nat 0%nat * X j 0%nat 0%nat / 4 + X j 0%nat 1%nat * X j 0%nat 1%nat / 2 + X j 0%nat 2%nat * X j 0%nat 2%nat / 4).
      assert (SP : forall j, 0 <= S j).
      { intro j. unfold S. pose proof (SQ j 0%nat). pose proof (SQ j 1%nat). pose proof (SQ j 2%nat). lra. }
      assert (HT : 1e-3 * (S 0%nat + S 1%nat + S 2%nat + S 3%nat) <= 1e-20 / 2 * (S 0%nat + S 2%nat)).
      { apply Rle_trans with (c_dt c * (S 0%nat + S 1%nat + S 2%nat + S 3%nat)).
        - apply Rmult_le_compat_r; [|exact Hd]. pose proof (SP 0%nat). pose proof (SP 1%nat). pose proof (SP 2%nat). pose proof (SP 3%nat). lra.
        - fold (S 0%nat) (S 1%nat) (S 2%nat) (S 3%nat) in HS. pose proof (AB 0%nat). pose proof (AB 1%nat). pose proof (AB 2%nat).
          assert (X 0%nat 0%nat 0%nat * X 2%nat 0%nat 0%nat / 4 + X 0%nat 0%nat 1%nat * X 2%nat 0%nat 1%nat / 2 + X 0%nat 0%nat 2%nat * X 2%nat 0%nat 2%nat / 4 <= (S 0%nat + S 2%nat) / 2) by (unfold S; lra).
          decimals. lra. }
      assert (SZ : forall j, (j < 4)%nat -> S j = 0).
      { pose proof (SP 0%nat). pose proof (SP 1%nat). pose proof (SP 2%nat). pose proof (SP 3%nat).
        intros j Hj. destruct j as [|[|[|[|j]]]]; [| | | |lia]; decimals; lra. }
      intros j l Hj Hl. apply (exI_definite Vp); [|exact Hl]. rewrite exI_mass. apply (SZ j Hj). }
    intros I HI. rewrite x_dim in HI.
    replace I with (3 * (I / 3) + I mod 3)%nat by (symmetry; apply Nat.div_mod; lia).
    assert ((I / 3 < 4)%nat) by (apply Nat.div_lt_upper_bound; lia).
    assert ((I mod 3 < 3)%nat) by (apply Nat.mod_upper_bound; lia).
    rewrite <- x_dof by assumption. apply HZ; assumption.
  Qed.

  (* The slab systems of the example have exact, total and linear solvers. *)
  Lemma x_solver b : exists F : vec -> vec,
    exact (lay_dim L) (assemble exI L (slab_form c exG om1 b)) (fun r _ => Ok (F r)) /\
    (forall r r', veq (lay_dim L) r r' -> veq (lay_dim L) (F r) (F r')) /\
    forall k1 r1 k2 r2, veq (lay_dim L) (F (vlin k1 r1 k2 r2)) (vlin k1 (F r1) k2 (F r2)).
  Proof.
    destruct (injective_inverse _ _ (x_injective b)) as [X HX].
    exists (by_columns (lay_dim L) X). split.
    - intros r w u [= <-] J HJ. apply HX, HJ.
    - split.
      + intros r r' H l Hl. apply by_columns_ext, H.
      + intros k1 r1 k2 r2 l Hl. apply by_columns_lin.
  Qed.
End Inj.
