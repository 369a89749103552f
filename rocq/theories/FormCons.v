(** FormCons.v -- consistency: right-hand side against data term (C18),
    stabilisation on exact discrete waves (C19). *)
From Coq Require Import Reals List ZArith Lra Lia Bool String.
From Coquelicot Require Import Coquelicot.
From Verif Require Import Base TimeModel TimeSpec TimeProofs QuadProofs FormModel FormSpec FormProofs
  SpaceTimeForms FormBlocks GuardProofs FormTime FormC12 FormSym FormStruct RhsProofs.
Import ListNotations.
Open Scope R_scope.

Lemma integ_ext_in D m w nc f h f' h' :
  (forall p k, In p (d_pts D m) -> (k < nc)%nat -> f p k = f' p k) ->
  (forall p k, In p (d_pts D m) -> (k < nc)%nat -> h p k = h' p k) ->
  integ D m w nc f h = integ D m w nc f' h'.
Proof.
  intros Hf Hg. unfold integ. apply Rsum_ext_in; intros p Hp. f_equal.
  apply sumn_ext; intros k Hk. rewrite Hf, Hg by assumption. reflexivity.
Qed.
Lemma integ_zero D m w nc f h : (forall p k, In p (d_pts D m) -> (k < nc)%nat -> f p k = 0) ->
  integ D m w nc f h = 0.
Proof.
  intro H. unfold integ. apply Rsum_zero; intros p Hp.
  rewrite (Rsum_zero (seq 0 nc)); [ring|]. intros k Hk. apply in_seq in Hk. rewrite H by (auto; lia). ring.
Qed.

Lemma leval_flat_map {A} D (h : A -> lform) l Y :
  leval D (flat_map h l) Y = Rsum l (fun a => leval D (h a) Y).
Proof.
  induction l as [|a l IH]; [reflexivity|]. cbn [flat_map]. rewrite leval_app, IH, Rsum_cons. reflexivity.
Qed.

Lemma over_slab_zero d n (f : R -> R) : 0 < t_dt d ->
  (forall t, INR n * t_dt d <= t <= INR n * t_dt d + t_dt d -> f t = 0) -> over_slab d n f = 0.
Proof.
  intros Hd H. unfold over_slab.
  transitivity (RInt (fun _ : R => 0) (INR n * t_dt d) (INR n * t_dt d + t_dt d)).
  - apply RInt_ext. intros t Ht. rewrite Rmin_left, Rmax_right in Ht by lra. apply H; lra.
  - rewrite (RInt_const (V := R_CompleteNormedModule)). unfold scal; cbn. unfold mult; cbn. ring.
Qed.

Section Cons.
  Variables (P : params) (c : config) (g : gammas) (om : nat -> R) (D : disc).
  Hypothesis HB : built P c.
  Hypothesis Hdt : 0 < c_dt c.
  Let d := td c.
  Let Hq := q_le P c HB.
  Let Hqs := qs_le P c HB.
  Notation r n X := (restr (ntime c) n X).

  Lemma phi_lag k t : (k <= c_q c)%nat -> nth k (c_phi c) (fun _ => 0) t = lagrange (c_q c) k t.
  Proof.
    intro Hk. rewrite (bu_cq _ _ HB) in Hk |- *. apply (basis_lagrange _ _ _ (bu_phi _ _ HB)). exact Hk.
  Qed.

  (** the right-hand side as a sum over slabs *)
  Lemma rhs_slabs gd gj xs u1v u1g u2v Y :
    leval D (rhs_form c om gd gj xs u1v u1g u2v) Y
    = 1e-20 * integ D Dx WOne 1 (fun _ _ => 1) (fev D Dx Vd Val (Y 2%nat 0%nat))
      + sumn (c_N c) (fun n => leval D (rhs_data c om gd xs n (z (n * S (c_q c)))) Y
                               + leval D (rhs_init c gj u1v u1g u2v n) Y).
  Proof.
    unfold rhs_form.
    rewrite (fold_slabs c (fun n s => rhs_data c om gd xs n (k_iq s) ++ rhs_init c gj u1v u1g u2v n)).
    cbn [snd]. rewrite leval_app, leval_cons, leval_flat_map. f_equal.
    - rewrite leval_t_sum. cbn [l_coef l_a l_m l_wt l_o l_f ncomp]. unfold at_, Y1.
      rewrite Rsum_cons, Rsum_nil. cbn [blk spc Nat.ltb Nat.leb Z.to_nat]. unfold reg, leval, one_f. rewrite Rsum_nil. ring.
    - apply Rsum_ext; intro n. rewrite leval_app. unfold cntn; cbn [k_iq]. reflexivity.
  Qed.

  (** one slab of the data part *)
  Lemma rhs_data_eval gd xs n Y :
    leval D (rhs_data c om gd xs n (z (n * S (c_q c)))) Y
    = gd * c_dt c * Rsum (c_qr c) (fun '(tau, w) => w * sumn (S (c_q c)) (fun k =>
        lagrange (c_q c) k tau
        * integ D Dx (WOm om) 1 (fun p _ => c_v c (INR n * c_dt c + c_dt c * tau) (xs p))
             (fev D Dx Vp Val (Y 0%nat (n * S (c_q c) + k)%nat)))).
  Proof.
    unfold rhs_data, leval. rewrite Rsum_map. rewrite <- Rsum_scal. apply Rsum_ext; intros [tau w].
    rewrite leval_t_sum. cbn [l_coef l_a l_m l_wt l_o l_f ncomp].
    rewrite Rsum_map. rewrite Rmult_assoc. rewrite <- !Rmult_assoc. f_equal.
    apply Rsum_ext_in; intros k Hk. apply in_seq in Hk. rewrite phi_lag by lia.
    cbn [W1 blk spc Nat.ltb Nat.leb].
    replace (Z.to_nat (z (n * S (c_q c)) + z k)) with (n * S (c_q c) + k)%nat by (unfold z; lia). reflexivity.
  Qed.

  (** data given by a discrete function *)
  Definition data_matches (xs : nat -> list R) (U : field) : Prop :=
    forall n p t, (n < c_N c)%nat -> In p (d_pts D Dx) -> INR n * c_dt c <= t <= INR n * c_dt c + c_dt c ->
      c_v c t (xs p) = fev D Dx Vp Val (at_time d U 0 n t) p 0.
  Lemma qr_range tau w : In (tau, w) (c_qr c) -> 0 <= tau <= 1.
  Proof.
    destruct (bu_qr _ _ HB) as [qr [E1 E2]]. cbn in E1. injection E1; intros <-; clear E1.
    cbn in E2. injection E2; intros <-; clear E2. cbn [In].
    intros H. decompose [or] H; clear H; try contradiction;
    match goal with E : (_, _) = _ |- _ => injection E; intros; subst end; decimals; lra.
  Qed.
  Lemma rhs_data_disc gd xs U n Y : (n < c_N c)%nat -> data_matches xs U ->
    leval D (rhs_data c om gd xs n (z (n * S (c_q c)))) Y
    = gd * c_dt c * sumn (S (c_q c)) (fun j => sumn (S (c_q c)) (fun k =>
        Rsum (c_qr c) (fun '(tau, w) => w * (lagrange (c_q c) j tau * lagrange (c_q c) k tau))
        * L2w D om Vp (r n U 0%nat j) (r n Y 0%nat k))).
  Proof.
    intros Hn HM. rewrite rhs_data_eval. f_equal.
    rewrite (Rsum_ext_in (c_qr c) _ (fun x => sumn (S (c_q c)) (fun j => sumn (S (c_q c)) (fun k =>
       (let '(tau, w) := x in w * (lagrange (c_q c) j tau * lagrange (c_q c) k tau)) * L2w D om Vp (r n U 0%nat j) (r n Y 0%nat k))))).
    - rewrite Rsum_swap. apply Rsum_ext; intro j. rewrite Rsum_swap. apply Rsum_ext; intro k.
      rewrite <- Rsum_scal_r. apply Rsum_ext; intros [tau w]. reflexivity.
    - intros [tau w] Hin. pose proof (qr_range _ _ Hin) as Ht.
      rewrite <- Rsum_scal.
      rewrite (Rsum_swap (seq 0 (S (c_q c)))).
      apply Rsum_ext; intro k.
      assert (E : integ D Dx (WOm om) 1 (fun p _ => c_v c (INR n * c_dt c + c_dt c * tau) (xs p))
             (fev D Dx Vp Val (Y 0%nat (n * S (c_q c) + k)%nat))
        = L2w D om Vp (at_time d U 0 n (INR n * c_dt c + c_dt c * tau)) (r n Y 0%nat k)).
      { unfold L2w, sp. cbn [ncomp]. apply integ_ext_in; intros p k' Hp Hk'.
        - replace k' with 0%nat by lia. apply HM; auto.
          pose proof (Rmult_le_pos _ _ (Rlt_le _ _ Hdt) (proj1 Ht)).
          pose proof (Rmult_le_compat_l _ _ _ (Rlt_le _ _ Hdt) (proj2 Ht)). lra.
        - reflexivity. }
      rewrite E. unfold L2w.
      rewrite (sp_ext D Dx (WOm om) Val Vp Val Vp _ (r n Y 0%nat k)
        (fun l => sumn (S (c_q c)) (fun j => lagrange (c_q c) j tau * r n U 0%nat j l)) (r n Y 0%nat k)).
      + rewrite sp_sum1. rewrite <- !Rsum_scal. apply Rsum_ext; intro j. ring.
      + intros l Hl. unfold at_time. cbn [ord Nat.ltb Nat.leb t_q t_dt td d].
        apply Rsum_ext; intro j.
        replace ((INR n * c_dt c + c_dt c * tau - INR n * c_dt c) / c_dt c) with tau by (field; lra).
        reflexivity.
      + reflexivity.
  Qed.
  Lemma data_disc U Y n : data D d om U Y n
    = c_dt c * sumn (S (c_q c)) (fun j => sumn (S (c_q c)) (fun k =>
        RInt (fun t => lagrange (c_q c) j t * lagrange (c_q c) k t) 0 1
        * L2w D om Vp (r n U 0%nat j) (r n Y 0%nat k))).
  Proof.
    unfold data, over_slab. erewrite is_RInt_unique_R; [|unfold L2w; apply (int_vv c D Hdt Hq Hqs)].
    cbn [ord Nat.ltb Nat.leb t_q td d]. rewrite dsum_scal. apply dsum_ext; intros. unfold L2w. ring.
  Qed.

  Lemma Rabs_sumn n (f : nat -> R) : Rabs (sumn n f) <= sumn n (fun i => Rabs (f i)).
  Proof.
    induction n as [|n IH]; [unfold Rsum; cbn; rewrite Rabs_R0; lra|].
    rewrite !sumn_S. eapply Rle_trans; [apply Rabs_triang|]. lra.
  Qed.
  Lemma sumn_le n (f h : nat -> R) : (forall i, (i < n)%nat -> f i <= h i) -> sumn n f <= sumn n h.
  Proof.
    induction n as [|n IH]; intro H; [unfold Rsum; cbn; lra|]. rewrite !sumn_S.
    apply Rplus_le_compat; [apply IH; intros; apply H; lia|apply H; lia].
  Qed.
  Definition size (U Y : field) (n : nat) : R :=
    sumn (S (c_q c)) (fun j => sumn (S (c_q c)) (fun k =>
      Rabs (L2w D om Vp (U 0%nat (n * S (c_q c) + j)%nat) (Y 0%nat (n * S (c_q c) + k)%nat)))).
  Lemma rhs_data_error gd xs U n Y : (n < c_N c)%nat -> data_matches xs U ->
    Rabs (leval D (rhs_data c om gd xs n (z (n * S (c_q c)))) Y - gd * data D d om U Y n)
    <= 3e-7 * Rabs gd * c_dt c * size U Y n.
  Proof.
    intros Hn HM. rewrite (rhs_data_disc gd xs U) by assumption. rewrite data_disc.
    rewrite <- (Rmult_assoc gd), <- Rmult_minus_distr_l, dsum_minus.
    rewrite Rabs_mult, Rabs_mult, (Rabs_pos_eq (c_dt c)) by lra.
    replace (3e-7 * Rabs gd * c_dt c * size U Y n) with (Rabs gd * c_dt c * (3e-7 * size U Y n)) by ring.
    apply Rmult_le_compat_l; [apply Rmult_le_pos; [apply Rabs_pos|lra]|].
    eapply Rle_trans; [apply Rabs_sumn|]. unfold size. rewrite dsum_scal.
    apply sumn_le; intros j Hj. eapply Rle_trans; [apply Rabs_sumn|]. apply sumn_le; intros k Hk.
    rewrite <- Rmult_minus_distr_r, Rabs_mult. apply Rmult_le_compat_r; [apply Rabs_pos|].
    destruct (bu_qr _ _ HB) as [qr [E1 E2]].
    apply (radau4_pairs (c_q c) j k Hq ltac:(lia) ltac:(lia) qr (c_qr c) E1 E2).
  Qed.
  (** initial data *)
  Definition init_matches (u1v u1g u2v : nat -> nat -> R) (U : field) : Prop :=
    forall p, In p (d_pts D Dx) ->
      u1v p 0%nat = fev D Dx Vp Val (upper d U 0 0) p 0
      /\ (forall k, (k < d_gd D)%nat -> u1g p k = fev D Dx Vp Grad (upper d U 0 0) p k)
      /\ u2v p 0%nat = fev D Dx Vp Val (upper d U 1 0) p 0.
  Lemma rhs_init_eval gj u1v u1g u2v U n Y : init_matches u1v u1g u2v U ->
    leval D (rhs_init c gj u1v u1g u2v n) Y
    = if Nat.eqb n 0 && c_wp c then gj * init D d U Y else 0.
  Proof.
    intro HM. unfold rhs_init. destruct (Nat.eqb n 0 && c_wp c); [|reflexivity].
    rewrite !leval_cons. unfold leval at 1. rewrite Rsum_nil.
    rewrite !leval_t_sum. cbn [l_coef l_a l_m l_wt l_o l_f ncomp]. unfold at_, W1, W2.
    rewrite !Rsum_cons, !Rsum_nil. cbn [blk spc Nat.ltb Nat.leb Z.to_nat]. unfold init, energy, L2, H1, sp. cbn [ncomp t_dt td d].
    assert (UY : forall j l, (j < 2)%nat -> upper d Y j 0 l = Y j 0%nat l).
    { intros j l Hj. unfold d. rewrite (upper_p P c HB Hdt) by exact Hj. reflexivity. }
    rewrite (integ_ext_in D Dx WOne 1 u1v (fev D Dx Vp Val (Y 0%nat 0%nat))
       (fev D Dx Vp Val (upper d U 0 0)) (fev D Dx Vp Val (upper d Y 0 0))).
    - rewrite (integ_ext_in D Dx WOne (d_gd D) u1g (fev D Dx Vp Grad (Y 0%nat 0%nat))
         (fev D Dx Vp Grad (upper d U 0 0)) (fev D Dx Vp Grad (upper d Y 0 0))).
      + rewrite (integ_ext_in D Dx WOne 1 u2v (fev D Dx Vp Val (Y 1%nat 0%nat))
           (fev D Dx Vp Val (upper d U 1 0)) (fev D Dx Vp Val (upper d Y 1 0))); [ring| |].
        * intros p k Hp Hk. replace k with 0%nat by lia. apply (HM p Hp).
        * intros p k Hp Hk. apply fev_ext; intros. symmetry. apply UY; lia.
      + intros p k Hp Hk. apply (HM p Hp); exact Hk.
      + intros p k Hp Hk. apply fev_ext; intros. symmetry. apply UY; lia.
    - intros p k Hp Hk. replace k with 0%nat by lia. apply (HM p Hp).
    - intros p k Hp Hk. apply fev_ext; intros. symmetry. apply UY; lia.
  Qed.

  Lemma rhs_consistent gd gj xs u1v u1g u2v U Y :
    data_matches xs U -> (c_wp c = true -> init_matches u1v u1g u2v U) ->
    Rabs (leval D (rhs_form c om gd gj xs u1v u1g u2v) Y
          - (1e-20 * integ D Dx WOne 1 (fun _ _ => 1) (fev D Dx Vd Val (Y 2%nat 0%nat))
             + sumn (c_N c) (fun n => gd * data D d om U Y n)
             + if c_wp c then gj * init D d U Y else 0))
    <= 3e-7 * Rabs gd * c_dt c * sumn (c_N c) (size U Y).
  Proof.
    intros HM HI. rewrite rhs_slabs.
    assert (E : sumn (c_N c) (fun n => leval D (rhs_init c gj u1v u1g u2v n) Y)
      = if c_wp c then gj * init D d U Y else 0).
    { destruct (c_wp c) eqn:Ew.
      - rewrite (sumn_ext _ _ (fun n => delta 0 n * (gj * init D d U Y))).
        + rewrite sumn_delta; [reflexivity|]. pose proof (bu_N _ _ HB). lia.
        + intros n Hn. rewrite (rhs_init_eval gj u1v u1g u2v U) by (apply HI; reflexivity).
          rewrite Ew, andb_true_r. unfold delta. rewrite Nat.eqb_sym. destruct (Nat.eqb 0 n); ring.
      - apply Rsum_zero; intros n _. unfold rhs_init. rewrite Ew, andb_false_r. reflexivity. }
    rewrite Rsum_plus, E.
    match goal with |- Rabs (?a + (?b + ?e) - (?a + ?b' + ?e)) <= _ => replace (a + (b + e) - (a + b' + e)) with (b - b') by ring end.
    rewrite <- Rsum_minus, <- Rsum_scal.
    eapply Rle_trans; [apply Rabs_sumn|]. apply sumn_le; intros n Hn. apply rhs_data_error; assumption.
  Qed.

  (** ** exact discrete waves *)
  Record exact_wave (U : field) : Prop := {
    ew_first : forall n t p, (n < c_N c)%nat -> INR n * c_dt c <= t <= INR n * c_dt c + c_dt c -> In p (d_pts D Dx) ->
      fev D Dx Vp Val (ddt (at_time d U 0 n) t) p 0 = fev D Dx Vp Val (at_time d U 1 n t) p 0;
    ew_second : forall n t p, (n < c_N c)%nat -> INR n * c_dt c <= t <= INR n * c_dt c + c_dt c -> In p (d_pts D Dx) ->
      fev D Dx Vp Val (ddt (at_time d U 1 n) t) p 0 = fev D Dx Vp Lap (at_time d U 0 n t) p 0;
    ew_bnd : forall n t p, (n < c_N c)%nat -> INR n * c_dt c <= t <= INR n * c_dt c + c_dt c -> In p (d_pts D Ds) ->
      fev D Ds Vp Val (at_time d U 0 n t) p 0 = 0;
    ew_facet : forall n t p k, (n < c_N c)%nat -> INR n * c_dt c <= t <= INR n * c_dt c + c_dt c -> In p (d_pts D DS) ->
      (k < d_gd D)%nat -> fev D DS Vp JumpGrad (at_time d U 0 n t) p k = 0;
    ew_jump : forall n j l, (1 <= n < c_N c)%nat -> (j < 2)%nat -> (l < d_dim D Vp)%nat ->
      upper d U j n l = lower d U j n l }.

  Lemma wave_no_stab U W n : exact_wave U -> (n < c_N c)%nat -> primal D d (c_lam c) U W n = 0.
  Proof.
    intros HU Hn. unfold primal. apply over_slab_zero; [exact Hdt|].
    - cbn [t_dt td d]. intros t Ht'. cbn zeta.
      unfold L2, bndw, facet, sp. cbn [ncomp].
      rewrite !integ_zero; [ring| | | |].
      + intros p k Hp Hk. apply (ew_facet U HU n t p k); assumption.
      + intros p k Hp Hk. replace k with 0%nat by lia. apply (ew_bnd U HU n t p); assumption.
      + intros p k Hp Hk. unfold res2. fold d. rewrite (ew_second U HU n t p) by assumption. ring.
      + intros p k Hp Hk. replace k with 0%nat by lia.
        pose proof (ew_first U HU n t p Hn Ht' Hp) as E. unfold fev in E |- *. unfold vsub.
        rewrite (Rsum_ext _ _ (fun l => ddt (at_time d U 0 n) t l * d_tab D Dx Vp Val l p 0
             - at_time d U 1 n t l * d_tab D Dx Vp Val l p 0)) by (intro; ring).
        rewrite Rsum_minus, E. ring.
  Qed.
  Lemma wave_no_jumps U W n : exact_wave U -> (1 <= n < c_N c)%nat ->
    jumps D d U W n = 0 /\ jumps_pre D d U W n = 0 /\ fwjumps D d U W n = 0.
  Proof.
    intros HU Hn.
    assert (J : forall j l, (j < 2)%nat -> (l < d_dim D Vp)%nat -> jumpv d U j n l = 0).
    { intros j l Hj Hl. unfold jumpv, vsub. rewrite (ew_jump U HU n j l) by assumption. ring. }
    unfold jumps, jumps_pre, fwjumps, energy, L2, H1.
    rewrite !sp_zero1 by (intros; apply J; auto; lia). repeat split; ring.
  Qed.
  (** the form on an exact wave with zero dual part *)
  Definition primal_only (U : field) : field := fun j i l => if Nat.ltb j 2 then U j i l else 0.
  Lemma po_p U j n t l : (j < 2)%nat -> at_time d (primal_only U) j n t l = at_time d U j n t l.
  Proof. intro H. unfold at_time, primal_only. destruct (Nat.ltb_spec j 2); [reflexivity|lia]. Qed.
  Lemma po_d U j n t l : (2 <= j)%nat -> at_time d (primal_only U) j n t l = 0.
  Proof.
    intro H. unfold at_time, primal_only. destruct (Nat.ltb_spec j 2); [lia|].
    apply Rsum_zero; intros; ring.
  Qed.
  Lemma po_wave U : exact_wave U -> exact_wave (primal_only U).
  Proof.
    intro HU. assert (E : forall j n t l, (j < 2)%nat -> ddt (at_time d (primal_only U) j n) t l = ddt (at_time d U j n) t l).
    { intros. unfold ddt. apply Derive_ext; intro. apply po_p; assumption. }
    constructor; intros.
    - rewrite (fev_ext _ _ _ _ _ (ddt (at_time d U 0 n) t)), (fev_ext _ _ _ _ (at_time d (primal_only U) 1 n t) (at_time d U 1 n t))
        by (intros; first [apply E | apply po_p]; lia). apply (ew_first U HU); assumption.
    - rewrite (fev_ext _ _ _ _ _ (ddt (at_time d U 1 n) t)), (fev_ext _ _ _ _ (at_time d (primal_only U) 0 n t) (at_time d U 0 n t))
        by (intros; first [apply E | apply po_p]; lia). apply (ew_second U HU); assumption.
    - rewrite (fev_ext _ _ _ _ (at_time d (primal_only U) 0 n t) (at_time d U 0 n t))
        by (intros; apply po_p; lia). apply (ew_bnd U HU n); assumption.
    - rewrite (fev_ext _ _ _ _ (at_time d (primal_only U) 0 n t) (at_time d U 0 n t))
        by (intros; apply po_p; lia). apply (ew_facet U HU n); assumption.
    - unfold upper, lower. rewrite !po_p by lia. apply (ew_jump U HU n); assumption.
  Qed.
  Lemma wave_zero2 X U n : wave D d X (primal_only U) n = 0.
  Proof.
    unfold d. rewrite (wave_slab P c D HB Hdt), (eval_fw P c D HB).
    apply Rsum_zero; intros j _. apply Rsum_zero; intros k _. cbn zeta.
    rewrite !sp_zero2 by (intros; reflexivity). ring.
  Qed.
  Lemma dual_zero2 Y U n : dual D d (c_lam c) Y (primal_only U) n = 0.
  Proof.
    unfold dual. apply over_slab_zero; [exact Hdt|].
    - intros t _. cbn zeta. unfold L2, H1, bndw. fold d.
      rewrite !sp_zero2 by (intros; apply po_d; lia). ring.
  Qed.
  Lemma wave_form precond U Y : exact_wave U ->
    eval D (st_form c g om precond) (primal_only U) Y
    = 1e-20 * L2 D Vp Vd (U 0%nat 0%nat) (Y 2%nat 0%nat)
      + sumn (c_N c) (fun n => wave D d U Y n + g_data g * data D d om U Y n)
      + (if c_wp c then g_jump g * init D d U Y else 0).
  Proof.
    intro HU. pose proof (po_wave U HU) as HU'. rewrite (st_form_spec P c g om D HB Hdt).
    rewrite Rplus_assoc. f_equal.
    assert (E : sumn (c_N c) (fun n => delta 0 n * (if c_wp c then g_jump g * init D d U Y else 0))
      = if c_wp c then g_jump g * init D d U Y else 0).
    { rewrite sumn_delta; [reflexivity|]. pose proof (bu_N _ _ HB). lia. }
    rewrite <- E, <- Rsum_plus. apply sumn_ext; intros n Hn. unfold slab_spec, extra_spec. fold d.
    rewrite wave_zero2, dual_zero2, wave_no_stab by assumption.
    assert (E1 : wave D d (primal_only U) Y n = wave D d U Y n).
    { unfold d. rewrite !(wave_slab P c D HB Hdt), !(eval_fw P c D HB). reflexivity. }
    assert (E2 : data D d om (primal_only U) Y n = data D d om U Y n).
    { unfold data. apply over_slab_ext; intro t. apply sp_ext; intros; [apply po_p; lia|reflexivity]. }
    assert (E3 : init D d (primal_only U) Y = init D d U Y).
    { unfold init, energy, L2, H1. apply f_equal2; [apply f_equal2|]; f_equal; apply sp_ext; intros; try reflexivity;
      apply po_p; lia. }
    rewrite E1, E2, E3. unfold delta.
    destruct (Nat.ltb_spec 0 n) as [h|h].
    - destruct (wave_no_jumps (primal_only U) Y n HU' ltac:(lia)) as [-> [-> ->]].
      assert (E4 : fwjumps D d Y (primal_only U) n = 0 /\ dualjumps D d Y (primal_only U) n = 0).
      { unfold fwjumps, dualjumps, L2. rewrite !sp_zero2 by (intros; apply po_d; lia). split; ring. }
      destruct E4 as [-> ->]. destruct (Nat.eqb_spec 0 n); [lia|].
      destruct precond, (c_jumps c); ring.
    - destruct (Nat.eqb_spec 0 n); [|lia]. destruct (c_wp c); ring.
  Qed.
End Cons.
