(** FormWf.v -- which forms fem.form accepts (C15, C38). *)
From Coq Require Import Reals List ZArith Lra Lia Bool String.
From Verif Require Import Base TimeModel TimeSpec TimeProofs FormModel FormSpec FormProofs
  SpaceTimeForms FormBlocks GuardProofs FormTime.
Import ListNotations.
Open Scope R_scope.

(** the mass matrices in time have no zero entry *)
Lemma mass_q_nz q qs e : get_elmat_time q qs = Ok e ->
  forall k j, (k <= Z.to_nat q)%nat -> (j <= Z.to_nat q)%nat -> mget (M_time_q_q e) k j <> 0.
Proof.
  intros H k j Hk Hj. destruct (get_elmat_inv _ _ _ H) as [phis [chis [Hp [Hc He]]]].
  pose proof (basis_sym_dom _ _ Hp) as Dq.
  subst e. unfold elmat_of; cbn [M_time_q_q]. rewrite mget_fill by lia. clear H Hc.
  destruct Dq as [->|[->|[->| ->]]];
  cbv [basis_sym] in Hp; injection Hp; intros <-; clear Hp;
  cbv [Z.to_nat Pos.to_nat Pos.iter_op Init.Nat.add] in Hk, Hj;
  destruct k as [|[|[|[|k]]]]; try lia; destruct j as [|[|[|[|j]]]]; try lia; clear;
  unfold pint; cbn;
  unfold Q2R; cbn [QArith_base.Qnum QArith_base.Qden]; lra.
Qed.
Lemma mass_qs_nz q qs e : get_elmat_time q qs = Ok e ->
  forall k j, (k <= Z.to_nat qs)%nat -> (j <= Z.to_nat qs)%nat -> mget (M_time_qstar_qstar e) k j <> 0.
Proof.
  intros H k j Hk Hj. destruct (get_elmat_inv _ _ _ H) as [phis [chis [Hp [Hc He]]]].
  pose proof (basis_sym_dom _ _ Hc) as Dq.
  subst e. unfold elmat_of; cbn [M_time_qstar_qstar]. rewrite mget_fill by lia. clear H Hp.
  destruct Dq as [->|[->|[->| ->]]];
  cbv [basis_sym] in Hc; injection Hc; intros <-; clear Hc;
  cbv [Z.to_nat Pos.to_nat Pos.iter_op Init.Nat.add] in Hk, Hj;
  destruct k as [|[|[|[|k]]]]; try lia; destruct j as [|[|[|[|j]]]]; try lia; clear;
  unfold pint; cbn;
  unfold Q2R; cbn [QArith_base.Qnum QArith_base.Qden]; lra.
Qed.

Definition domF (f : bform) : bool := forallb has_domain f.
Lemma dom_app f h : domF (f ++ h) = domF f && domF h.
Proof. apply forallb_app. Qed.
Lemma dom_dx f : (forall t, In t f -> b_m t = Dx) -> domF f = true.
Proof. intro H. apply forallb_forall; intros t Ht. unfold has_domain. rewrite (H t Ht). reflexivity. Qed.
Ltac in_dx := let H := fresh in intros ? H; cbn [In app] in H; decompose [or] H; clear H; subst; try contradiction; reflexivity.
Lemma dom_ds k w o1 a1 o2 a2 : k <> 0 -> (forall lam, w = WLamH lam -> lam <> 0) ->
  forall m, has_domain (plus_ k w m o1 a1 o2 a2) = true /\ has_domain (minus_ k w m o1 a1 o2 a2) = true.
Proof.
  intros Hk Hw m. unfold has_domain, plus_, minus_, bneg; cbn [b_m b_coef b_wt].
  assert (- k <> 0) by lra.
  destruct m; split; try reflexivity;
  (destruct (Req_EM_T k 0); [lra|]); (destruct (Req_EM_T (- k) 0); [lra|]); cbn [andb];
  destruct w as [| |  |lam|]; try reflexivity; destruct (Req_EM_T lam 0) as [e|]; try reflexivity;
  destruct (Hw lam eq_refl e).
Qed.

Section Dom.
  Variables (P : params) (c : config) (g : gammas) (om : nat -> R).
  Hypothesis HB : built P c.
  Hypothesis Hdt : c_dt c <> 0.

  Lemma dom_guard (m k : R) w ms o1 a1 o2 a2 : k = c_dt c * m -> w = WOne ->
    domF (nitsche_guard m [minus_ k w ms o1 a1 o2 a2]) = true.
  Proof.
    intros -> ->. unfold nitsche_guard. destruct (Rlt_dec 1e-10 (Rabs m)) as [h|h]; [|reflexivity].
    cbn [domF forallb]. rewrite andb_true_r. apply dom_ds; [|discriminate].
    intro E. apply Rmult_integral in E. destruct E as [E|E]; [contradiction|].
    subst m. rewrite Rabs_R0 in h. unfold Q2R in h; cbn [QArith_base.Qnum QArith_base.Qden] in h. lra.
  Qed.
  Lemma dom_fw iq iqs : domF (st_fw c iq iqs) = true.
  Proof.
    apply forallb_loop2; intros j k Hj Hk. fold (domF). rewrite dom_app. apply andb_true_iff; split.
    - apply dom_dx. in_dx.
    - apply dom_guard; reflexivity.
  Qed.
  Lemma dom_adj iq iqs : domF (st_adj c iq iqs) = true.
  Proof.
    apply forallb_loop2; intros j k Hj Hk. fold (domF). rewrite dom_app. apply andb_true_iff; split.
    - apply dom_dx. in_dx.
    - apply dom_guard; reflexivity.
  Qed.
  Lemma dom_data iq : domF (st_data c g om iq) = true.
  Proof. apply forallb_loop2; intros j k Hj Hk. apply dom_dx. in_dx. Qed.

  Hypothesis Hk : (1 <= p_k P)%nat.
  Lemma lam_nz : c_lam c <> 0.
  Proof.
    rewrite (bu_lam _ _ HB). assert (0 < INR (p_k P)) by (apply lt_0_INR; lia).
    assert (0 < INR (p_k P) ^ 2) by (apply pow_lt; lra). lra.
  Qed.
  Lemma wl_nz : forall lam, WLamH (c_lam c) = WLamH lam -> lam <> 0.
  Proof. intros lam E. injection E; intros <-. apply lam_nz. Qed.

  Lemma dom_dual iqs : g_dual g <> 0 -> domF (st_dual c g iqs) = true.
  Proof.
    intro G. apply forallb_loop2; intros j k Hj Hk'. cbn [forallb].
    assert (E : g_dual g * c_dt c * mget (M_time_qstar_qstar (c_el c)) k j <> 0).
    { apply Rmult_integral_contrapositive_currified; [apply Rmult_integral_contrapositive_currified; assumption|].
      apply (mass_qs_nz _ _ _ (bu_el _ _ HB)); rewrite <- (bu_cqs _ _ HB); lia. }
    rewrite !andb_true_iff. splits; try reflexivity. apply dom_ds; [exact E|exact wl_nz].
  Qed.
  Lemma dom_primal iq : g_primal g <> 0 -> domF (st_primal c g iq) = true.
  Proof.
    intro G. apply forallb_loop2; intros j k Hj Hk'. cbn [forallb].
    assert (E : g_primal g * c_dt c * mget (M_time_q_q (c_el c)) k j <> 0).
    { apply Rmult_integral_contrapositive_currified; [apply Rmult_integral_contrapositive_currified; assumption|].
      apply (mass_q_nz _ _ _ (bu_el _ _ HB)); rewrite <- (bu_cq _ _ HB); lia. }
    rewrite !andb_true_iff. splits; try reflexivity; (apply dom_ds; [exact E|]); [exact wl_nz|discriminate].
  Qed.
  Lemma dom_dual_jump n cqs : domF (st_dual_jump c g n cqs) = true.
  Proof. unfold st_dual_jump. destruct (_ && _); [|reflexivity]. apply dom_dx. in_dx. Qed.
  Lemma dom_init n : domF (st_init c g n) = true.
  Proof. unfold st_init. destruct (_ && _); [|reflexivity]. apply dom_dx. in_dx. Qed.
  Lemma dom_fw_jump n cq cqs : domF (st_fw_jump c n cq cqs) = true.
  Proof. unfold st_fw_jump. destruct (_ && _); [|reflexivity]. apply dom_dx. in_dx. Qed.
  Lemma dom_jump b n cq : domF (st_jump c g b n cq) = true.
  Proof. unfold st_jump. destruct (Nat.ltb 0 n); [|reflexivity]. destruct b; apply dom_dx; in_dx. Qed.
  Lemma dom_st b : g_dual g <> 0 -> g_primal g <> 0 -> domF (st_form c g om b) = true.
  Proof.
    intros G1 G2. rewrite st_form_slabs. unfold domF. cbn [forallb]. apply andb_true_iff; split; [reflexivity|].
    apply forallb_forall; intros t Ht. apply in_flat_map in Ht; destruct Ht as [n [_ Ht]].
    assert (H : domF (st_slab c g om b n (cntn c n)) = true).
    { unfold st_slab. rewrite !dom_app, dom_fw, dom_data, dom_adj, dom_dual, dom_dual_jump, dom_primal, dom_init,
        dom_fw_jump, dom_jump by assumption. reflexivity. }
    unfold domF in H. rewrite forallb_forall in H. auto.
  Qed.
  Lemma sl_as_st : sl_fw c = st_fw c 0 0 /\ sl_data c g om = st_data c g om 0 /\ sl_adj c = st_adj c 0 0
    /\ sl_dual c g = st_dual c g 0 /\ sl_primal c g = st_primal c g 0.
  Proof. repeat split. Qed.
  Lemma dom_slab b : g_dual g <> 0 -> g_primal g <> 0 -> domF (slab_form c g om b) = true.
  Proof.
    intros G1 G2. unfold slab_form. destruct sl_as_st as [-> [-> [-> [-> ->]]]].
    rewrite !dom_app, dom_fw, dom_data, dom_adj, dom_dual, dom_primal by assumption.
    rewrite !andb_true_iff. splits; try reflexivity.
    - unfold sl_dual_jump. destruct (_ && _); [|reflexivity]. apply dom_dx. in_dx.
    - unfold sl_jump. destruct b; [|reflexivity]. destruct (c_jumps c); apply dom_dx; in_dx.
  Qed.
  Lemma reg_nz : is_nz reg = true.
  Proof.
    unfold is_nz. destruct (Req_EM_T reg 0) as [e|]; [|reflexivity]. exfalso. unfold reg, Q2R in e.
    cbn [QArith_base.Qnum QArith_base.Qden] in e. lra.
  Qed.

  (** fem.form accepts the forms *)
  Lemma st_accepted b : g_dual g <> 0 -> g_primal g <> 0 ->
    fem_form 4 (nc_full c) (st_form c g om b) = Ok (st_form c g om b).
  Proof.
    intros G1 G2. unfold fem_form. fold (domF (st_form c g om b)). rewrite dom_st, wf_st by (auto; apply (bu_N _ _ HB)).
    rewrite st_form_slabs. cbn [existsb]. unfold nonzero_t at 1; cbn [b_coef plus_].
    rewrite reg_nz. reflexivity.
  Qed.
  Lemma slab_accepted b : g_dual g <> 0 -> g_primal g <> 0 ->
    fem_form 4 (nc_pre c) (slab_form c g om b) = Ok (slab_form c g om b).
  Proof.
    intros G1 G2. unfold fem_form. fold (domF (slab_form c g om b)). rewrite dom_slab, wf_slab by auto.
    unfold slab_form at 1. cbn [app existsb]. unfold nonzero_t at 1; cbn [b_coef plus_].
    rewrite reg_nz. reflexivity.
  Qed.
  Lemma coup_accepted gj : fem_form 2 nc_coup (coup_form c gj) = Ok (coup_form c gj).
  Proof.
    unfold fem_form. rewrite (wf_coup c gj). change (forallb has_domain (coup_form c gj)) with true. cbv iota.
    unfold coup_form at 1. cbn [existsb]. change (nonzero_t (plus_ reg WOne Dx Val (at_ U1 0) Val (at_ W1 0))) with (is_nz reg).
    rewrite reg_nz. reflexivity.
  Qed.
  Lemma bnd_accepted gj : gj <> 0 -> fem_form 2 nc_bnd (bnd_form c gj) = Ok (bnd_form c gj).
  Proof.
    intro G. unfold fem_form. rewrite (wf_bnd c gj). change (forallb has_domain (bnd_form c gj)) with true. cbv iota. unfold bnd_form at 1.
    cbn [existsb]. unfold nonzero_t, is_nz, plus_; cbn [b_coef].
    destruct (Req_EM_T (gj * (1 / c_dt c)) 0) as [e|]; [|reflexivity].
    exfalso. apply Rmult_integral in e. destruct e as [e|e]; [contradiction|].
    unfold Rdiv in e. rewrite Rmult_1_l in e. exact (Rinv_neq_0_compat _ Hdt e).
  Qed.
End Dom.

(** * Forms fem.form rejects *)
Lemma dom_reject f t : In t f -> has_domain t = false -> domF f = false.
Proof.
  intros Ht Hf. destruct (domF f) eqn:E; [|reflexivity].
  unfold domF in E. rewrite forallb_forall in E. rewrite (E t Ht) in Hf. discriminate.
Qed.
Lemma in_loop2 {A} n m (f : nat -> nat -> list A) j k t :
  (j < n)%nat -> (k < m)%nat -> In t (f j k) -> In t (loop2 n m f).
Proof.
  intros Hj Hk Ht. unfold loop2. apply in_flat_map. exists j. split; [apply in_seq; lia|].
  apply in_flat_map. exists k. split; [apply in_seq; lia|exact Ht].
Qed.
Lemma reject_zero k w m o1 a1 o2 a2 : k = 0 -> m <> Dx ->
  has_domain (plus_ k w m o1 a1 o2 a2) = false /\ has_domain (minus_ k w m o1 a1 o2 a2) = false.
Proof.
  intros -> Hm. unfold has_domain, plus_, minus_, bneg; cbn [b_m b_coef b_wt]. rewrite Ropp_0.
  destruct (Req_EM_T 0 0) as [_|n0]; [|contradiction]. destruct m; [contradiction| |]; split; reflexivity.
Qed.
Section Reject.
  Variables (c : config) (g : gammas) (om : nat -> R).
  Hypothesis HN : (1 <= c_N c)%nat.
  Hypothesis HZ : g_dual g * c_dt c = 0 \/ g_primal g * c_dt c = 0.
  Lemma core_reject : exists t, (In t (st_dual c g 0) \/ In t (st_primal c g 0)) /\ has_domain t = false.
  Proof.
    destruct HZ as [H|H].
    - eexists. split; [left; apply (in_loop2 _ _ _ 0 0); [lia|lia|cbn [In]; do 3 right; left; reflexivity]|].
      apply reject_zero; [rewrite H; ring|discriminate].
    - eexists. split; [right; apply (in_loop2 _ _ _ 0 0); [lia|lia|cbn [In]; left; reflexivity]|].
      apply reject_zero; [rewrite H; ring|discriminate].
  Qed.
  Lemma st_rejected b : fem_form 4 (nc_full c) (st_form c g om b) = Err ValueError.
  Proof.
    unfold fem_form. fold (domF (st_form c g om b)). destruct core_reject as [t [Ht Hd]].
    rewrite (dom_reject _ t); [reflexivity| |exact Hd].
    rewrite st_form_slabs. right. apply in_flat_map. exists 0%nat. split; [apply in_seq; lia|].
    unfold st_slab, cntn. cbn [k_iq k_iqs k_cq k_cqs Nat.mul z Z.of_nat].
    rewrite !in_app_iff. tauto.
  Qed.
  Lemma slab_rejected b : fem_form 4 (nc_pre c) (slab_form c g om b) = Err ValueError.
  Proof.
    unfold fem_form. fold (domF (slab_form c g om b)). destruct core_reject as [t [Ht Hd]].
    rewrite (dom_reject _ t); [reflexivity| |exact Hd].
    unfold slab_form. destruct (sl_as_st c g om) as [-> [-> [-> [-> ->]]]].
    rewrite !in_app_iff. tauto.
  Qed.
  Lemma bnd_rejected : fem_form 2 nc_bnd (bnd_form c 0) = Err RuntimeError.
  Proof.
    unfold fem_form. rewrite (wf_bnd c 0). change (forallb has_domain (bnd_form c 0)) with true. cbv iota. unfold bnd_form at 1.
    cbn [existsb]. unfold nonzero_t, is_nz, plus_; cbn [b_coef]. rewrite !Rmult_0_l.
    destruct (Req_EM_T 0 0); [reflexivity|lra].
  Qed.
End Reject.
