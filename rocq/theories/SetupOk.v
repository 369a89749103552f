(** SetupOk.v -- when the set-up calls succeed, and what they leave behind. *)
From Coq Require Import Reals List ZArith Lra Lia Bool String.
From Verif Require Import Base TimeModel FormModel FormSpec FormProofs SpaceTimeForms FormBlocks FormTime FormWf
  SpaceTimeModel SlabOps ApplyProofs MarchProofs MarchLoops MarchSum ErrorsModel Lifecycle LifeProofs OpsProofs.
Import ListNotations.
Open Scope R_scope.
Open Scope monad_scope.

(** accepted parameters for which the forms compile: T > 0, all weights present,
    non-zero dual and primal stabilisation *)
Record good (P : params) (E : env) (g : gammas) : Prop := {
  gd_c : construct P = Ok (e_c E);
  gd_T : 0 < p_T P;
  gd_k : (1 <= p_k P)%nat;
  gd_g : get_gammas (p_stab P) = Ok g;
  gd_dual : g_dual g <> 0;
  gd_primal : g_primal g <> 0 }.

Section Good.
  Variables (P0 : params) (E : env) (g : gammas).
  Hypothesis HG : good P0 E g.
  Notation c := (e_c E).
  Notation D := (e_D E).

  Lemma g_built : built P0 c.
  Proof. apply construct_inv, (gd_c _ _ _ HG). Qed.
  Lemma g_dt : 0 < c_dt c.
  Proof.
    rewrite (bu_dt _ _ g_built). apply Rdiv_lt_0_compat; [apply (gd_T _ _ _ HG)|]. apply lt_0_INR.
    pose proof (bu_N _ _ g_built). rewrite (bu_NP _ _ g_built) in H. lia.
  Qed.
  Lemma g_dt_nz : c_dt c <> 0.
  Proof. apply Rgt_not_eq, g_dt. Qed.
  Lemma g_stab : get_gammas (c_stab c) = Ok g.
  Proof. rewrite (bu_stab _ _ g_built). apply (gd_g _ _ _ HG). Qed.
  Lemma g_look : lookup (c_stab c) "primal-jump" = Ok (g_jump g).
  Proof. apply gammas_jump, g_stab. Qed.
  Lemma g_lookd : exists gd, lookup (c_stab c) "data" = Ok gd.
  Proof. pose proof g_stab as H. unfold get_gammas, rbind in H. destruct (lookup (c_stab c) "data"); [eexists; reflexivity|discriminate]. Qed.
  Lemma dt_not_zero : is_zero (c_dt c) = false.
  Proof. unfold is_zero. destruct (Req_EM_T (c_dt c) 0); [|reflexivity]. exfalso. exact (g_dt_nz e). Qed.

  Definition slab_set (b : bool) (om : nat -> R) (s : state) : state :=
    let f := slab_form c g om b in let A := assemble D (e_Lp E) f in
    if b then
      let s1 := w_slm (Some A) (w_slb (Some f) s) in if c_wp c then w_fim (Some A) (w_fib (Some f) s1) else s1
    else
      let s1 := w_vs2 (Some vzero) (w_vs1 (Some vzero) (w_njm (Some A) (w_njb (Some f) s))) in
      if c_wp c then s1 else w_fim (Some A) (w_fib (Some f) s1).
  Lemma slab_run b s : s_fes s = true -> setup_slab_matrix E b s = (Ok tt, slab_set b (s_om s) s).
  Proof.
    intro Hf. unfold setup_slab_matrix. rewrite bind_fes_ok by exact Hf.
    rewrite (bind_lift_ok _ _ g) by exact g_stab. rewrite bind_get.
    rewrite (bind_lift_ok _ _ (slab_form c g (s_om s) b)) by
      (apply (slab_accepted P0 c g (s_om s) g_built g_dt_nz (gd_k _ _ _ HG) b (gd_dual _ _ _ HG) (gd_primal _ _ _ HG))).
    cbv zeta. unfold slab_set. destruct b; rewrite bind_modify; destruct (c_wp c); reflexivity.
  Qed.
  Definition coup_set (s : state) : state :=
    w_vc2 (Some vzero) (w_vc1 (Some vzero) (w_com (Some (assemble D (e_Lc E) (coup_form c (g_jump g)))) s)).
  Lemma coup_run s : s_fes s = true -> setup_coupling E s = (Ok tt, coup_set s).
  Proof.
    intro Hf. unfold setup_coupling. rewrite bind_fes_ok by exact Hf. rewrite (bind_lift_ok _ _ (g_jump g)) by exact g_look.
    rewrite dt_not_zero. rewrite bind_err_if_ok by reflexivity.
    rewrite (bind_lift_ok _ _ (coup_form c (g_jump g))) by apply coup_accepted. reflexivity.
  Qed.
  Lemma rhs_run s : s_fes s = true -> exists f, setup_rhs E s
    = (Ok tt, w_rhs (Some (s_next s)) (w_lfi (Some f) (w_next (S (s_next s)) (put (s_next s) (assemble_vec D (e_Lf E) f) s)))).
  Proof.
    intro Hf. unfold setup_rhs. rewrite bind_fes_ok by exact Hf. rewrite (bind_lift_ok _ _ (g_jump g)) by exact g_look.
    destruct g_lookd as [gd Hgd]. rewrite (bind_lift_ok _ _ gd) by exact Hgd.
    rewrite dt_not_zero, andb_false_r. rewrite bind_err_if_ok by reflexivity. rewrite bind_get.
    unfold fem_lform. rewrite wf_rhs by (apply (bu_N _ _ g_built)).
    erewrite bind_lift_ok by reflexivity. eexists. reflexivity.
  Qed.
  Definition mass_set (s : state) : state :=
    w_vbo (Some vzero) (w_vbi (Some vzero) (w_mam (Some (assemble D (e_Lb E) (bnd_form c (g_jump g)))) s)).
  Lemma mass_run s : g_jump g <> 0 -> s_fes s = true -> setup_scaled_mass E s = (Ok tt, mass_set s).
  Proof.
    intros Hj Hf. unfold setup_scaled_mass. rewrite bind_fes_ok by exact Hf. rewrite (bind_lift_ok _ _ (g_jump g)) by exact g_look.
    rewrite dt_not_zero. rewrite bind_err_if_ok by reflexivity.
    rewrite (bind_lift_ok _ _ (bnd_form c (g_jump g))) by (apply bnd_accepted; [exact g_dt_nz|exact Hj]). reflexivity.
  Qed.
  Lemma mass_zero s : g_jump g = 0 -> s_fes s = true -> setup_scaled_mass E s = (Err RuntimeError, s).
  Proof.
    intros Hj Hf. unfold setup_scaled_mass. rewrite bind_fes_ok by exact Hf. rewrite (bind_lift_ok _ _ (g_jump g)) by exact g_look.
    rewrite dt_not_zero. rewrite bind_err_if_ok by reflexivity. rewrite Hj, bnd_rejected. reflexivity.
  Qed.

  (** prepare_precondition_gmres *)
  Definition prepared (s : state) : Prop :=
    s_fes s = true /\ s_slm s <> None /\ s_com s <> None /\ s_rhs s <> None /\ s_mam s <> None
    /\ s_fim s <> None /\ (c_wp c = false -> s_njm s <> None).
  Lemma prepare_run om s : g_jump g <> 0 -> wfst E om s -> s_fes s = true ->
    exists s', prepare_precondition_gmres E s = (Ok tt, s') /\ prepared s'
      /\ (s_slm s = None -> s_brp s' <> None) /\ (s_slm s <> None -> s_brp s' = s_brp s)
      /\ (c_wp c = true -> s_njm s' = s_njm s).
  Proof.
    intros Hj HW Hf. unfold prepare_precondition_gmres. rewrite bind_get.
    (* slab matrix *)
    set (s1 := if is_none (s_slm s) then w_brp (Some vzero) (slab_set true (s_om s) s) else s).
    assert (E1 : (if is_none (s_slm s) then setup_slab_matrix E true ;; modify (w_brp (Some vzero)) else ret tt) s = (Ok tt, s1)).
    { unfold s1. destruct (is_none (s_slm s)); [|reflexivity]. rewrite (bind_ok _ _ _ _ _ (slab_run true s Hf)). reflexivity. }
    rewrite (bind_ok _ _ _ _ _ E1), bind_get.
    assert (F1 : s_fes s1 = true /\ s_slm s1 <> None /\ (c_wp c = true -> s_fim s1 <> None) /\ (c_wp c = false -> s_fim s1 = s_njm s1)
      /\ s_com s1 = s_com s /\ s_rhs s1 = s_rhs s /\ s_mam s1 = s_mam s /\ s_njm s1 = s_njm s
      /\ (s_slm s = None -> s_brp s1 <> None) /\ (s_slm s <> None -> s_brp s1 = s_brp s)).
    { unfold s1. destruct HW. destruct i_fi as [Hfi _]. destruct (s_slm s) as [A|] eqn:Es; cbn [is_none].
      - repeat split; try assumption; try reflexivity; try discriminate; try congruence.
        + intro Hw. rewrite Hw in Hfi. congruence.
        + intro Hw. rewrite Hw in Hfi. exact Hfi.
      - unfold slab_set. cbv zeta. destruct (c_wp c) eqn:Ew; cbn; repeat split; try assumption; try reflexivity; try discriminate; try congruence. }
    clearbody s1. clear E1. destruct F1 as [Hf1 [Hs1 [Hw1 [Hn1 [Hc1 [Hr1 [Hm1 [Hj1 [Hb1 Hb1']]]]]]]]].
    (* first slab *)
    set (s2 := if is_none (s_fim s1) && negb (c_wp c) then slab_set false (s_om s1) s1 else s1).
    assert (E2 : (if is_none (s_fim s1) && negb (c_wp c) then setup_slab_matrix E false else ret tt) s1 = (Ok tt, s2)).
    { unfold s2. destruct (is_none (s_fim s1) && negb (c_wp c)); [|reflexivity]. apply (slab_run false s1 Hf1). }
    rewrite (bind_ok _ _ _ _ _ E2), bind_get.
    assert (F2 : s_fes s2 = true /\ s_slm s2 <> None /\ s_fim s2 <> None /\ (c_wp c = false -> s_njm s2 <> None)
      /\ s_com s2 = s_com s /\ s_rhs s2 = s_rhs s /\ s_mam s2 = s_mam s /\ (c_wp c = true -> s_njm s2 = s_njm s) /\ s_brp s2 = s_brp s1).
    { unfold s2, slab_set. cbv zeta. destruct (c_wp c) eqn:Ew; cbn [negb].
      - rewrite andb_false_r. repeat split; try assumption; try congruence. apply Hw1; reflexivity.
      - rewrite andb_true_r. specialize (Hn1 eq_refl). destruct (s_fim s1) as [A|] eqn:Ef; cbn [is_none].
        + repeat split; try assumption; try congruence.
        + cbn. repeat split; try assumption; try congruence. }
    clearbody s2. clear E2 Hf1 Hs1 Hw1 Hn1 Hc1 Hr1 Hm1 Hj1. destruct F2 as [Hf2 [Hs2 [Hi2 [Hn2 [Hc2 [Hr2 [Hm2 [Hj2 Hb2]]]]]]]].
    (* coupling *)
    set (s3 := if is_none (s_com s2) then coup_set s2 else s2).
    assert (E3 : (if is_none (s_com s2) then setup_coupling E else ret tt) s2 = (Ok tt, s3)).
    { unfold s3. destruct (is_none (s_com s2)); [|reflexivity]. apply (coup_run s2 Hf2). }
    rewrite (bind_ok _ _ _ _ _ E3), bind_get.
    assert (F3 : s_fes s3 = true /\ s_slm s3 <> None /\ s_fim s3 <> None /\ (c_wp c = false -> s_njm s3 <> None)
      /\ s_com s3 <> None /\ s_rhs s3 = s_rhs s /\ s_mam s3 = s_mam s /\ (c_wp c = true -> s_njm s3 = s_njm s) /\ s_brp s3 = s_brp s1).
    { unfold s3, coup_set. destruct (s_com s2) as [A|] eqn:Ec; cbn; repeat split; try assumption; try congruence. }
    clearbody s3. clear E3 Hf2 Hs2 Hi2 Hn2 Hc2 Hr2 Hm2 Hj2 Hb2. destruct F3 as [Hf3 [Hs3 [Hi3 [Hn3 [Hc3 [Hr3 [Hm3 [Hj3 Hb3]]]]]]]].
    (* right-hand side *)
    destruct (rhs_run s3 Hf3) as [f Er].
    set (s4 := if is_none (s_rhs s3) then snd (setup_rhs E s3) else s3).
    assert (E4 : (if is_none (s_rhs s3) then setup_rhs E else ret tt) s3 = (Ok tt, s4)).
    { unfold s4. destruct (is_none (s_rhs s3)); [|reflexivity]. rewrite Er. reflexivity. }
    rewrite (bind_ok _ _ _ _ _ E4), bind_get.
    assert (F4 : s_fes s4 = true /\ s_slm s4 <> None /\ s_fim s4 <> None /\ (c_wp c = false -> s_njm s4 <> None)
      /\ s_com s4 <> None /\ s_rhs s4 <> None /\ (c_wp c = true -> s_njm s4 = s_njm s) /\ s_brp s4 = s_brp s1).
    { unfold s4. rewrite Er. cbn [snd]. destruct (s_rhs s3) as [A|] eqn:Ec; cbn; repeat split; try assumption; try congruence. }
    clearbody s4. clear E4 Er Hf3 Hs3 Hi3 Hn3 Hc3 Hr3 Hm3 Hj3 Hb3. destruct F4 as [Hf4 [Hs4 [Hi4 [Hn4 [Hc4 [Hr4 [Hj4 Hb4]]]]]]].
    (* mass *)
    set (s5 := if is_none (s_mam s4) then mass_set s4 else s4).
    assert (E5 : (if is_none (s_mam s4) then setup_scaled_mass E else ret tt) s4 = (Ok tt, s5)).
    { unfold s5. destruct (is_none (s_mam s4)); [|reflexivity]. apply (mass_run s4 Hj Hf4). }
    exists s5. split; [exact E5|]. rewrite <- Hb4 in Hb1, Hb1'. unfold prepared, s5, mass_set.
    destruct (s_mam s4) as [A|] eqn:Em; cbn; repeat split; try assumption; try congruence.
  Qed.
End Good.
