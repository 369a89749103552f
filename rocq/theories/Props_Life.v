(** Props_Life.v -- properties C30 to C39 and C62: a SpaceTime object under
    arbitrary sequences of public calls, successful or failing.

    [after E ks s] : the state after the calls ks; [returns E k s] : what the call
    k answers; [init_state fitted ind heap next] : a new object. *)
From Coq Require Import Reals List ZArith Lra Lia Bool String.
From Verif Require Import Base TimeModel TimeSpec QuadProofs FormModel FormSpec FormProofs SpaceTimeForms FormBlocks FormTime FormC12
  FormSym FormCons FormWf FormExample Props_Forms SpaceTimeModel SlabOps ApplyProofs MarchProofs MarchLoops MarchSum MarchUnique
  ErrorsModel Lifecycle LifeProofs OpsProofs SetupOk LinAlg OpsExample Props_Ops LifeFrames.
Import ListNotations.
Open Scope R_scope.
Open Scope monad_scope.

Lemma run_returns E k m s : step E k = done m -> forall r s', m s = (r, s') ->
  returns E k s = (match r with Ok _ => Ok Done | Err e => Err e end) /\ snd (step E k s) = s'.
Proof. intros H r s' Hm. unfold returns. rewrite H. unfold done, answers, bind. rewrite Hm. destruct r; split; reflexivity. Qed.
Lemma after_two E k1 k2 ks s : after E ([k1; k2] ++ ks) s = after E ks (snd (step E k2 (snd (step E k1 s)))).
Proof. reflexivity. Qed.

(** * C30 *)
Section Prepared.
  Variables (P : params) (E : env) (g : gammas).
  Hypothesis HG : good P E g.
  Hypothesis Hjump : g_jump g <> 0.
  Variables (fitted : bool) (ind : nat -> R) (heap : nat -> vec) (next : nat).
  Notation s0 := (init_state fitted ind heap next).
  Notation om := (s_om s0).
  Lemma r_after ks : reached E om (after E ks s0).
  Proof. exists fitted, ind, heap, next, ks. split; reflexivity. Qed.
  Lemma prepared_after ks0 : s_fes (after E ks0 s0) = true -> exists s1,
    returns E Prepare (after E ks0 s0) = Ok Done /\
    after E (ks0 ++ [Prepare]) s0 = s1 /\ wfst E om s1 /\ prepared E s1 /\
    (s_slm (after E ks0 s0) = None -> s_brp s1 <> None) /\
    (c_wp (e_c E) = true -> s_njm s1 = s_njm (after E ks0 s0)).
  Proof.
    intro Hf. set (s := after E ks0 s0) in *.
    assert (HW : wfst E om s) by apply (reached_wf _ _ _ (r_after _)).
    destruct (prepare_run P E g HG om s Hjump HW Hf) as [s' [Hr [Hp [Hb [_ Hw]]]]].
    destruct (run_returns E Prepare _ s eq_refl _ _ Hr) as [R1 R2].
    exists s'. split; [exact R1|].
    assert (Ea : after E (ks0 ++ [Prepare]) s0 = s').
    { rewrite <- R2. unfold s. rewrite !after_app. reflexivity. }
    split; [exact Ea|]. split; [rewrite <- Ea; apply (reached_wf _ _ _ (r_after _))|]. split; [exact Hp|].
    split; [exact Hb|exact Hw].
  Qed.
End Prepared.

Theorem C30_any_history : forall P E g fitted ind heap next ks0 ks vi vo,
  good P E g -> env_ok E -> g_jump g <> 0 -> p_jumps P = false -> p_wp P = false -> vi <> vo ->
  let s0 := init_state fitted ind heap next in
  s_fes (after E ks0 s0) = true ->
  let s := after E (ks0 ++ [Prepare] ++ ks) s0 in
  returns E Prepare (after E ks0 s0) = Ok Done /\
  exists s', apply_spacetime_matrix E vi vo s = (Ok tt, s') /\
  (forall I, (I < dimF E)%nat ->
     s_heap s' vo I = mult (dimF E) (matF E g (s_om s0) false) (s_heap s vi) I
       + 1e-20 * tiny_apply P (e_D E) (fldF E (s_heap s vi)) (basF E I))
  /\ forall k, k <> vo -> s_heap s' k = s_heap s k.
Proof.
  intros P E g fitted ind heap next ks0 ks vi vo HG HE Hj Hpj Hpw Hv s0 Hfes s.
  destruct (prepared_after P E g HG Hj fitted ind heap next ks0 Hfes) as [s1 [R1 [E1 [W1 [Hp _]]]]].
  fold s0 in R1, E1, W1. split; [exact R1|].
  assert (Es : s = after E ks s1) by (unfold s; rewrite !app_assoc, after_app, E1; reflexivity).
  pose proof (after_later E (s_om s0) ks s1 W1) as L. rewrite <- Es in L.
  destruct Hp as [Hf [_ [Hc [_ [_ [_ Hn]]]]]].
  assert (Hwp : c_wp (e_c E) = false) by (rewrite (bu_wp _ _ (construct_inv _ _ (gd_c _ _ _ HG))); exact Hpw).
  assert (HA : can_apply E s).
  { split; [apply (l_fe _ _ L), Hf|]. split.
    - specialize (Hn Hwp). destruct (s_njm s1) as [A|] eqn:EA; [|congruence]. rewrite (l_njm _ _ L A EA). discriminate.
    - intros _. destruct (s_com s1) as [A|] eqn:EA; [|congruence]. rewrite (l_com _ _ L A EA). discriminate. }
  assert (HR : reached E (s_om s0) s) by apply r_after.
  destruct (proj2 (C20_when E (s_om s0) s vi vo HE HR Hv) HA) as [s' Hs].
  exists s'. split; [exact Hs|].
  destruct (C20_matrix_free_product P E (s_om s0) s s' vi vo (gd_c _ _ _ HG) (gd_T _ _ _ HG) HE Hpj Hpw HR Hv Hs) as [g' [Hg' H]].
  assert (g' = g) by (pose proof (gd_g _ _ _ HG); congruence). subst g'. exact H.
Qed.
Example good_nonvacuous : exists c, construct (exP 1 0 4 false false) = Ok c /\
  good (exP 1 0 4 false false) (exE exI c) exG /\ env_ok (exE exI c) /\ g_jump exG <> 0.
Proof.
  destruct (exP_ok 1 0 4 false false) as [c HC]; try lia. exists c. split; [exact HC|].
  split; [apply (exE_good exI _ _ _ _ _ _ HC)|]. split; [apply exE_ok, (bu_N _ _ (construct_inv _ _ HC))|cbn; lra].
Qed.

(** * C31 *)
Definition solver_error (S0 S1 : solver) (e : exn) : Prop := exists r w, S0 r w = Err e \/ S1 r w = Err e.
Definition works_or_solver_fails (S0 S1 : solver) (r : res answer) : Prop :=
  match r with Ok _ => True | Err e => solver_error S0 S1 e end.
Lemma improve_works E om s S0 S1 b x : env_ok E -> wfst E om s -> c_jumps (e_c E) = false -> can_improve S0 S1 s ->
  works_or_solver_fails S0 S1 (returns E (Improved b x) s).
Proof.
  intros HE HW Hj [[H1 [H2 [H3 H4]]] [H5 H6]].
  destruct (s_fim s) as [A0|] eqn:E0; [|congruence]. destruct (s_slm s) as [A1|] eqn:E1; [|congruence].
  destruct (wf_slab_mats E om s A0 A1 HW E0 E1) as [_ [g [Hg _]]].
  pose proof (improved_outcome E HE om S0 S1 (fun _ _ _ => True) s b x g A0 A1 HW E0 E1 H3 H4 Hj H5 H6 Hg (fun _ _ _ _ _ => Coq.Init.Logic.I)) as [_ H].
  unfold returns, step, done, answers, bind. destruct (pre_time_marching_improved E b x s) as [[[]|e] s']; cbn [fst] in *; [exact Coq.Init.Logic.I|exact H].
Qed.
(** What holds: the improved preconditioner works in any later history, if no
    slab matrix had been set up when Prepare was called. *)
Theorem C31_partial : forall P E g fitted ind heap next ks0 ks S0 S1 b x,
  good P E g -> env_ok E -> g_jump g <> 0 -> p_jumps P = false ->
  let s0 := init_state fitted ind heap next in
  s_fes (after E ks0 s0) = true -> s_slm (after E ks0 s0) = None ->
  let s := after E (ks0 ++ [Prepare] ++ ks) s0 in
  s_sfi s = Some S0 -> s_ssl s = Some S1 ->
  works_or_solver_fails S0 S1 (returns E (Improved b x) s).
Proof.
  intros P E g fitted ind heap next ks0 ks S0 S1 b x HG HE Hj Hpj s0 Hfes Hn s HS0 HS1.
  destruct (prepared_after P E g HG Hj fitted ind heap next ks0 Hfes) as [s1 [_ [E1 [W1 [Hp [Hb _]]]]]].
  fold s0 in E1, W1, Hb.
  assert (Es : s = after E ks s1) by (unfold s; rewrite !app_assoc, after_app, E1; reflexivity).
  pose proof (after_later E (s_om s0) ks s1 W1) as L. pose proof (after_wf E (s_om s0) ks s1 W1) as W. rewrite <- Es in L, W.
  destruct Hp as [Hf [Hsl [_ [_ [Hma [Hfi _]]]]]].
  pose proof (construct_inv _ _ (gd_c _ _ _ HG)) as HB.
  apply (improve_works E (s_om s0) s S0 S1 b x HE W); [rewrite (bu_jumps _ _ HB); exact Hpj|].
  split; [split; [|split; [|split; assumption]]|split].
  - rewrite (proj1 (i_fi _ _ _ W)). pose proof (proj1 (i_fi _ _ _ W1)) as F1. destruct (c_wp (e_c E)).
    + destruct (s_slm s1) as [A|] eqn:EA; [|congruence]. rewrite (l_slm _ _ L A EA). discriminate.
    + rewrite F1 in Hfi. destruct (s_njm s1) as [A|] eqn:EA; [|congruence]. rewrite (l_njm _ _ L A EA). discriminate.
  - destruct (s_slm s1) as [A|] eqn:EA; [|congruence]. rewrite (l_slm _ _ L A EA). discriminate.
  - destruct (s_mam s1) as [A|] eqn:EA; [|congruence]. rewrite (l_mam _ _ L A EA). discriminate.
  - apply (l_brp _ _ L), Hb, Hn.
Qed.
(** C31 as stated is false for every object: once the slab matrix has been
    obtained or set up before Prepare, no later sequence of calls -- including
    Prepare and the setting of solvers -- makes the preconditioner work. *)
Definition slab_getter (k : call) : bool :=
  match k with Get_slab_matrix | Get_slab_bfi | Setup_slab true => true | _ => false end.
Lemma getter_stuck P E g k s : good P E g -> slab_getter k = true -> s_fes s = true -> s_slm s = None -> s_slb s = None ->
  s_brp s = None -> stuck (snd (step E k s)) /\ exists a, returns E k s = Ok a.
Proof.
  intros HG Hk Hf Hm Hb Hr.
  assert (T : forall om, s_brp (slab_set E g true om s) = None /\ s_slm (slab_set E g true om s) <> None /\ s_fes (slab_set E g true om s) = true).
  { intro om. unfold slab_set. destruct (c_wp (e_c E)); repeat split; try assumption; discriminate. }
  assert (T2 : forall om' s', s_brp (slab_set E g false om' s') = s_brp s' /\ s_slm (slab_set E g false om' s') = s_slm s').
  { intros om' s'. unfold slab_set. destruct (c_wp (e_c E)); split; reflexivity. }
  pose proof (slab_run P E g HG true s Hf) as R1. destruct (T (s_om s)) as [T3 [T4 T5]].
  pose proof (slab_run P E g HG false _ T5) as R2.
  assert (R : (setup_slab_matrix E true ;; setup_slab_matrix E false) s
    = (Ok tt, slab_set E g false (s_om (slab_set E g true (s_om s) s)) (slab_set E g true (s_om s) s))).
  { rewrite (bind_ok _ _ _ _ _ R1). exact R2. }
  assert (HS : forall om', stuck (slab_set E g false om' (slab_set E g true (s_om s) s))).
  { intro om'. destruct (T2 om' (slab_set E g true (s_om s) s)) as [U1 U2]. split; congruence. }
  destruct k as [ | | | | | | | | | b | | | | | | | | | | | | | | | | | | | | | | ]; try discriminate Hk.
  - destruct b; [|discriminate Hk]. destruct (run_returns E (Setup_slab true) _ s eq_refl _ _ R1) as [Q1 Q2].
    rewrite Q1, Q2. split; [split; assumption|eexists; reflexivity].
  - assert (Z : get_slab_bfi E s = (Ok (s_slb (snd ((setup_slab_matrix E true ;; setup_slab_matrix E false) s))),
      snd ((setup_slab_matrix E true ;; setup_slab_matrix E false) s))).
    { unfold get_slab_bfi. rewrite bind_get, Hb, (bind_ok _ _ _ _ _ R), R. reflexivity. }
    unfold returns, step, answers, bind. rewrite Z, R. cbn [fst snd]. split; [apply HS|eexists; reflexivity].
  - assert (Z : get_slab_matrix E s = (Ok (s_slm (snd ((setup_slab_matrix E true ;; setup_slab_matrix E false) s))),
      snd ((setup_slab_matrix E true ;; setup_slab_matrix E false) s))).
    { unfold get_slab_matrix. rewrite bind_get, Hm, (bind_ok _ _ _ _ _ R), R. reflexivity. }
    unfold returns, step, answers, bind. rewrite Z, R. cbn [fst snd]. split; [apply HS|eexists; reflexivity].
Qed.
Theorem C31_getter_first_refuted : forall P E g fitted ind heap next k ks b x,
  good P E g -> p_jumps P = false -> slab_getter k = true ->
  let s0 := init_state fitted ind heap next in
  (exists a, returns E k (after E [Setup_fes] s0) = Ok a) /\
  returns E (Improved b x) (after E ([Setup_fes; k] ++ ks) s0) = Err AttributeError.
Proof.
  intros P E g fitted ind heap next k ks b x HG Hpj Hk s0.
  destruct (getter_stuck P E g k (after E [Setup_fes] s0) HG Hk eq_refl eq_refl eq_refl eq_refl) as [HS Ha].
  split; [exact Ha|]. rewrite after_two.
  pose proof (stuck_after E ks _ HS) as [_ H2].
  change (snd (step E k (after E [Setup_fes] s0))) with (snd (step E k (snd (step E Setup_fes s0)))) in H2.
  set (s := after E ks (snd (step E k (snd (step E Setup_fes s0))))) in *.
  pose proof (construct_inv _ _ (gd_c _ _ _ HG)) as HB.
  unfold returns, step, done, answers, pre_time_marching_improved.
  unfold bind at 1. rewrite bind_err_if_ok by (rewrite (bu_jumps _ _ HB); exact Hpj).
  rewrite (bind_lift_ok _ _ (g_jump g)) by (apply (g_look P E g HG)). rewrite bind_get, H2. reflexivity.
Qed.

(** * C32 *)
Theorem C32_wellposed_order : forall P E g fitted ind heap next ks S0 S1 vi vo b x,
  good P E g -> env_ok E -> g_jump g <> 0 -> p_jumps P = false -> p_wp P = true -> vi <> vo ->
  let s0 := init_state fitted ind heap next in
  let s := after E ([Setup_fes; Setup_slab false; Prepare] ++ ks) s0 in
  returns E (Apply vi vo) s = Ok Done /\
  (s_sfi s = Some S0 -> s_ssl s = Some S1 -> works_or_solver_fails S0 S1 (returns E (Improved b x) s)).
Proof.
  intros P E g fitted ind heap next ks S0 S1 vi vo b x HG HE Hj Hpj Hpw Hv s0 s.
  set (ks0 := [Setup_fes; Setup_slab false]).
  assert (F : exists A, s_njm (after E ks0 s0) = Some A /\ s_slm (after E ks0 s0) = None /\ s_fes (after E ks0 s0) = true).
  { unfold ks0, after. cbn [fold_left].
    destruct (run_returns E (Setup_slab false) _ (snd (step E Setup_fes s0)) eq_refl _ _ (slab_run P E g HG false (snd (step E Setup_fes s0)) eq_refl)) as [_ ->].
    unfold slab_set. destruct (c_wp (e_c E)); eexists; repeat split; reflexivity. }
  destruct F as [A [HA [HN HF]]].
  split.
  2: { intros. apply (C31_partial P E g fitted ind heap next ks0 ks S0 S1 b x HG HE Hj Hpj HF HN); assumption. }
  destruct (prepared_after P E g HG Hj fitted ind heap next ks0 HF) as [s1 [_ [E1 [W1 [Hp [_ Hn]]]]]].
  fold s0 in E1, W1, Hn.
  assert (Es : s = after E ks s1).
  { unfold s. change ([Setup_fes; Setup_slab false; Prepare] ++ ks) with ((ks0 ++ [Prepare]) ++ ks). rewrite after_app, E1. reflexivity. }
  pose proof (after_later E (s_om s0) ks s1 W1) as L. rewrite <- Es in L.
  destruct Hp as [Hf [_ [Hc _]]].
  assert (Hwp : c_wp (e_c E) = true) by (rewrite (bu_wp _ _ (construct_inv _ _ (gd_c _ _ _ HG))); exact Hpw).
  assert (HCA : can_apply E s).
  { split; [apply (l_fe _ _ L), Hf|]. split.
    - rewrite (l_njm _ _ L A) by (rewrite (Hn Hwp); exact HA). discriminate.
    - intros _. destruct (s_com s1) as [B|] eqn:EA; [|congruence]. rewrite (l_com _ _ L B EA). discriminate. }
  destruct (proj2 (C20_when E (s_om s0) s vi vo HE (r_after E fitted ind heap next _) Hv) HCA) as [s' Hs].
  apply (run_returns E (Apply vi vo) _ s eq_refl _ _ Hs).
Qed.
(** The order used in the default mode does not work: prepare_precondition_gmres
    does not set up the matrix that apply_spacetime_matrix needs. *)
Theorem C32_documented_order_fails : forall P E g fitted ind heap next vi vo,
  good P E g -> env_ok E -> g_jump g <> 0 -> p_wp P = true -> vi <> vo ->
  returns E (Apply vi vo) (after E [Setup_fes; Prepare] (init_state fitted ind heap next)) = Err AttributeError.
Proof.
  intros P E g fitted ind heap next vi vo HG HE Hj Hpw Hv.
  set (s0 := init_state fitted ind heap next).
  destruct (prepared_after P E g HG Hj fitted ind heap next [Setup_fes] eq_refl) as [s1 [_ [E1 [W1 [Hp [_ Hn]]]]]]. fold s0 in E1, W1, Hn.
  cbn [app] in E1. rewrite E1. destruct Hp as [Hf _].
  assert (Hwp : c_wp (e_c E) = true) by (rewrite (bu_wp _ _ (construct_inv _ _ (gd_c _ _ _ HG))); exact Hpw).
  specialize (Hn Hwp). change (s_njm (after E [Setup_fes] s0)) with (@None matrix) in Hn.
  assert (Hv1 : s_vs1 s1 = None).
  { destruct (s_vs1 s1) eqn:Ev; [|reflexivity]. exfalso. apply (proj1 (proj1 (i_vs _ _ _ W1))); [congruence|exact Hn]. }
  unfold returns, step, done, answers, apply_spacetime_matrix. unfold bind at 1. rewrite bind_modify.
  pose proof (eo_N _ HE) as HN. destruct (c_N (e_c E)) as [|N] eqn:EN; [lia|]. cbn [seq slabs].
  set (s2 := put vo vzero s1). assert (Hf2 : s_fes s2 = true) by exact Hf. assert (Hv2 : s_vs1 s2 = None) by exact Hv1. clearbody s2.
  unfold apply_slab at 1. unfold bind at 1. rewrite bind_fes_ok by exact Hf2. rewrite bind_get, Hv2. reflexivity.
Qed.

(** * C33 *)
(** the first request decides what every later request returns *)
Lemma first_request P E g om s p : good P E g -> wfst E om s -> s_fes s = true -> s_stm s = None ->
  step E (Get_matrix p) s = (Ok (AMat (Some (matF E g om p))),
    w_stm (Some (matF E g om p)) (w_stb (Some (st_form (e_c E) g om p)) s)).
Proof.
  intros HG HW Hf Hs. pose proof (construct_inv _ _ (gd_c _ _ _ HG)) as HB.
  set (s1 := w_stm (Some (matF E g om p)) (w_stb (Some (st_form (e_c E) g om p)) s)).
  assert (R : get_spacetime_matrix E p s = (Ok (Some (matF E g om p)), s1)).
  { unfold get_spacetime_matrix. rewrite bind_get, Hs.
    assert (R1 : build_spacetime E p s = (Ok tt, s1)).
    { unfold build_spacetime. rewrite bind_fes_ok by exact Hf. rewrite bind_get.
      unfold setup_spacetime_matrix. rewrite (i_om _ _ _ HW).
      erewrite bind_ok.
      2: { rewrite (bind_lift_ok _ _ g) by apply (g_stab P E g HG).
           rewrite (bind_lift_ok _ _ (st_form (e_c E) g om p)) by
             (apply (st_accepted P (e_c E) g om HB (g_dt_nz P E g HG) (gd_k _ _ _ HG) p (gd_dual _ _ _ HG) (gd_primal _ _ _ HG))).
           reflexivity. }
      reflexivity. }
    rewrite (bind_ok _ _ _ _ _ R1), bind_get. reflexivity. }
  unfold step, answers, bind. rewrite R. reflexivity.
Qed.
Theorem C33_first_request_wins : forall P E g om s p p1 ks, good P E g -> reached E om s -> s_fes s = true -> s_stm s = None ->
  returns E (Get_matrix p) s = Ok (AMat (Some (matF E g om p))) /\
  returns E (Get_matrix p1) (after E ([Get_matrix p] ++ ks) s) = Ok (AMat (Some (matF E g om p))) /\
  returns E (Get_bfi p1) (after E ([Get_matrix p] ++ ks) s) = Ok (AForm (Some (st_form (e_c E) g om p))).
Proof.
  intros P E g om s p p1 ks HG HR Hf Hs. pose proof (reached_wf _ _ _ HR) as HW.
  pose proof (first_request P E g om s p HG HW Hf Hs) as R.
  set (s1 := w_stm (Some (matF E g om p)) (w_stb (Some (st_form (e_c E) g om p)) s)) in R.
  split; [unfold returns; rewrite R; reflexivity|].
  assert (Ea : after E ([Get_matrix p] ++ ks) s = after E ks s1).
  { rewrite after_app. f_equal. unfold after. cbn [fold_left]. rewrite R. reflexivity. }
  assert (W1 : wfst E om s1).
  { assert (s1 = after E [Get_matrix p] s) as -> by (unfold after; cbn [fold_left]; rewrite R; reflexivity).
    apply after_wf, HW. }
  pose proof (after_later E om ks s1 W1) as L. rewrite <- Ea in L. set (s2 := after E ([Get_matrix p] ++ ks) s) in *.
  pose proof (l_stm _ _ L _ eq_refl) as M1. pose proof (l_stb _ _ L _ eq_refl) as M2. clearbody s2.
  split; unfold returns, step, answers, get_spacetime_matrix, get_spacetime_bfi; unfold bind at 1; rewrite bind_get, ?M1, ?M2.
  - cbn. rewrite ?M1. reflexivity.
  - cbn. rewrite ?M2. reflexivity.
Qed.
Lemma exI_stiff a b s s' : FormSpec.H1 exI s s' a b
  = 2 * (a 1%nat - a 0%nat) * (b 1%nat - b 0%nat) + 2 * (a 2%nat - a 1%nat) * (b 2%nat - b 1%nat).
Proof. unfold FormSpec.H1, sp, integ, fev, wval, Rsum, delta. cbn. field. Qed.
(** the matrices for the two values of precond differ *)
Theorem C33_refuted : exists P E s I, p_wp P = false /\ p_jumps P = false /\ construct P = Ok (e_c E) /\ env_ok E /\ reached E om1 s
  /\ (I < dimF E)%nat
  /\ returns E (Get_matrix false) (after E [Get_matrix true] s) = Ok (AMat (Some (matF E exG om1 true)))
  /\ matF E exG om1 true I I <= matF E exG om1 false I I - 1 / 2.
Proof.
  destruct (exP_ok 0 0 2 false false) as [c HC]; try lia. set (E := exE exI c). pose proof (construct_inv _ _ HC) as HB.
  assert (Hdt : 0 < c_dt c) by (apply (dt_pos _ _ HC); cbn; lra).
  set (I := dof (e_Lf E) 0 0 0). set (P := exP 0 0 2 false false) in *.
  assert (HE : env_ok E) by apply exE_ok, (bu_N _ _ HB).
  set (s := after E [Setup_fes] (init_state false om1 (fun _ => vzero) 5)).
  assert (HR : reached E om1 s) by (apply reached_after; exact (reached_init E false om1 _ 5)).
  exists P, E, s, I. split; [reflexivity|]. split; [reflexivity|]. split; [exact HC|]. split; [exact HE|]. split; [exact HR|].
  pose proof (ex_full c 0 (bu_N _ _ HB)) as Hn.
  assert (HI : (I < dimF E)%nat).
  { unfold I, dimF. eapply dof_lt; [apply (eo_f _ HE)|lia|exact Hn|cbn; lia]. }
  split; [exact HI|]. split.
  { apply (C33_first_request_wins P E exG om1 s true false [] (exE_good exI _ _ _ _ _ _ HC) HR eq_refl eq_refl). }
  unfold matF, st_matrix, assemble. change (e_c E) with c. change (e_D E) with exI.
  set (X := field_of (e_Lf E) (unitv I)).
  rewrite !(st_form_spec P c exG om1 exI HB Hdt).
  rewrite (bu_NP _ _ HB). cbn [p_N P exP seq]. rewrite !Rsum_cons, !Rsum_nil. unfold extra_spec. cbn [Nat.ltb Nat.leb].
  rewrite (bu_jumps _ _ HB), (bu_wp _ _ HB). cbn [p_jumps p_wp P exP g_jump exG].
  assert (Edt : c_dt c = 1 / 2) by (rewrite (bu_dt _ _ HB); cbn; lra).
  assert (Eq : c_q c = 0%nat) by (rewrite (bu_cq _ _ HB); reflexivity).
  assert (En : forall j, (j < 4)%nat -> nc_full c j = 2%nat).
  { intros j Hj. unfold nc_full, ntime, sto. rewrite (bu_NP _ _ HB), (bu_cq _ _ HB), (bu_cqs _ _ HB). destruct (Nat.ltb j 2); reflexivity. }
  assert (HX : forall j i l, (j < 4)%nat -> (i < 2)%nat -> (l < 3)%nat -> X j i l = if Nat.eqb 0 j && Nat.eqb 0 i then delta 0 l else 0).
  { intros j i l Hj Hi Hl. unfold X, I. apply (unit_at E 0 0 0 j i HE); try lia; try exact Hl; try (cbn; lia); change (e_c E) with c; rewrite En; lia. }
  assert (HU : forall j l, (j < 2)%nat -> (l < 3)%nat -> upper (td c) X j 1 l = 0).
  { intros j l Hj Hl. rewrite (upper_p P c HB Hdt) by exact Hj. rewrite Eq. cbn [Nat.mul Nat.add]. rewrite HX by lia.
    rewrite andb_false_r. reflexivity. }
  assert (HJ : forall j l, (j < 2)%nat -> (l < 3)%nat -> jumpv (td c) X j 1 l = if Nat.eqb 0 j then - delta 0 l else 0).
  { intros j l Hj Hl. unfold jumpv, vsub. rewrite HU by assumption.
    rewrite (lower_coef c Hdt (q_le P c HB) (qs_le P c HB)) by lia. unfold ntime, sto. destruct (Nat.ltb_spec j 2); [|lia]. rewrite Eq.
    cbn [Nat.mul Nat.add Nat.sub]. rewrite HX by lia. destruct (Nat.eqb 0 j); cbn [andb Nat.eqb]; ring. }
  unfold jumps, jumps_pre, energy. cbn [t_dt td]. rewrite Edt, !exI_mass, !exI_stiff, !HU, !HJ by lia.
  cbn [Nat.eqb]. unfold delta. cbn [Nat.eqb]. lra.
Qed.

(** * C34 *)
(** what the getters of matrices and forms return *)
Definition matrix_getter (k : call) : bool :=
  match k with
  | Get_matrix _ | Get_bfi _ | Get_slab_bfi | Get_slab_matrix | Get_first_bfi | Get_first_matrix => true
  | _ => false
  end.
Definition some_answer (a : answer) : Prop :=
  match a with AMat (Some _) | AForm (Some _) | AVec (Some _) | ALform (Some _) => True | _ => False end.
(** the getter and its attribute *)
Definition attribute (k : call) (s : state) : answer :=
  match k with
  | Get_matrix _ => AMat (s_stm s) | Get_bfi _ => AForm (s_stb s)
  | Get_slab_matrix => AMat (s_slm s) | Get_slab_bfi => AForm (s_slb s)
  | Get_first_matrix => AMat (s_fim s) | Get_first_bfi => AForm (s_fib s)
  | Get_rhs => AVec (s_rhs s) | Get_lfi => ALform (s_lfi s)
  | _ => Done
  end.
Lemma getter_attribute E k s a s' : (matrix_getter k = true \/ k = Get_rhs \/ k = Get_lfi) ->
  step E k s = (Ok a, s') -> a = attribute k s'.
Proof.
  intros Hk H. destruct k; try (destruct Hk as [Hk|[Hk|Hk]]; discriminate Hk); unfold step, answers, bind in H.
  - destruct (get_spacetime_matrix E precond s) as [[o|e] s1] eqn:E1; [|discriminate]. injection H as <- <-.
    unfold get_spacetime_matrix in E1. rewrite bind_get in E1. unfold bind in E1. 
    destruct (match s_stm s with Some _ => ret tt | None => build_spacetime E precond end s) as [[[]|e] s2]; [|discriminate].
    injection E1 as <- <-. reflexivity.
  - destruct (get_spacetime_bfi E precond s) as [[o|e] s1] eqn:E1; [|discriminate]. injection H as <- <-.
    unfold get_spacetime_bfi in E1. rewrite bind_get in E1. unfold bind in E1. 
    destruct (match s_stb s with Some _ => ret tt | None => build_spacetime E precond end s) as [[[]|e] s2]; [|discriminate].
    injection E1 as <- <-. reflexivity.
  - destruct (get_spacetime_rhs E s) as [[o|e] s1] eqn:E1; [|discriminate]. injection H as <- <-.
    unfold get_spacetime_rhs in E1. rewrite bind_get in E1. unfold bind in E1. 
    destruct (match s_rhs s with Some _ => ret tt | None => setup_rhs E end s) as [[[]|e] s2]; [|discriminate].
    injection E1 as <- <-. reflexivity.
  - destruct (get_spacetime_lfi E s) as [[o|e] s1] eqn:E1; [|discriminate]. injection H as <- <-.
    unfold get_spacetime_lfi in E1. rewrite bind_get in E1. unfold bind in E1. 
    destruct (match s_lfi s with Some _ => ret tt | None => setup_rhs E end s) as [[[]|e] s2]; [|discriminate].
    injection E1 as <- <-. reflexivity.
  - destruct (get_slab_bfi E s) as [[o|e] s1] eqn:E1; [|discriminate]. injection H as <- <-.
    unfold get_slab_bfi in E1. rewrite bind_get in E1. unfold bind at 1 in E1. 
    match type of E1 with (match ?m with _ => _ end) = _ => destruct m as [[[]|e] s2]; [|discriminate] end.
    injection E1 as <- <-. reflexivity.
  - destruct (get_slab_matrix E s) as [[o|e] s1] eqn:E1; [|discriminate]. injection H as <- <-.
    unfold get_slab_matrix in E1. rewrite bind_get in E1. unfold bind at 1 in E1. 
    match type of E1 with (match ?m with _ => _ end) = _ => destruct m as [[[]|e] s2]; [|discriminate] end.
    injection E1 as <- <-. reflexivity.
  - injection H as <- <-. reflexivity.
  - injection H as <- <-. reflexivity.
Qed.
Lemma getter_cached E k s : (matrix_getter k = true \/ k = Get_rhs \/ k = Get_lfi) -> some_answer (attribute k s) ->
  step E k s = (Ok (attribute k s), s).
Proof.
  intros Hk H. destruct k; try (destruct Hk as [Hk|[Hk|Hk]]; discriminate Hk); cbn [attribute] in *;
    unfold step, answers, get_spacetime_matrix, get_spacetime_bfi, get_spacetime_rhs, get_spacetime_lfi, get_slab_matrix, get_slab_bfi, get_slab_matrix_first, get_slab_bfi_first;
    unfold bind, get, ret.
  - destruct (s_stm s) eqn:Es; [|destruct H]. cbn. rewrite Es. reflexivity.
  - destruct (s_stb s) eqn:Es; [|destruct H]. cbn. rewrite Es. reflexivity.
  - destruct (s_rhs s) eqn:Es; [|destruct H]. cbn. rewrite Es. reflexivity.
  - destruct (s_lfi s) eqn:Es; [|destruct H]. cbn. rewrite Es. reflexivity.
  - destruct (s_slb s) eqn:Es; [|destruct H]. cbn. rewrite Es. reflexivity.
  - destruct (s_slm s) eqn:Es; [|destruct H]. cbn. rewrite Es. reflexivity.
  - reflexivity.
  - reflexivity.
Qed.
Theorem C34_matrices_stable : forall E om s s' k a ks, reached E om s -> matrix_getter k = true ->
  step E k s = (Ok a, s') -> some_answer a ->
  returns E k (after E ks s') = Ok a /\ snd (step E k (after E ks s')) = after E ks s'.
Proof.
  intros E om s s' k a ks HR Hk Hs Ha. pose proof (getter_attribute E k s a s' (or_introl Hk) Hs) as ->.
  assert (W : wfst E om s').
  { replace s' with (after E [k] s) by (unfold after; cbn [fold_left]; rewrite Hs; reflexivity). apply after_wf, reached_wf, HR. }
  pose proof (after_later E om ks s' W) as L. pose proof (after_wf E om ks s' W) as W2.
  assert (HA : attribute k (after E ks s') = attribute k s').
  { set (s2 := after E ks s') in *. clearbody s2. destruct k; try discriminate Hk; cbn [attribute some_answer] in *; f_equal.
    - destruct (s_stm s') as [A|] eqn:EA; [|destruct Ha]. apply (l_stm _ _ L), EA.
    - destruct (s_stb s') as [A|] eqn:EA; [|destruct Ha]. apply (l_stb _ _ L), EA.
    - destruct (s_slb s') as [A|] eqn:EA; [|destruct Ha]. apply (l_slb _ _ L), EA.
    - destruct (s_slm s') as [A|] eqn:EA; [|destruct Ha]. apply (l_slm _ _ L), EA.
    - rewrite (proj2 (i_fi _ _ _ W)), (proj2 (i_fi _ _ _ W2)) in *. destruct (c_wp (e_c E)).
      + destruct (s_slb s') as [A|] eqn:EA; [|destruct Ha]. apply (l_slb _ _ L), EA.
      + destruct (s_njb s') as [A|] eqn:EA; [|destruct Ha]. apply (l_njb _ _ L), EA.
    - rewrite (proj1 (i_fi _ _ _ W)), (proj1 (i_fi _ _ _ W2)) in *. destruct (c_wp (e_c E)).
      + destruct (s_slm s') as [A|] eqn:EA; [|destruct Ha]. apply (l_slm _ _ L), EA.
      + destruct (s_njm s') as [A|] eqn:EA; [|destruct Ha]. apply (l_njm _ _ L), EA. }
  pose proof (getter_cached E k (after E ks s') (or_introl Hk)) as C. rewrite HA in C. specialize (C Ha).
  unfold returns. rewrite C. split; reflexivity.
Qed.
(** which matrices and forms these are *)
Theorem C34_which_matrices : forall P E om s, construct P = Ok (e_c E) -> reached E om s ->
  match s_stm s, s_stb s with
  | Some A, Some f => exists g p, get_gammas (p_stab P) = Ok g /\ f = st_form (e_c E) g om p /\ A = assemble (e_D E) (e_Lf E) f
  | None, None => True | _, _ => False end /\
  match s_slm s, s_slb s with
  | Some A, Some f => exists g, get_gammas (p_stab P) = Ok g /\ f = slab_form (e_c E) g om true /\ A = assemble (e_D E) (e_Lp E) f
  | None, None => True | _, _ => False end /\
  match s_fim s, s_fib s with
  | Some A, Some f => exists g, get_gammas (p_stab P) = Ok g /\ f = slab_form (e_c E) g om (p_wp P) /\ A = assemble (e_D E) (e_Lp E) f
  | None, None => True | _, _ => False end.
Proof.
  intros P E om s HC HR. pose proof (construct_inv _ _ HC) as HB. destruct (reached_wf _ _ _ HR).
  rewrite (bu_stab _ _ HB) in *. unfold slab_pair in *. rewrite (bu_stab _ _ HB) in *.
  split; [exact i_st|]. split; [exact i_sl|]. destruct i_fi as [-> ->]. rewrite (bu_wp _ _ HB). destruct (p_wp P); assumption.
Qed.
(** a successful setup_rhs *)
Definition rhs_form_of (E : env) (gd gj : R) (s : state) : lform :=
  rhs_form (e_c E) (s_om s) gd gj (d_x (e_D E))
    (fev (e_D E) Dx Vp Val (s_u10 s)) (fev (e_D E) Dx Vp Grad (s_u10 s)) (fev (e_D E) Dx Vp Val (s_u20 s)).
Lemma setup_rhs_inv E s s' : setup_rhs E s = (Ok tt, s') -> exists gj gd f,
  s_fes s = true /\ lookup (c_stab (e_c E)) "primal-jump" = Ok gj /\ lookup (c_stab (e_c E)) "data" = Ok gd /\
  f = rhs_form_of E gd gj s /\
  s' = w_rhs (Some (s_next s)) (w_lfi (Some f) (w_next (S (s_next s)) (put (s_next s) (assemble_vec (e_D E) (e_Lf E) f) s))).
Proof.
  intro H. unfold setup_rhs in H. destruct (s_fes s) eqn:Ef.
  2: { unfold bind at 1, need_fes in H. rewrite bind_get, Ef in H. discriminate H. }
  rewrite bind_fes_ok in H by exact Ef.
  destruct (lookup (c_stab (e_c E)) "primal-jump") as [gj|] eqn:E1; [|discriminate H]. rewrite (bind_lift_ok _ _ gj) in H by reflexivity.
  destruct (lookup (c_stab (e_c E)) "data") as [gd|] eqn:E2; [|discriminate H]. rewrite (bind_lift_ok _ _ gd) in H by reflexivity.
  destruct (c_wp (e_c E) && is_zero (c_dt (e_c E))); [discriminate H|]. rewrite bind_err_if_ok in H by reflexivity.
  rewrite bind_get in H. unfold bind, lift, fem_lform in H.
  match type of H with context [if ?b then _ else _] => destruct b end; [|discriminate H].
  injection H as <-. exists gj, gd. eexists. repeat (split; [reflexivity|]). reflexivity.
Qed.
(** the right-hand side: stable unless setup_rhs is called again, which makes a new vector *)
Theorem C34_rhs_stable : forall E om s i f ks, reached E om s -> s_rhs s = Some i -> s_lfi s = Some f ->
  forallb (fun k => negb (is_setup_rhs k)) ks = true ->
  returns E Get_rhs (after E ks s) = Ok (AVec (Some i)) /\ returns E Get_lfi (after E ks s) = Ok (ALform (Some f)) /\
  ((forall k, In k ks -> ~ In i (outputs k)) -> s_heap (after E ks s) i = s_heap s i).
Proof.
  intros E om s i f ks HR H1 H2 Hk. destruct (rhs_after E i f ks Hk s (conj H1 H2)) as [Q1 Q2].
  set (s2 := after E ks s) in *.
  assert (C1 : step E Get_rhs s2 = (Ok (attribute Get_rhs s2), s2)) by (apply getter_cached; [auto|cbn; rewrite Q1; exact Coq.Init.Logic.I]).
  assert (C2 : step E Get_lfi s2 = (Ok (attribute Get_lfi s2), s2)) by (apply getter_cached; [auto|cbn; rewrite Q2; exact Coq.Init.Logic.I]).
  unfold returns. rewrite C1, C2. cbn [attribute fst]. rewrite Q1, Q2. split; [reflexivity|]. split; [reflexivity|].
  intro Ho. apply (vec_after E i (s_heap s i) ks Ho s). split; [reflexivity|].
  pose proof (i_id _ _ _ (reached_wf _ _ _ HR)) as Hid. rewrite H1 in Hid. exact Hid.
Qed.
Theorem C34_rhs_replaced : forall E om s i s', reached E om s -> s_rhs s = Some i ->
  step E Setup_rhs s = (Ok Done, s') -> s_rhs s' <> None /\ s_rhs s' <> Some i /\ s_heap s' i = s_heap s i.
Proof.
  intros E om s i s' HR Hi Hs. pose proof (i_id _ _ _ (reached_wf _ _ _ HR)) as Hid. rewrite Hi in Hid.
  assert (Hv : vec_is i (s_heap s i) s') by (replace s' with (snd (step E Setup_rhs s)) by (rewrite Hs; reflexivity);
    apply vec_step; [intros []|split; [reflexivity|exact Hid]]).
  assert (Hq : s_rhs s' = Some (s_next s)).
  { unfold step, done, answers in Hs. unfold bind at 1 in Hs. destruct (setup_rhs E s) as [[[]|e] s1] eqn:E1; [|discriminate].
    injection Hs as <-. destruct (setup_rhs_inv E s s1 E1) as [gj [gd [f [_ [_ [_ [_ ->]]]]]]]. reflexivity. }
  split; [rewrite Hq; discriminate|]. split; [rewrite Hq; intro H; injection H as H; lia|exact (proj1 Hv)].
Qed.

(** * C35 *)
(** What holds: if the data domain is not fitted, the matrix and the right-hand
    side built after any calls use the given indicator. *)
Theorem C35_partial : forall P E ind heap next ks, construct P = Ok (e_c E) ->
  let s := after E ks (init_state false ind heap next) in
  (forall A, s_stm s = Some A -> exists g p, get_gammas (p_stab P) = Ok g /\ A = matF E g ind p) /\
  (forall s', setup_rhs E s = (Ok tt, s') -> exists gd gj,
     lookup (p_stab P) "data" = Ok gd /\ lookup (p_stab P) "primal-jump" = Ok gj /\
     s_lfi s' = Some (rhs_form (e_c E) ind gd gj (d_x (e_D E))
       (fev (e_D E) Dx Vp Val (s_u10 s)) (fev (e_D E) Dx Vp Grad (s_u10 s)) (fev (e_D E) Dx Vp Val (s_u20 s)))).
Proof.
  intros P E ind heap next ks HC s. pose proof (construct_inv _ _ HC) as HB.
  assert (HR : reached E ind s) by (apply reached_after; exact (reached_init E false ind heap next)).
  pose proof (reached_wf _ _ _ HR) as HW. split.
  - intros A HA. pose proof (C34_which_matrices P E ind s HC HR) as [H _]. rewrite HA in H.
    destruct (s_stb s) as [f|]; [|destruct H]. destruct H as [g [p [Hg [-> ->]]]]. exists g, p. split; [exact Hg|reflexivity].
  - intros s' Hs. destruct (setup_rhs_inv E s s' Hs) as [gj [gd [f [_ [H1 [H2 [-> ->]]]]]]].
    exists gd, gj. rewrite (bu_stab _ _ HB) in *. split; [exact H2|]. split; [exact H1|].
    cbn [s_lfi w_rhs w_lfi]. unfold rhs_form_of. rewrite (i_om _ _ _ HW). reflexivity.
Qed.
(** C35 as stated is false: if the data domain is fitted, the given indicator is
    never used; the zero indicator takes its place. *)
Theorem C35_fitted_ignored : forall E ind ind' heap next ks,
  after E ks (init_state true ind heap next) = after E ks (init_state true ind' heap next) /\
  s_om (after E ks (init_state true ind heap next)) = fun _ => 0.
Proof.
  intros E ind ind' heap next ks. split; [reflexivity|].
  exact (i_om _ _ _ (reached_wf _ _ _ (reached_after E _ _ ks (reached_init E true ind heap next)))).
Qed.
Lemma data_diff P c g D X Y : built P c -> 0 < c_dt c -> forall om precond,
  eval D (st_form c g om precond) X Y = eval D (st_form c g (fun _ => 0) precond) X Y
    + g_data g * sumn (c_N c) (fun n => data D (td c) om X Y n).
Proof.
  intros HB Hdt om precond. rewrite !(st_form_spec P c g _ D HB Hdt).
  assert (Z : forall n, data D (td c) (fun _ => 0) X Y n = 0).
  { intro n. rewrite (data_disc P c (fun _ => 0) D HB Hdt).
    rewrite Rsum_zero; [ring|]. intros j _. apply Rsum_zero. intros k _.
    unfold L2w, sp, integ, wval. rewrite (Rsum_zero (d_pts D Dx)); [ring|]. intros p _. ring. }
  rewrite Rplus_assoc. f_equal. rewrite <- Rsum_scal, <- Rsum_plus. apply Rsum_ext; intro n.
  unfold slab_spec. rewrite Z. ring.
Qed.
Theorem C35_refuted : exists P E s I A, construct P = Ok (e_c E) /\ env_ok E /\
  s = after E [Setup_fes; Get_matrix false] (init_state true om1 (fun _ => vzero) 5) /\
  s_stm s = Some A /\ (I < dimF E)%nat /\ A I I <= matF E exG om1 false I I - 1 / 4.
Proof.
  destruct (exP_ok 0 0 1 false false) as [c HC]; try lia. set (E := exE exI c). pose proof (construct_inv _ _ HC) as HB.
  assert (Hdt : 0 < c_dt c) by (apply (dt_pos _ _ HC); cbn; lra).
  set (I := dof (e_Lf E) 0 0 0). set (P := exP 0 0 1 false false) in *.
  assert (HE : env_ok E) by apply exE_ok, (bu_N _ _ HB).
  set (s := after E [Setup_fes; Get_matrix false] (init_state true om1 (fun _ => vzero) 5)).
  assert (HR : reached E (fun _ => 0) (after E [Setup_fes] (init_state true om1 (fun _ => vzero) 5))) by (apply reached_after; exact (reached_init E true om1 _ 5)).
  exists P, E, s, I, (matF E exG (fun _ => 0) false).
  split; [exact HC|]. split; [exact HE|]. split; [reflexivity|].
  assert (HS : s_stm s = Some (matF E exG (fun _ => 0) false)).
  { unfold s, after. cbn [fold_left].
    pose proof (first_request P E exG (fun _ => 0) _ false (exE_good exI _ _ _ _ _ _ HC) (reached_wf _ _ _ HR) eq_refl eq_refl) as Hq.
    unfold after in Hq at 1. cbn [fold_left] in Hq. rewrite Hq. reflexivity. }
  split; [exact HS|].
  pose proof (ex_full c 0 (bu_N _ _ HB)) as Hn.
  assert (HI : (I < dimF E)%nat).
  { unfold I, dimF. eapply dof_lt; [apply (eo_f _ HE)|lia|exact Hn|cbn; lia]. }
  split; [exact HI|].
  unfold matF, st_matrix, assemble. change (e_c E) with c. change (e_D E) with exI.
  set (X := field_of (e_Lf E) (unitv I)). rewrite (data_diff P c exG exI X X HB Hdt om1 false).
  rewrite (bu_NP _ _ HB). cbn [p_N P exP seq g_data exG]. rewrite Rsum_cons, Rsum_nil.
  rewrite (data_disc P c om1 exI HB Hdt). rewrite (bu_cq _ _ HB). cbn [p_q P exP Z.of_nat Z.to_nat seq].
  rewrite !Rsum_cons, !Rsum_nil. rewrite (bu_dt _ _ HB). cbn [p_T p_N P exP INR].
  assert (HX : forall l, (l < 3)%nat -> restr (ntime c) 0 X 0%nat 0%nat l = delta 0 l).
  { intros l Hl. rewrite restr_at. cbn [Nat.mul Nat.add]. unfold X, I. apply (unit_at E 0 0 0 0 0 HE); try lia; try exact Hl; try (cbn; lia); exact Hn. }
  assert (HM : L2w exI om1 Vp (restr (ntime c) 0 X 0%nat 0%nat) (restr (ntime c) 0 X 0%nat 0%nat) = 1 / 4).
  { replace (1 / 4) with (L2 exI Vp Vp (restr (ntime c) 0 X 0%nat 0%nat) (restr (ntime c) 0 X 0%nat 0%nat)).
    - unfold L2w, L2, sp, integ. apply Rsum_ext; intro p. unfold wval, om1. reflexivity.
    - rewrite exI_mass, !HX by lia. unfold delta. cbn [Nat.eqb]. lra. }
  rewrite HM.
  assert (HI1 : RInt.RInt (V := Hierarchy.R_CompleteNormedModule) (fun t => lagrange 0 0 t * lagrange 0 0 t) 0 1 = 1).
  { rewrite (RInt.RInt_ext (V := Hierarchy.R_CompleteNormedModule) _ (fun _ => 1)) by (intros; unfold lagrange; cbn; ring).
    rewrite RInt.RInt_const. unfold Hierarchy.scal. cbn. unfold Hierarchy.mult. cbn. ring. }
  rewrite HI1. lra.
Qed.

(** * C36 *)
(** u1_0 and u2_0 as initial data *)
Definition initial (s : state) : field := fun j _ => if Nat.eqb j 0 then s_u10 s else s_u20 s.
Lemma rhs_content P E s s' I : construct P = Ok (e_c E) -> 0 < p_T P -> setup_rhs E s = (Ok tt, s') -> exists gj gd,
  lookup (p_stab P) "primal-jump" = Ok gj /\ lookup (p_stab P) "data" = Ok gd /\
  s_rhs s' = Some (s_next s) /\
  s_heap s' (s_next s) I
  = assemble_vec (e_D E) (e_Lf E) (rhs_form (e_c E) (s_om s) gd gj (d_x (e_D E)) (fun _ _ => 0) (fun _ _ => 0) (fun _ _ => 0)) I
    + (if p_wp P then gj * init (e_D E) (tgrid P) (initial s) (basF E I) else 0).
Proof.
  intros HC HT Hs. pose proof (construct_inv _ _ HC) as HB. pose proof (dt_pos _ _ HC HT) as Hdt.
  destruct (setup_rhs_inv E s s' Hs) as [gj [gd [f [_ [H1 [H2 [-> ->]]]]]]]. rewrite (bu_stab _ _ HB) in *.
  exists gj, gd. split; [exact H1|]. split; [exact H2|]. split; [reflexivity|].
  cbn [s_heap w_rhs w_lfi w_next put w_heap]. rewrite Nat.eqb_refl.
  unfold assemble_vec, rhs_form_of. rewrite !(rhs_slabs (e_c E) (s_om s) (e_D E)).
  rewrite Rplus_assoc. f_equal.
  set (Y := field_of (e_Lf E) (unitv I)).
  assert (Z0 : forall n, leval (e_D E) (rhs_init (e_c E) gj (fun _ _ => 0) (fun _ _ => 0) (fun _ _ => 0) n) Y = 0).
  { intro n. rewrite (rhs_init_eval P (e_c E) (e_D E) HB Hdt gj _ _ _ (fun _ _ _ => 0) n Y).
    - destruct (Nat.eqb n 0 && c_wp (e_c E)); [|reflexivity].
      assert (Zu : forall j l, upper (td (e_c E)) (fun _ _ _ => 0) j 0 l = 0).
      { intros j l. unfold upper, at_time. apply Rsum_zero. intros; ring. }
      unfold init, energy, L2, FormSpec.H1, sp, integ.
      assert (ZZ : forall o a k, (forall l, a l = 0) -> forall p, fev (e_D E) Dx Vp o a p k = 0).
      { intros o a k Ha p. unfold fev. apply Rsum_zero. intros l _. rewrite Ha. ring. }
      rewrite !(Rsum_zero (d_pts (e_D E) Dx)); [ring| | |]; intros p _; (rewrite (Rsum_zero (seq 0 _)); [ring|]);
        intros k _; (rewrite ZZ; [ring|intro l; apply Zu]).
    - intros p Hp. assert (Zu : forall j l, upper (td (e_c E)) (fun _ _ _ => 0) j 0 l = 0).
      { intros j l. unfold upper, at_time. apply Rsum_zero. intros; ring. }
      repeat split; intros; unfold fev; symmetry; apply Rsum_zero; intros l _; rewrite Zu; ring. }
  assert (Z1 : forall n, leval (e_D E) (rhs_init (e_c E) gj (fev (e_D E) Dx Vp Val (s_u10 s)) (fev (e_D E) Dx Vp Grad (s_u10 s))
      (fev (e_D E) Dx Vp Val (s_u20 s)) n) Y = delta 0 n * (if p_wp P then gj * init (e_D E) (tgrid P) (initial s) Y else 0)).
  { intro n. rewrite (rhs_init_eval P (e_c E) (e_D E) HB Hdt gj _ _ _ (initial s) n Y).
    - rewrite (bu_wp _ _ HB), (tgrid_td _ _ HC). unfold delta. rewrite (Nat.eqb_sym 0 n). destruct (Nat.eqb n 0), (p_wp P); cbn [andb]; ring.
    - assert (Zu : forall j l, (j < 2)%nat -> upper (td (e_c E)) (initial s) j 0 l = if Nat.eqb j 0 then s_u10 s l else s_u20 s l).
      { intros j l Hj. rewrite (upper_p P (e_c E) HB Hdt) by exact Hj. unfold initial. destruct (Nat.eqb j 0); reflexivity. }
      intros p Hp. repeat split; intros; apply fev_ext; intros; symmetry; rewrite Zu by lia; reflexivity. }
  rewrite (Rsum_ext (seq 0 (c_N (e_c E))) _ (fun n => leval (e_D E) (rhs_data (e_c E) (s_om s) gd (d_x (e_D E)) n (z (n * S (c_q (e_c E))))) Y
     + delta 0 n * (if p_wp P then gj * init (e_D E) (tgrid P) (initial s) Y else 0))) by (intro n; rewrite Z1; reflexivity).
  rewrite Rsum_plus. rewrite sumn_delta by (pose proof (bu_N _ _ HB); lia).
  f_equal. apply Rsum_ext; intro n. rewrite Z0. ring.
Qed.
(** What holds: between two successful setup_rhs calls anywhere in two histories,
    the assembled vectors differ exactly by the initial data terms (so not at all
    in the default mode), and only three calls change the initial data. *)
Theorem C36_partial : forall P E om s1 s2 s1' s2' I, construct P = Ok (e_c E) -> 0 < p_T P ->
  reached E om s1 -> reached E om s2 -> setup_rhs E s1 = (Ok tt, s1') -> setup_rhs E s2 = (Ok tt, s2') ->
  exists gj, lookup (p_stab P) "primal-jump" = Ok gj /\
  s_heap s2' (s_next s2) I - s_heap s1' (s_next s1) I
  = if p_wp P then gj * (init (e_D E) (tgrid P) (initial s2) (basF E I) - init (e_D E) (tgrid P) (initial s1) (basF E I)) else 0.
Proof.
  intros P E om s1 s2 s1' s2' I HC HT HR1 HR2 H1 H2.
  destruct (rhs_content P E s1 s1' I HC HT H1) as [gj [gd [L1 [L2 [_ E1]]]]].
  destruct (rhs_content P E s2 s2' I HC HT H2) as [gj' [gd' [L1' [L2' [_ E2]]]]].
  assert (gj' = gj) by congruence. assert (gd' = gd) by congruence. subst gj' gd'.
  exists gj. split; [exact L1|]. rewrite E1, E2.
  rewrite (i_om _ _ _ (reached_wf _ _ _ HR1)), (i_om _ _ _ (reached_wf _ _ _ HR2)). destruct (p_wp P); ring.
Qed.
Theorem C36_who_changes_initial_data : forall E s ks, forallb (fun k => negb (writes_u0 k)) ks = true ->
  s_u10 (after E ks s) = s_u10 s /\ s_u20 (after E ks s) = s_u20 s.
Proof. intros E s ks Hk. exact (u0_after E _ _ ks Hk s (conj eq_refl eq_refl)). Qed.
(** setup_spacetime_finite_elements starts afresh: whatever was measured or plotted before,
    a right-hand side assembled afterwards belongs to initial data zero *)
Theorem C36_setup_clears : forall E s ks ks', forallb (fun k => negb (writes_u0 k)) ks' = true -> forall l,
  s_u10 (after E (ks ++ Setup_fes :: ks') s) l = 0 /\ s_u20 (after E (ks ++ Setup_fes :: ks') s) l = 0.
Proof.
  intros E s ks ks' Hk l. change (Setup_fes :: ks') with ([Setup_fes] ++ ks'). rewrite !after_app.
  set (s1 := after E ks s). assert (Z : u0_is vzero vzero (after E [Setup_fes] s1)) by (split; reflexivity).
  destruct (u0_after E _ _ ks' Hk _ Z) as [-> ->]. split; reflexivity.
Qed.
Theorem C36_same_after_setup : forall P E om s1 s2 ks1 ks2 s1' s2' I, construct P = Ok (e_c E) -> 0 < p_T P ->
  reached E om s1 -> reached E om s2 -> forallb (fun k => negb (writes_u0 k)) ks1 = true -> forallb (fun k => negb (writes_u0 k)) ks2 = true ->
  setup_rhs E (after E (Setup_fes :: ks1) s1) = (Ok tt, s1') -> setup_rhs E (after E (Setup_fes :: ks2) s2) = (Ok tt, s2') ->
  exists i1 i2, s_rhs s1' = Some i1 /\ s_rhs s2' = Some i2 /\ s_heap s1' i1 I = s_heap s2' i2 I.
Proof.
  intros P E om s1 s2 ks1 ks2 s1' s2' I HC HT R1 R2 K1 K2 H1 H2.
  assert (RA : forall ks s, reached E om s -> reached E om (after E ks s)).
  { intros ks s [f [i [h [nx [cs [-> Eo]]]]]]. exists f, i, h, nx, (cs ++ ks). split; [symmetry; apply after_app|exact Eo]. }
  destruct (rhs_content P E _ s1' I HC HT H1) as [gj1 [gd1 [_ [_ [A1 _]]]]]. destruct (rhs_content P E _ s2' I HC HT H2) as [gj2 [gd2 [_ [_ [A2 _]]]]].
  exists (s_next (after E (Setup_fes :: ks1) s1)), (s_next (after E (Setup_fes :: ks2) s2)). split; [exact A1|]. split; [exact A2|].
  destruct (C36_partial P E om _ _ s1' s2' I HC HT (RA _ _ R1) (RA _ _ R2) H1 H2) as [gj [_ D12]].
  assert (EI : init (e_D E) (tgrid P) (initial (after E (Setup_fes :: ks2) s2)) (basF E I) = init (e_D E) (tgrid P) (initial (after E (Setup_fes :: ks1) s1)) (basF E I)).
  { pose proof (C36_setup_clears E s1 [] ks1 K1) as Z1. pose proof (C36_setup_clears E s2 [] ks2 K2) as Z2. cbn [app] in Z1, Z2.
    assert (Q : forall j i l, initial (after E (Setup_fes :: ks2) s2) j i l = initial (after E (Setup_fes :: ks1) s1) j i l).
    { intros j i l. unfold initial. destruct (Nat.eqb j 0); [rewrite (proj1 (Z1 l)), (proj1 (Z2 l))|rewrite (proj2 (Z1 l)), (proj2 (Z2 l))]; reflexivity. }
    assert (Qe : initial (after E (Setup_fes :: ks2) s2) = initial (after E (Setup_fes :: ks1) s1)).
    { apply FunctionalExtensionality.functional_extensionality; intro j. apply FunctionalExtensionality.functional_extensionality; intro i.
      apply FunctionalExtensionality.functional_extensionality; intro l. apply Q. }
    rewrite Qe. reflexivity. }
  rewrite EI in D12. destruct (p_wp P); lra.
Qed.
(** C36 as stated is false in the well-posed mode: plotting changes the
    right-hand side assembled afterwards. *)
Theorem C36_refuted : exists P E s1 s2 s1' s2' pt I, construct P = Ok (e_c E) /\ env_ok E /\ 0 < p_T P /\ (I < dimF E)%nat /\
  s1 = after E [Setup_fes] (ex0 I) /\ s2 = after E [Paraview pt 0] s1 /\
  setup_rhs E s1 = (Ok tt, s1') /\ setup_rhs E s2 = (Ok tt, s2') /\ s_rhs s1' = s_rhs s2' /\
  forall i, s_rhs s1' = Some i -> s_heap s1' i I + 1 / 4 <= s_heap s2' i I.
Proof.
  destruct (exP_ok 0 0 1 false true) as [c HC]; try lia. set (E := exE exI c). pose proof (construct_inv _ _ HC) as HB.
  assert (Hdt : 0 < c_dt c) by (apply (dt_pos _ _ HC); cbn; lra).
  set (I := dof (e_Lf E) 0 0 0). set (P := exP 0 0 1 false true) in *.
  assert (HE : env_ok E) by apply exE_ok, (bu_N _ _ HB).
  assert (HG : good P E exG) by apply (exE_good exI _ _ _ _ _ _ HC).
  pose proof (ex_full c 0 (bu_N _ _ HB)) as Hn.
  assert (HI : (I < dimF E)%nat).
  { unfold I, dimF. eapply dof_lt; [apply (eo_f _ HE)|lia|exact Hn|cbn; lia]. }
  set (pt := fun _ : nat => @nil R).
  set (s1 := after E [Setup_fes] (ex0 I)). set (s2 := after E [Paraview pt 0] s1).
  assert (U2 : s_u10 s2 = comp_of (e_Lf E) (unitv I) 0 (nc_full c 0 - 1)) by reflexivity.
  assert (U1 : s_u10 s1 = vzero /\ s_u20 s1 = vzero) by (split; reflexivity).
  assert (N12 : s_next s1 = 5%nat /\ s_next s2 = 5%nat) by (split; reflexivity).
  assert (R1 : reached E om1 s1) by (apply reached_after; exact (reached_init E false om1 _ 5)).
  assert (R2 : reached E om1 s2) by (apply reached_after, R1).
  destruct (rhs_run P E exG HG s1 eq_refl) as [f1 H1]. destruct (rhs_run P E exG HG s2 eq_refl) as [f2 H2].
  match type of H1 with _ = (_, ?t) => set (s1' := t) in H1 end.
  match type of H2 with _ = (_, ?t) => set (s2' := t) in H2 end.
  exists P, E, s1, s2, s1', s2', pt, I.
  split; [exact HC|]. split; [exact HE|]. split; [cbn; lra|]. split; [exact HI|]. split; [reflexivity|]. split; [reflexivity|].
  split; [exact H1|]. split; [exact H2|].
  split; [unfold s1', s2'; cbn [s_rhs w_rhs]; destruct N12 as [-> ->]; reflexivity|].
  intros i Hi. assert (i = 5%nat) by (unfold s1' in Hi; cbn [s_rhs w_rhs] in Hi; destruct N12 as [N1 _]; rewrite N1 in Hi; congruence).
  subst i. destruct (C36_partial P E om1 s1 s2 s1' s2' I HC ltac:(cbn; lra) R1 R2 H1 H2) as [gj [Lj D12]].
  cbn in Lj. injection Lj as <-. destruct N12 as [N1 N2]. rewrite N1, N2 in D12. cbn [p_wp P exP] in D12.
  assert (HX : forall l, (l < 3)%nat -> fldF E (unitv I) 0%nat 0%nat l = delta 0 l).
  { intros l Hl. unfold I. rewrite unit_at; auto; try lia; try (cbn; lia). }
  assert (En : (nc_full c 0 - 1 = 0)%nat).
  { unfold nc_full, ntime, sto. rewrite (bu_NP _ _ HB), (bu_cq _ _ HB). reflexivity. }
  assert (V2 : forall l, (l < 3)%nat -> s_u10 s2 l = delta 0 l).
  { intros l Hl. rewrite U2, En. unfold comp_of.
    rewrite <- (HX l Hl). unfold fldF, field_of, dof. unfold of_list, gather.
    rewrite (nth_indep _ 0 (unitv I 0%nat)).
    2: { rewrite map_length. erewrite (wl_len _ _ _ _ (eo_f _ HE)); [|lia|exact Hn]. exact Hl. }
    rewrite map_nth. reflexivity. }
  assert (T : t_dt (tgrid P) = 1) by (cbn; lra).
  assert (UU : forall s j l, (j < 2)%nat -> upper (tgrid P) (initial s) j 0 l = if Nat.eqb j 0 then s_u10 s l else s_u20 s l).
  { intros s j l Hj. rewrite <- (tgrid_td _ _ HC). rewrite (upper_p P c HB Hdt) by exact Hj. unfold initial. destruct (Nat.eqb j 0); reflexivity. }
  assert (UY : forall j l, (j < 2)%nat -> upper (tgrid P) (basF E I) j 0 l = basF E I j 0%nat l).
  { intros j l Hj. rewrite <- (tgrid_td _ _ HC). rewrite (upper_p P c HB Hdt) by exact Hj. reflexivity. }
  assert (VY : forall l, (l < 3)%nat -> basF E I 1%nat 0%nat l = 0).
  { intros l Hl. unfold basF, I.
    rewrite (unit_at E 0 0 0 1 0 HE); [reflexivity|lia|exact Hn|cbn; lia|lia|apply (ex_full c 1 (bu_N _ _ HB))|cbn; exact Hl]. }
  assert (EJ : init exI (tgrid P) (initial s1) (basF E I) = 0 /\ init exI (tgrid P) (initial s2) (basF E I) = 1 / 4 + 2).
  { unfold init, energy. rewrite T, !exI_mass, !exI_stiff, !UU, !UY by lia. cbn [Nat.eqb].
    unfold basF. rewrite !HX by lia. destruct U1 as [-> ->]. fold (basF E I). rewrite !VY by lia. rewrite !V2 by lia.
    unfold vzero, delta. cbn [Nat.eqb]. split; lra. }
  change (e_D E) with exI in D12. destruct EJ as [EJ1 EJ2]. rewrite EJ1, EJ2 in D12.
  clearbody s1' s2'. lra.
Qed.

(** * C37 *)
(** the object with another start time *)
Definition with_t (c : config) (t : R) : config := {|
  c_q := c_q c; c_qs := c_qs c; c_k := c_k c; c_kstar := c_kstar c; c_N := c_N c; c_T := c_T c; c_t := t; c_dt := c_dt c;
  c_lam := c_lam c; c_stab := c_stab c; c_jumps := c_jumps c; c_wp := c_wp c; c_el := c_el c; c_qr := c_qr c;
  c_qr_ho := c_qr_ho c; c_phi := c_phi c; c_dphi := c_dphi c; c_samples := c_samples c; c_eps := c_eps c; c_v := c_v c; c_dv := c_dv c |}.
Definition env_t (E : env) (t : R) : env := mkEnv (with_t (e_c E) t) (e_D E) (e_Lf E) (e_Lp E) (e_Lc E) (e_Lb E).
Definition start (P : params) (t : R) : params := {|
  p_q := p_q P; p_qstar := p_qstar P; p_k := p_k P; p_kstar := p_kstar P; p_N := p_N P; p_T := p_T P; p_t := t;
  p_stab := p_stab P; p_v := p_v P; p_dv := p_dv P; p_jumps := p_jumps P; p_wp := p_wp P |}.
Lemma slabs_t c t body : forall ns k, slabs (with_t c t) body ns k = slabs c body ns k.
Proof. induction ns as [|n ns IH]; intro k; cbn [slabs]; [reflexivity|]. rewrite IH. reflexivity. Qed.
Lemma step_t E t k s : step (env_t E t) k s = step E k s.
Proof.
  destruct k; cbn [step]; try reflexivity; unfold done, answers, bind;
    unfold apply_spacetime_matrix, pre_time_marching, pre_time_marching_improved.
  - rewrite !bind_modify. change (e_c (env_t E t)) with (with_t (e_c E) t). rewrite slabs_t. reflexivity.
  - change (c_stab (e_c (env_t E t))) with (c_stab (e_c E)).
    destruct (lookup (c_stab (e_c E)) "primal-jump") as [gj|e]; [|reflexivity].
    rewrite !(bind_lift_ok _ _ gj) by reflexivity. change (e_c (env_t E t)) with (with_t (e_c E) t). rewrite slabs_t. reflexivity.
  - change (c_stab (e_c (env_t E t))) with (c_stab (e_c E)). change (c_jumps (e_c (env_t E t))) with (c_jumps (e_c E)).
    destruct (c_jumps (e_c E)); [reflexivity|]. rewrite !bind_err_if_ok by reflexivity.
    destruct (lookup (c_stab (e_c E)) "primal-jump") as [gj|e]; [|reflexivity].
    rewrite !(bind_lift_ok _ _ gj) by reflexivity. rewrite !bind_get.
    destruct (s_brp s); [|reflexivity]. rewrite !(bind_need _ _ _ _ _ eq_refl). rewrite !bind_modify.
    change (e_c (env_t E t)) with (with_t (e_c E) t). rewrite slabs_t. reflexivity.
Qed.
(** C37 is false: two objects that differ only in the start time behave in the
    same way in every history. *)
Theorem C37_start_time_refuted : forall P c D Lf Lp Lc Lb t ks s k,
  construct P = Ok c -> exists c', construct (start P t) = Ok c' /\
  let E := mkEnv c D Lf Lp Lc Lb in let E' := mkEnv c' D Lf Lp Lc Lb in
  after E' ks s = after E ks s /\ returns E' k (after E' ks s) = returns E k (after E ks s).
Proof.
  intros P c D Lf Lp Lc Lb t ks s k HC. exists (with_t c t). split.
  - unfold construct in *. cbn [start p_N p_T p_q p_qstar p_k]. destruct (Nat.eqb (p_N P) 0); [discriminate|]. unfold rbind in *.
    repeat match goal with
    | H : context [match ?m with Ok _ => _ | Err _ => _ end] |- _ => destruct m; [|discriminate H]
    | H : context [let '(_, _) := ?m in _] |- _ => destruct m
    end.
    injection HC as <-. reflexivity.
  - intros E E'. assert (A : forall s, after E' ks s = after E ks s).
    { induction ks as [|k0 ks IH]; intro s0; [reflexivity|]. cbn [after fold_left].
      change E' with (env_t E t) at 2. rewrite step_t. apply IH. }
    split; [apply A|]. rewrite A. unfold returns. change E' with (env_t E t). rewrite step_t. reflexivity.
Qed.

(** * C38 *)
(** the weights a call needs *)
Definition needs (k : call) : list string :=
  match k with
  | Build_matrix _ | Get_matrix _ | Get_bfi _ | Setup_slab _ | Get_slab_bfi | Get_slab_matrix | Prepare =>
      ["data"; "dual"; "primal"; "primal-jump"]
  | Setup_rhs | Get_rhs | Get_lfi => ["primal-jump"; "data"]
  | Setup_coupling | Setup_mass | March _ _ => ["primal-jump"]
  | _ => []
  end%string.
Theorem C38_missing_weight : forall P E om s k key, construct P = Ok (e_c E) -> reached E om s -> s_fes s = true ->
  In key (needs k) -> p_stab P key = None ->
  (match k with Get_rhs => s_rhs s = None | Get_lfi => s_lfi s = None | _ => True end) ->
  step E k s = (Err KeyError, s).
Proof.
  intros P E om s k key HC HR Hf Hin Hkey Hq. pose proof (construct_inv _ _ HC) as HB. pose proof (reached_wf _ _ _ HR) as HW.
  rewrite <- (bu_stab _ _ HB) in Hkey.
  assert (G : In key ["data"; "dual"; "primal"; "primal-jump"]%string -> get_gammas (c_stab (e_c E)) = Err KeyError).
  { clear Hin. intro Hin. unfold get_gammas, rbind, lookup. cbn [In] in Hin.
    destruct Hin as [<-|[<-|[<-|[<-|[]]]]]; rewrite Hkey;
      repeat match goal with |- context [match c_stab (e_c E) ?k with _ => _ end] => destruct (c_stab (e_c E) k) end; reflexivity. }
  assert (NS : In key ["data"; "dual"; "primal"; "primal-jump"]%string -> s_stm s = None /\ s_stb s = None /\ s_slm s = None /\ s_slb s = None).
  { intro H. specialize (G H). destruct HW. unfold slab_pair in *. rewrite G in *.
    assert (B1 : s_stm s = None /\ s_stb s = None).
    { destruct (s_stm s), (s_stb s); try contradiction; [destruct i_st as [? [? [? _]]]; discriminate|auto]. }
    assert (B2 : s_slm s = None /\ s_slb s = None).
    { destruct (s_slm s), (s_slb s); try contradiction; [destruct i_sl as [? [? _]]; discriminate|auto]. }
    tauto. }
  assert (LK : lookup (c_stab (e_c E)) key = Err KeyError) by (unfold lookup; rewrite Hkey; reflexivity).
  assert (SL : forall b, In key ["data"; "dual"; "primal"; "primal-jump"]%string -> setup_slab_matrix E b s = (Err KeyError, s)).
  { intros b H. unfold setup_slab_matrix. rewrite bind_fes_ok by exact Hf. rewrite (G H). reflexivity. }
  assert (BM : forall p, In key ["data"; "dual"; "primal"; "primal-jump"]%string ->
    setup_spacetime_matrix E (e_D E) (e_Lf E) (s_om s) p s = (Err KeyError, s)).
  { intros p H. unfold setup_spacetime_matrix. rewrite (G H). reflexivity. }
  assert (BS : forall p, In key ["data"; "dual"; "primal"; "primal-jump"]%string -> build_spacetime E p s = (Err KeyError, s)).
  { intros p H. unfold build_spacetime. rewrite bind_fes_ok by exact Hf. rewrite bind_get. apply bind_err, BM, H. }
  assert (RH : In key ["primal-jump"; "data"]%string -> setup_rhs E s = (Err KeyError, s)).
  { intro H. unfold setup_rhs. rewrite bind_fes_ok by exact Hf. cbn [In] in H.
    destruct (lookup (c_stab (e_c E)) "primal-jump") as [gj|e] eqn:Ej.
    - destruct H as [<-|[<-|[]]]; [congruence|]. rewrite (bind_lift_ok _ _ gj) by reflexivity. rewrite LK. reflexivity.
    - unfold lookup in Ej. destruct (c_stab (e_c E) "primal-jump"%string); [discriminate|]. injection Ej as <-. reflexivity. }
  destruct k; cbn [needs] in Hin; try contradiction; cbn [step]; unfold done, answers.
  - rewrite bind_fes_ok by exact Hf. rewrite bind_get. apply bind_err, BM, Hin.
  - apply bind_err. unfold get_spacetime_matrix. rewrite bind_get. destruct (NS Hin) as [-> _]. apply bind_err, BS, Hin.
  - apply bind_err. unfold get_spacetime_bfi. rewrite bind_get. destruct (NS Hin) as [_ [-> _]]. apply bind_err, BS, Hin.
  - apply bind_err, RH, Hin.
  - apply bind_err. unfold get_spacetime_rhs. rewrite bind_get, Hq. apply bind_err, RH, Hin.
  - apply bind_err. unfold get_spacetime_lfi. rewrite bind_get, Hq. apply bind_err, RH, Hin.
  - apply bind_err. unfold setup_coupling. rewrite bind_fes_ok by exact Hf. destruct Hin as [<-|[]]. rewrite LK. reflexivity.
  - apply bind_err. unfold setup_scaled_mass. rewrite bind_fes_ok by exact Hf. destruct Hin as [<-|[]]. rewrite LK. reflexivity.
  - apply bind_err, SL, Hin.
  - apply bind_err. unfold get_slab_bfi. rewrite bind_get. destruct (NS Hin) as [_ [_ [_ ->]]]. apply bind_err, bind_err, SL, Hin.
  - apply bind_err. unfold get_slab_matrix. rewrite bind_get. destruct (NS Hin) as [_ [_ [-> _]]]. apply bind_err, bind_err, SL, Hin.
  - apply bind_err. unfold pre_time_marching. destruct Hin as [<-|[]]. rewrite LK. reflexivity.
  - apply bind_err. unfold prepare_precondition_gmres. rewrite bind_get. destruct (NS Hin) as [_ [_ [-> _]]].
    cbn [is_none]. apply bind_err, bind_err, SL, Hin.
Qed.

(** the example object without one weight *)
Definition drop (st : string -> option R) (key : string) : string -> option R :=
  fun k => if String.eqb k key then None else st k.
Example missing_nonvacuous : forall key, In key (needs Prepare) ->
  exists P E s, construct P = Ok (e_c E) /\ reached E om1 s /\ s_fes s = true /\ p_stab P key = None /\
    (forall k, k <> key -> p_stab P k = p_stab (exP 1 1 2 false false) k).
Proof.
  intros key _. set (P0 := exP 1 1 2 false false).
  set (P := mkParams (p_q P0) (p_qstar P0) (p_k P0) (p_kstar P0) (p_N P0) (p_T P0) (p_t P0) (drop (p_stab P0) key)
    (p_v P0) (p_dv P0) (p_jumps P0) (p_wp P0)).
  destruct (exP_ok 1 1 2 false false) as [c0 HC0]; try lia.
  assert (HC : exists c, construct P = Ok c).
  { unfold construct in *. fold P0 in HC0. cbn [P p_N p_T p_q p_qstar p_k]. destruct (Nat.eqb (p_N P0) 0); [discriminate|]. unfold rbind in *.
    repeat match goal with
    | H : context [match ?m with Ok _ => _ | Err _ => _ end] |- _ => destruct m; [|discriminate H]
    | H : context [let '(_, _) := ?m in _] |- _ => destruct m
    end. eexists. reflexivity. }
  destruct HC as [c HC]. exists P, (exE exI c), (after (exE exI c) [Setup_fes] (ex0 0)).
  split; [exact HC|]. split; [apply reached_after; exact (reached_init (exE exI c) false om1 _ 5)|]. split; [reflexivity|].
  split; [cbn; unfold drop; rewrite String.eqb_refl; reflexivity|].
  intros k Hk. cbn. unfold drop. destruct (String.eqb_spec k key); [contradiction|reflexivity].
Qed.

(** * C39 *)
(** the calls that assemble something *)
Definition assembles (k : call) : bool :=
  match k with
  | Build_matrix _ | Get_matrix _ | Get_bfi _ | Setup_slab _ | Get_slab_bfi | Get_slab_matrix | Prepare
  | Setup_rhs | Get_rhs | Get_lfi | Setup_coupling | Setup_mass => true
  | _ => false
  end.
(** nothing assembled and no finite element spaces *)
Definition blank (s : state) : Prop :=
  s_fes s = false /\ s_stm s = None /\ s_stb s = None /\ s_rhs s = None /\ s_lfi s = None /\ s_com s = None
  /\ s_mam s = None /\ s_slm s = None /\ s_slb s = None /\ s_fim s = None /\ s_fib s = None /\ s_njm s = None /\ s_brp s = None
  /\ s_vs1 s = None /\ s_cmt s = None /\ s_cbf s = None.
Lemma blank_fes {A} (Q : state -> Prop) e (f : unit -> M state A) s : s_fes s = false -> Q s -> okat Q (bind (need_fes e) f) s.
Proof. intros H HQ. unfold okat, bind, need_fes, bind, get, err_if. rewrite H. exact HQ. Qed.
Ltac bstep := lazymatch goal with
  | |- okat _ (bind (need_fes _) _) _ => apply blank_fes; [match goal with H : blank ?s |- s_fes ?s = _ => exact (proj1 H) end|leaf]
  | _ => wstep ltac:(leaf)
  end.
Lemma blank_step E k s : is_setup_fes k = false -> blank s -> okat blank (step E k) s.
Proof.
  intros Hk HQ. destruct k; try discriminate Hk; cbn [step]; unfold done.
  all: try (repeat bstep; fail).
  1: unfold answers; apply ok_bind; [|intros; walk leaf]; unfold pre_time_marching_improved;
     apply ok_bind_errif; [exact HQ|intros _]; apply ok_bind_lift; [exact HQ|intros gj _];
     apply ok_bind_get; replace (s_brp s) with (@None vec) by (symmetry; unfold blank in HQ; tauto); exact HQ.
  unfold answers. apply ok_bind; [|intros; walk leaf]. unfold prepare_precondition_gmres. apply ok_bind_get.
  replace (s_slm s) with (@None matrix) by (symmetry; unfold blank in HQ; tauto). cbn [is_none].
  apply ok_bind_assoc. unfold setup_slab_matrix at 1. apply ok_bind_assoc. apply blank_fes; [exact (proj1 HQ)|exact HQ].
Qed.
Lemma blank_after E ks : forallb (fun k => negb (is_setup_fes k)) ks = true -> forall s, blank s -> blank (after E ks s).
Proof.
  induction ks as [|k ks IH]; intros Hk s HQ; [exact HQ|]. cbn [forallb] in Hk. apply andb_true_iff in Hk. destruct Hk as [K1 K2].
  cbn [after fold_left]. apply (IH K2). apply blank_step; [destruct (is_setup_fes k); [discriminate K1|reflexivity]|exact HQ].
Qed.
(** After any calls but setup_spacetime_finite_elements each assembling call
    raises ValueError and changes nothing. *)
Theorem C39_no_spaces : forall E fitted ind heap next ks k,
  forallb (fun k => negb (is_setup_fes k)) ks = true -> assembles k = true ->
  let s := after E ks (init_state fitted ind heap next) in step E k s = (Err ValueError, s).
Proof.
  intros E fitted ind heap next ks k Hks Hk s.
  assert (HB : blank s) by (apply blank_after; [exact Hks|unfold blank; cbn; tauto]). clearbody s.
  destruct HB as [Hf [H1 [H2 [H3 [H4 [H5 [H6 [H7 [H8 [H9 _]]]]]]]]]].
  assert (F : forall A (f : unit -> M state A), bind (need_fes ValueError) f s = (Err ValueError, s)).
  { intros A f. unfold bind, need_fes, bind, get, err_if. rewrite Hf. reflexivity. }
  destruct k; try discriminate Hk; cbn [step]; unfold done, answers.
  - apply F.
  - apply bind_err. unfold get_spacetime_matrix. rewrite bind_get, H1. apply bind_err, F.
  - apply bind_err. unfold get_spacetime_bfi. rewrite bind_get, H2. apply bind_err, F.
  - apply bind_err, F.
  - apply bind_err. unfold get_spacetime_rhs. rewrite bind_get, H3. apply bind_err, F.
  - apply bind_err. unfold get_spacetime_lfi. rewrite bind_get, H4. apply bind_err, F.
  - apply bind_err, F.
  - apply bind_err, F.
  - apply bind_err, F.
  - apply bind_err. unfold get_slab_bfi. rewrite bind_get, H8. apply bind_err, bind_err, F.
  - apply bind_err. unfold get_slab_matrix. rewrite bind_get, H7. apply bind_err, bind_err, F.
  - apply bind_err. unfold prepare_precondition_gmres. rewrite bind_get, H7. cbn [is_none]. apply bind_err, bind_err, F.
Qed.
(** The product raises TypeError, and the caller's output vector is then zero;
    prepare_coarse_grid_correction raises AttributeError. *)
Theorem C39_operators_fail : forall E fitted ind heap next ks, (1 <= c_N (e_c E))%nat ->
  forallb (fun k => negb (is_setup_fes k)) ks = true ->
  let s := after E ks (init_state fitted ind heap next) in
  (forall vi vo, step E (Apply vi vo) s = (Err TypeError, put vo vzero s))
  /\ (forall gj b x, lookup (c_stab (e_c E)) "primal-jump" = Ok gj -> step E (March b x) s = (Err TypeError, s))
  /\ (forall b x, c_jumps (e_c E) = false -> (exists gj, lookup (c_stab (e_c E)) "primal-jump" = Ok gj) -> step E (Improved b x) s = (Err AttributeError, s))
  /\ (forall K, returns E (Prepare_coarse K) s = Err AttributeError)
  /\ (forall u, step E (Measure u) s = (Err AttributeError, s)).
Proof.
  intros E fitted ind heap next ks HN Hks s.
  assert (HB : blank s) by (apply blank_after; [exact Hks|unfold blank; cbn; tauto]). clearbody s.
  destruct HB as [Hf [H1 [H2 [H3 [H4 [H5 [H6 [H7 [H8 [H9 [H10 [H11 [H12 _]]]]]]]]]]]]].
  destruct (c_N (e_c E)) as [|n] eqn:En; [lia|].
  assert (F : forall A e (f : unit -> M state A) s, s_fes s = false -> bind (need_fes e) f s = (Err e, s)).
  { intros A e f s0 H. unfold bind, need_fes, bind, get, err_if. rewrite H. reflexivity. }
  split; [|split; [|split; [|split]]].
  - intros vi vo. cbn [step]. unfold done, answers. apply bind_err. unfold apply_spacetime_matrix. rewrite bind_modify, En.
    cbn [seq slabs]. apply bind_err. unfold apply_slab. apply F. exact Hf.
  - intros gj b x Hg. cbn [step]. unfold done, answers. apply bind_err. unfold pre_time_marching. rewrite Hg.
    rewrite (bind_lift_ok _ _ gj) by reflexivity. rewrite En. cbn [seq slabs]. apply bind_err. unfold pre_slab. apply F, Hf.
  - intros b x Hj [gj Hg]. cbn [step]. unfold done, answers. apply bind_err. unfold pre_time_marching_improved. rewrite Hg, Hj.
    rewrite bind_err_if_ok by reflexivity. rewrite (bind_lift_ok _ _ gj) by reflexivity. rewrite bind_get, H12. reflexivity.
  - intro K. unfold returns. cbn [step]. unfold done, answers, prepare_coarse. unfold bind at 1. rewrite bind_modify. rewrite F by exact Hf. reflexivity.
  - intro u. cbn [step]. unfold answers. apply bind_err. unfold measured_errors. apply bind_err. unfold load_solution. apply F, Hf.
Qed.
Example no_spaces_nonvacuous : assembles Prepare = true /\ forallb (fun k => negb (is_setup_fes k)) [Prepare; Apply 0 1; Get_rhs] = true.
Proof. split; reflexivity. Qed.

(** * C62 *)
(** A vector of the caller changes only through a call that has it as its
    output argument; the vector behind get_spacetime_rhs changes only if the
    caller writes to it. *)
Theorem C62_only_outputs_change : forall E ks s i, (i < s_next s)%nat ->
  (forall k, In k ks -> ~ In i (outputs k)) -> s_heap (after E ks s) i = s_heap s i.
Proof.
  intros E ks s i Hi Hk. exact (proj1 (vec_after E i (s_heap s i) ks Hk s (conj eq_refl Hi))).
Qed.
(** each listed output argument is one that a call can change *)
Example outputs_needed : forall (I : nat), exists E s, s_heap (after E [Apply 0 1] s) 1%nat I <> s_heap s 1%nat I.
Proof.
  intro I. destruct (exP_ok 0 0 1 false false) as [c HC]; try lia. pose proof (construct_inv _ _ HC) as HB.
  exists (exE exI c), (init_state false om1 (fun _ _ => 1) 5). unfold after. cbn [fold_left].
  destruct (C39_operators_fail (exE exI c) false om1 (fun _ _ => 1) 5 [] (bu_N _ _ HB) eq_refl) as [A _].
  cbn zeta in A. unfold after in A. cbn [fold_left] in A. rewrite A. cbn. unfold vzero. lra.
Qed.

Print Assumptions C30_any_history.
Print Assumptions C31_partial.
Print Assumptions C31_getter_first_refuted.
Print Assumptions C32_wellposed_order.
Print Assumptions C32_documented_order_fails.
Print Assumptions C33_first_request_wins.
Print Assumptions C33_refuted.
Print Assumptions C34_matrices_stable.
Print Assumptions C34_which_matrices.
Print Assumptions C34_rhs_stable.
Print Assumptions C34_rhs_replaced.
Print Assumptions C35_partial.
Print Assumptions C35_fitted_ignored.
Print Assumptions C35_refuted.
Print Assumptions C36_partial.
Print Assumptions C36_who_changes_initial_data.
Print Assumptions C36_refuted.
Print Assumptions C36_setup_clears.
Print Assumptions C36_same_after_setup.
Print Assumptions C37_start_time_refuted.
Print Assumptions C38_missing_weight.
Print Assumptions C39_no_spaces.
Print Assumptions C39_operators_fail.
Print Assumptions C62_only_outputs_change.
