(** Props_Ops.v -- properties C20 to C29: the matrix-free product and the two
    time-marching preconditioners of SpaceTime.

    [construct P = Ok (e_c E)], [env_ok E] : an object with accepted parameters P,
    any mesh and spaces, any numbering of the dofs;
    [reached E om s] : the object and the caller's vectors after any sequence of
    public calls, successful or failing ([om]: data indicator of the object). *)
From Coq Require Import Reals List ZArith Lra Lia Bool String.
From Verif Require Import Base TimeModel TimeSpec QuadProofs FormModel FormSpec FormProofs SpaceTimeForms FormBlocks FormTime FormC12
  FormSym FormWf FormExample Props_Forms SpaceTimeModel SlabOps ApplyProofs MarchProofs MarchLoops MarchSum MarchUnique
  ErrorsModel Lifecycle LifeProofs OpsProofs SetupOk LinAlg OpsExample.
Import ListNotations.
Open Scope R_scope.
Open Scope monad_scope.

(** number of dofs of the space-time space *)
Definition dimF (E : env) : nat := lay_dim (e_Lf E).
(** coefficients of component j at time index i *)
Definition fldF (E : env) (x : vec) : field := field_of (e_Lf E) x.
(** basis function number I *)
Definition basF (E : env) (I : nat) : field := fldF E (unitv I).
(** the matrix returned by get_spacetime_matrix(precond) *)
Definition matF (E : env) (g : gammas) (om : nat -> R) (precond : bool) : matrix :=
  st_matrix (e_D E) (e_Lf E) (e_c E) g om precond.

(** * C20, C21 *)

(** the 1e-20 term: the regularisation of the slab matrices of the slabs 1, 2, ...
    and of the coupling matrix *)
Definition tiny_apply (P : params) (D : disc) (X Y : field) : R :=
  let q1 := S (Z.to_nat (p_q P)) in let qs1 := S (Z.to_nat (p_qstar P)) in
  sumn (p_N P) (fun n => if Nat.ltb 0 n then
    L2 D Vp Vd (X 0%nat (n * q1)%nat) (Y 2%nat (n * qs1)%nat)
    + L2 D Vp Vp (X 0%nat (n * q1 - 1)%nat) (Y 0%nat (n * q1 - 1)%nat) else 0).
(** jump terms of the forward problem and initial data terms *)
Definition left_out (P : params) (D : disc) (g : gammas) (X Y : field) : R :=
  let d := tgrid P in
  (if p_jumps P then sumn (p_N P) (fun n => if Nat.ltb 0 n then
      (1 + if Z.eqb (p_qstar P) 0 then 1e-15 else 0) * (fwjumps D d X Y n + fwjumps D d Y X n)
      - g_dual g * dualjumps D d Y X n else 0) else 0)
  + (if p_wp P then g_jump g * init D d X Y else 0).

Lemma missing_left_out P E g X Y : construct P = Ok (e_c E) -> 0 < p_T P ->
  missing E g X Y = left_out P (e_D E) g X Y.
Proof.
  intros HC HT. pose proof (construct_inv _ _ HC) as HB. pose proof (dt_pos _ _ HC HT) as Hdt.
  unfold missing, left_out. rewrite (bu_NP _ _ HB).
  assert (EI : sumn (p_N P) (fun n => delta 0 n * (if p_wp P then g_jump g * init (e_D E) (tgrid P) X Y else 0))
      = if p_wp P then g_jump g * init (e_D E) (tgrid P) X Y else 0).
  { rewrite sumn_delta; [reflexivity|]. pose proof (bu_N _ _ HB). rewrite (bu_NP _ _ HB) in *. lia. }
  assert (EJ : (if p_jumps P then sumn (p_N P) (fun n => if Nat.ltb 0 n then
      (1 + if Z.eqb (p_qstar P) 0 then 1e-15 else 0) * (fwjumps (e_D E) (tgrid P) X Y n + fwjumps (e_D E) (tgrid P) Y X n)
      - g_dual g * dualjumps (e_D E) (tgrid P) Y X n else 0) else 0)
    = sumn (p_N P) (fun n => if p_jumps P then if Nat.ltb 0 n then
      (1 + if Z.eqb (p_qstar P) 0 then 1e-15 else 0) * (fwjumps (e_D E) (tgrid P) X Y n + fwjumps (e_D E) (tgrid P) Y X n)
      - g_dual g * dualjumps (e_D E) (tgrid P) Y X n else 0 else 0)).
  { destruct (p_jumps P); [reflexivity|]. symmetry. apply Rsum_zero. reflexivity. }
  rewrite EJ, <- EI, <- Rsum_plus. apply Rsum_ext; intro n.
  rewrite (extra_slab P (e_c E) g (e_D E) HB Hdt false X Y n). unfold extra_spec.
  rewrite (tgrid_td _ _ HC), (bu_jumps _ _ HB), (bu_wp _ _ HB), (bu_eps _ _ HB). unfold delta.
  destruct n as [|n]; cbn [Nat.ltb Nat.leb Nat.eqb]; [destruct (p_wp P), (p_jumps P); ring|].
  assert (EJ2 : en (e_D E) (c_dt (e_c E)) (jmp (e_c E) X 0 (S n)) (jmp (e_c E) X 1 (S n)) (jmp (e_c E) Y 0 (S n)) (jmp (e_c E) Y 1 (S n))
     = jumps (e_D E) (tgrid P) X Y (S n)).
  { unfold jumps. rewrite <- (tgrid_td _ _ HC). rewrite energy_en.
    apply en_ext; intro l; symmetry; apply (jumpv_jmp P (e_c E) HB Hdt); lia. }
  rewrite EJ2. destruct (p_jumps P); ring.
Qed.

(** For every problem mode: the product, the 1e-20 term, and what is left out. *)
Theorem C21_difference : forall P E om s s' vi vo,
  construct P = Ok (e_c E) -> 0 < p_T P -> env_ok E -> reached E om s -> vi <> vo ->
  apply_spacetime_matrix E vi vo s = (Ok tt, s') ->
  exists g, get_gammas (p_stab P) = Ok g /\
  (forall I, (I < dimF E)%nat ->
     let X := fldF E (s_heap s vi) in let Y := basF E I in
     s_heap s' vo I = mult (dimF E) (matF E g om false) (s_heap s vi) I
       + 1e-20 * tiny_apply P (e_D E) X Y - left_out P (e_D E) g X Y)
  /\ forall k, k <> vo -> s_heap s' k = s_heap s k.
Proof.
  intros P E om s s' vi vo HC HT HE HR Hv Hrun. pose proof (construct_inv _ _ HC) as HB.
  pose proof (reached_wf _ _ _ HR) as HW.
  pose proof (apply_ok_can E HE om s vi vo s' HW Hrun) as HA.
  destruct (wf_ready E om s HW HA) as [g [Hg Hr]]. exists g.
  split; [rewrite <- (bu_stab _ _ HB); exact Hg|].
  destruct (apply_run E HE g (g_jump g) om vi vo s Hv Hr) as [s1 [E1 [_ [_ [H1 H2]]]]].
  rewrite E1 in Hrun. injection Hrun as <-. split; [|exact H1].
  intros I HI X Y. rewrite H2 by exact HI. rewrite (applyF_spec E HE g (g_jump g) om _ _ eq_refl).
  rewrite (missing_left_out P E g _ _ HC HT). unfold matF, st_matrix, dimF.
  rewrite (mult_assemble (e_D E) 4 (nc_full (e_c E)) (e_Lf E)) by (try apply (eo_f _ HE); apply wf_st; apply (eo_N _ HE)).
  unfold X, Y, basF, fldF. f_equal. f_equal. unfold reg. f_equal.
  unfold reg_rest, tiny_apply. rewrite (bu_NP _ _ HB), (bu_cq _ _ HB), (bu_cqs _ _ HB). reflexivity.
Qed.

Theorem C20_matrix_free_product : forall P E om s s' vi vo,
  construct P = Ok (e_c E) -> 0 < p_T P -> env_ok E -> p_jumps P = false -> p_wp P = false ->
  reached E om s -> vi <> vo -> apply_spacetime_matrix E vi vo s = (Ok tt, s') ->
  exists g, get_gammas (p_stab P) = Ok g /\
  (forall I, (I < dimF E)%nat ->
     s_heap s' vo I = mult (dimF E) (matF E g om false) (s_heap s vi) I
       + 1e-20 * tiny_apply P (e_D E) (fldF E (s_heap s vi)) (basF E I))
  /\ forall k, k <> vo -> s_heap s' k = s_heap s k.
Proof.
  intros P E om s s' vi vo HC HT HE Hj Hw HR Hv Hrun.
  destruct (C21_difference P E om s s' vi vo HC HT HE HR Hv Hrun) as [g [Hg [H1 H2]]].
  exists g. split; [exact Hg|]. split; [|exact H2]. intros I HI. rewrite (H1 I HI). unfold left_out. rewrite Hj, Hw. ring.
Qed.
(** it succeeds exactly when the slab matrix without jumps and, with more than
    one slab, the coupling matrix have been set up *)
Theorem C20_when : forall E om s vi vo, env_ok E -> reached E om s -> vi <> vo ->
  ((exists s', apply_spacetime_matrix E vi vo s = (Ok tt, s')) <->
   s_fes s = true /\ s_njm s <> None /\ ((1 < c_N (e_c E))%nat -> s_com s <> None)).
Proof.
  intros E om s vi vo HE HR Hv. pose proof (reached_wf _ _ _ HR) as HW. split.
  - intros [s' H]. exact (apply_ok_can E HE om s vi vo s' HW H).
  - intro HA. destruct (wf_ready E om s HW HA) as [g [_ Hr]].
    destruct (apply_run E HE g (g_jump g) om vi vo s Hv Hr) as [s' [H _]]. exists s'. exact H.
Qed.

(** a state in which the product can be applied *)
Definition ready_calls : list call := [Setup_fes; Setup_slab false; Setup_coupling].
Lemma done_run m s s' : m s = (Ok tt, s') -> snd (done m s) = s'.
Proof. intro H. unfold done, answers, bind. rewrite H. reflexivity. Qed.
Lemma applicable P E g s : good P E g -> let s' := after E ready_calls s in
  can_apply E s' /\ s_heap s' = s_heap s.
Proof.
  intros HG s'. subst s'. unfold after, ready_calls. cbn [fold_left].
  set (s1 := snd (step E Setup_fes s)). assert (H1 : s_fes s1 = true /\ s_heap s1 = s_heap s) by (split; reflexivity).
  clearbody s1. destruct H1 as [Hf Hh].
  change (step E (Setup_slab false) s1) with (done (setup_slab_matrix E false) s1).
  rewrite (done_run _ _ _ (slab_run P E g HG false s1 Hf)).
  set (s2 := slab_set E g false (s_om s1) s1).
  assert (H2 : s_fes s2 = true /\ s_heap s2 = s_heap s1 /\ s_njm s2 <> None).
  { unfold s2, slab_set. destruct (c_wp (e_c E)); (split; [exact Hf|split; [reflexivity|discriminate]]). }
  clearbody s2. destruct H2 as [Hf2 [Hh2 Hn2]].
  change (step E Setup_coupling s2) with (done (setup_coupling E) s2).
  rewrite (done_run _ _ _ (coup_run P E g HG s2 Hf2)).
  split; [|transitivity (s_heap s2); [reflexivity|congruence]].
  split; [exact Hf2|]. split; [exact Hn2|]. intros _. discriminate.
Qed.

(** the example object, with the unit vector of dof (j, i, 0) as vector 0 *)
Definition ex0 (I : nat) : state := init_state false om1 (fun k => if Nat.eqb k 0 then unitv I else vzero) 5.
Lemma ex_apply q qs N jm wp c I : (q <= 3)%nat -> (qs <= 3)%nat -> (1 <= N)%nat -> construct (exP q qs N jm wp) = Ok c ->
  let E := exE exI c in
  env_ok E /\ reached E om1 (after E ready_calls (ex0 I)) /\ can_apply E (after E ready_calls (ex0 I))
  /\ s_heap (after E ready_calls (ex0 I)) 0%nat = unitv I.
Proof.
  intros Hq Hqs HN HC E. pose proof (construct_inv _ _ HC) as HB.
  split; [apply exE_ok, (bu_N _ _ HB)|]. split; [apply reached_after; exact (reached_init E false om1 _ 5)|].
  destruct (applicable _ E exG (ex0 I) (exE_good exI q qs N jm wp c HC)) as [H1 H2].
  split; [exact H1|]. rewrite H2. reflexivity.
Qed.
Example C20_nonvacuous : exists c s s', let E := exE exI c in
  construct (exP 2 1 3 false false) = Ok c /\ env_ok E /\ reached E om1 s
  /\ apply_spacetime_matrix E 0 1 s = (Ok tt, s') /\ s_heap s 0%nat 0%nat = 1.
Proof.
  destruct (exP_ok 2 1 3 false false) as [c HC]; try lia.
  destruct (ex_apply 2 1 3 false false c 0) as [HE [HR [HA H0]]]; try lia; [exact HC|].
  destruct (proj2 (C20_when _ om1 _ 0%nat 1%nat HE HR ltac:(lia)) HA) as [s' Hs].
  exists c. eexists. exists s'. cbv zeta. split; [exact HC|]. split; [exact HE|]. split; [exact HR|]. split; [exact Hs|].
  rewrite H0. reflexivity.
Qed.

(** C21 as stated is false: entries of the result are wrong by a fixed amount. *)
Lemma unit_at E j i l j' i' : env_ok E -> (j < 4)%nat -> (i < nc_full (e_c E) j)%nat -> (l < d_dim (e_D E) (spc j))%nat ->
  (j' < 4)%nat -> (i' < nc_full (e_c E) j')%nat -> forall l', (l' < d_dim (e_D E) (spc j'))%nat ->
  fldF E (unitv (dof (e_Lf E) j i l)) j' i' l' = if Nat.eqb j j' && Nat.eqb i i' then delta l l' else 0.
Proof.
  intros HE Hj Hi Hl Hj' Hi' l' Hl'. unfold fldF.
  rewrite (field_unit (e_D E) 4 (nc_full (e_c E)) (e_Lf E) j i l (eo_f _ HE) Hj Hi Hl j' i' l' Hj' Hi' Hl').
  unfold unit_field, delta. destruct (Nat.eqb j j'), (Nat.eqb i i'), (Nat.eqb l l'); reflexivity.
Qed.
Lemma ex_full c j : (1 <= c_N c)%nat -> (0 < nc_full c j)%nat.
Proof. unfold nc_full, ntime. nia. Qed.
Theorem C21_wellposed_refuted : exists P E s s' g I,
  p_wp P = true /\ p_jumps P = false /\ construct P = Ok (e_c E) /\ 0 < p_T P /\ env_ok E /\ reached E om1 s
  /\ apply_spacetime_matrix E 0 1 s = (Ok tt, s') /\ get_gammas (p_stab P) = Ok g /\ (I < dimF E)%nat
  /\ s_heap s 0%nat = unitv I
  /\ s_heap s' 1%nat I <= mult (dimF E) (matF E g om1 false) (s_heap s 0%nat) I - 1 / 4.
Proof.
  destruct (exP_ok 0 0 1 false true) as [c HC]; try lia. set (E := exE exI c). pose proof (construct_inv _ _ HC) as HB.
  assert (Hdt : 0 < c_dt c) by (apply (dt_pos _ _ HC); cbn; lra).
  set (I := dof (e_Lf E) 0 0 0).
  destruct (ex_apply 0 0 1 false true c I) as [HE [HR [HA H0]]]; try lia; [exact HC|]. fold E in HE, HR, HA, H0.
  destruct (proj2 (C20_when _ om1 _ 0%nat 1%nat HE HR ltac:(lia)) HA) as [s' Hs].
  set (s := after E ready_calls (ex0 I)) in *.
  exists (exP 0 0 1 false true), E, s, s', exG, I.
  split; [reflexivity|]. split; [reflexivity|]. split; [exact HC|]. split; [cbn; lra|]. split; [exact HE|].
  split; [exact HR|]. split; [exact Hs|]. split; [reflexivity|].
  pose proof (ex_full c 0 (bu_N _ _ HB)) as Hn.
  assert (HI : (I < dimF E)%nat).
  { unfold I, dimF. eapply dof_lt; [apply (eo_f _ HE)|lia|exact Hn|cbn; lia]. }
  split; [exact HI|]. split; [exact H0|].
  destruct (C21_difference (exP 0 0 1 false true) E om1 s s' 0%nat 1%nat HC ltac:(cbn; lra) HE HR ltac:(lia) Hs) as [g [Hg [H1 _]]].
  cbn in Hg. injection Hg as <-. fold exG in H1. rewrite (H1 I HI).
  assert (HX : forall l, (l < 3)%nat -> fldF E (unitv I) 0%nat 0%nat l = delta 0 l).
  { intros l Hl. unfold I. rewrite unit_at; auto; try lia; try (cbn; lia). }
  assert (ET : tiny_apply (exP 0 0 1 false true) (e_D E) (fldF E (s_heap s 0%nat)) (basF E I) = 0).
  { unfold tiny_apply. cbn [p_N exP seq]. rewrite Rsum_cons, Rsum_nil. cbn [Nat.ltb Nat.leb]. ring. }
  assert (EL : 1 / 4 <= left_out (exP 0 0 1 false true) (e_D E) exG (fldF E (s_heap s 0%nat)) (basF E I)).
  { unfold left_out. cbn [p_jumps p_wp exP]. rewrite H0. unfold basF, init, energy.
    replace (t_dt (tgrid (exP 0 0 1 false true))) with 1 by (cbn; lra).
    set (a := upper (tgrid (exP 0 0 1 false true)) (fldF E (unitv I)) 0 0).
    set (b := upper (tgrid (exP 0 0 1 false true)) (fldF E (unitv I)) 1 0).
    assert (Ha : forall l, (l < 3)%nat -> a l = delta 0 l).
    { intros l Hl. unfold a. rewrite <- (tgrid_td _ _ HC). rewrite (upper_p _ c HB Hdt) by lia. apply HX, Hl. }
    change (e_D E) with exI. rewrite (exI_mass a a), !Ha by lia. cbn [delta Nat.eqb].
    assert (0 <= FormSpec.H1 exI Vp Vp a a) by (apply sp_nonneg, (reg_one _ om1), exI_regular).
    assert (0 <= L2 exI Vp Vp b b) by (apply sp_nonneg, (reg_one _ om1), exI_regular).
    cbn [g_jump exG]. unfold delta. cbn [Nat.eqb]. lra. }
  rewrite ET. lra.
Qed.
Theorem C21_fwjumps_refuted : exists P E s s' g I,
  p_wp P = false /\ p_jumps P = true /\ construct P = Ok (e_c E) /\ 0 < p_T P /\ env_ok E /\ reached E om1 s
  /\ apply_spacetime_matrix E 0 1 s = (Ok tt, s') /\ get_gammas (p_stab P) = Ok g /\ (I < dimF E)%nat
  /\ s_heap s 0%nat = unitv I
  /\ s_heap s' 1%nat I = mult (dimF E) (matF E g om1 false) (s_heap s 0%nat) I + 1 / 8.
Proof.
  destruct (exP_ok 0 0 2 true false) as [c HC]; try lia. set (E := exE exI c). pose proof (construct_inv _ _ HC) as HB.
  assert (Hdt : 0 < c_dt c) by (apply (dt_pos _ _ HC); cbn; lra).
  set (I := dof (e_Lf E) 3 1 0).
  destruct (ex_apply 0 0 2 true false c I) as [HE [HR [HA H0]]]; try lia; [exact HC|]. fold E in HE, HR, HA, H0.
  destruct (proj2 (C20_when _ om1 _ 0%nat 1%nat HE HR ltac:(lia)) HA) as [s' Hs].
  set (s := after E ready_calls (ex0 I)) in *.
  exists (exP 0 0 2 true false), E, s, s', exG, I.
  split; [reflexivity|]. split; [reflexivity|]. split; [exact HC|]. split; [cbn; lra|]. split; [exact HE|].
  split; [exact HR|]. split; [exact Hs|]. split; [reflexivity|].
  assert (Q : c_q c = 0%nat /\ c_qs c = 0%nat /\ c_N c = 2%nat).
  { rewrite (bu_cq _ _ HB), (bu_cqs _ _ HB), (bu_NP _ _ HB). auto. }
  destruct Q as [Q1 [Q2 Q3]].
  assert (Hfull : forall j, nc_full c j = 2%nat).
  { intro j. unfold nc_full, ntime, sto. rewrite Q1, Q2, Q3. destruct (Nat.ltb j 2); reflexivity. }
  assert (HI : (I < dimF E)%nat).
  { unfold I, dimF. eapply dof_lt; [apply (eo_f _ HE)|lia|unfold E; cbn [e_c exE]; rewrite Hfull; lia|cbn; lia]. }
  split; [exact HI|]. split; [exact H0|].
  destruct (C21_difference (exP 0 0 2 true false) E om1 s s' 0%nat 1%nat HC ltac:(cbn; lra) HE HR ltac:(lia) Hs) as [g [Hg [H1 _]]].
  cbn in Hg. injection Hg as <-. fold exG in H1. rewrite (H1 I HI). rewrite H0. unfold basF.
  set (X := fldF E (unitv I)).
  assert (HX : forall j i l, (j < 4)%nat -> (i < 2)%nat -> (l < 3)%nat -> X j i l = if Nat.eqb 3 j && Nat.eqb 1 i then delta 0 l else 0).
  { intros j i l Hj Hi Hl. unfold X, I. apply unit_at; auto; try lia; unfold E; cbn [e_c e_D exE]; rewrite ?Hfull; try lia; cbn; lia. }
  assert (ET : tiny_apply (exP 0 0 2 true false) (e_D E) X X = 0).
  { unfold tiny_apply. cbn [p_N p_q p_qstar exP]. change (Z.to_nat (Z.of_nat 0)) with 0%nat. cbn [seq]. rewrite !Rsum_cons, Rsum_nil.
    cbn [Nat.ltb Nat.leb]. change (e_D E) with exI. rewrite !exI_mass, !HX by (cbn; lia). cbn [Nat.eqb andb Nat.mul Nat.add Nat.sub]. field. }
  assert (EL : left_out (exP 0 0 2 true false) (e_D E) exG X X = - (1 / 8)).
  { unfold left_out. cbn [p_jumps p_wp p_N p_qstar exP]. cbn [seq]. rewrite !Rsum_cons, Rsum_nil. cbn [Nat.ltb Nat.leb].
    unfold fwjumps, dualjumps. change (e_D E) with exI. rewrite !exI_mass.
    assert (HU : forall j l, (j < 4)%nat -> (l < 3)%nat -> upper (tgrid (exP 0 0 2 true false)) X j 1 l = if Nat.eqb 3 j then delta 0 l else 0).
    { intros j l Hj Hl. rewrite <- (tgrid_td _ _ HC). destruct (Nat.ltb_spec j 2).
      - rewrite (upper_p _ c HB Hdt) by lia. rewrite Q1. rewrite HX by lia. rewrite andb_true_r. reflexivity.
      - rewrite (upper_d _ c HB Hdt) by lia. rewrite Q2. rewrite HX by lia. rewrite andb_true_r. reflexivity. }
    assert (HJ : forall j l, (j < 2)%nat -> (l < 3)%nat -> jumpv (tgrid (exP 0 0 2 true false)) X j 1 l = 0).
    { intros j l Hj Hl. rewrite <- (tgrid_td _ _ HC), (jumpv_jmp _ c HB Hdt) by lia. unfold jmp, vsub, lastc.
      rewrite Q1. cbn [Nat.mul Nat.add Nat.sub]. rewrite !HX by lia. destruct j as [|[|j]]; [| |lia]; cbn; ring. }
    rewrite !HJ by lia. rewrite !HU by lia. cbn [Nat.eqb]. unfold delta. cbn [Nat.eqb].
    replace (t_dt (tgrid (exP 0 0 2 true false))) with (1 / 2) by (cbn; lra).
    cbn [g_dual exG]. destruct (Z.eqb (Z.of_nat 0) 0); decimals; lra. }
  rewrite ET, EL. lra.
Qed.

(** * C22 *)
Lemma eval_lin2 D nb nc f k1 X1 k2 X2 Y : wf_bform nb nc f = true ->
  eval D f (fun j i l => k1 * X1 j i l + k2 * X2 j i l) Y = k1 * eval D f X1 Y + k2 * eval D f X2 Y.
Proof.
  intro Hf.
  rewrite (eval_ext D nb nc f _ (fun j i l => Rsum [true; false] (fun a => (if a : bool then k1 else k2) * (if a then X1 else X2) j i l)) Y Y Hf).
  - etransitivity; [apply (eval_linX D f [true; false] (fun a : bool => if a then k1 else k2) (fun a => if a then X1 else X2) Y);
      apply (wf_bform_proper nb nc); exact Hf|].
    rewrite !Rsum_cons, Rsum_nil. ring.
  - intros j i l _ _ _. rewrite !Rsum_cons, Rsum_nil. ring.
  - apply feq_refl.
Qed.
Lemma applyF_lin E g gj om k1 x1 k2 x2 x Y : env_ok E ->
  (forall I, (I < dimF E)%nat -> x I = k1 * x1 I + k2 * x2 I) ->
  applyF E g gj om (fldF E x) Y = k1 * applyF E g gj om (fldF E x1) Y + k2 * applyF E g gj om (fldF E x2) Y.
Proof.
  intros HE Hx. unfold applyF. rewrite <- !Rsum_scal, <- Rsum_plus. apply Rsum_ext_in; intros n Hn. apply in_seq in Hn.
  assert (Hn' : (n < c_N (e_c E))%nat) by lia. rewrite !Rmult_plus_distr_l.
  assert (HF : forall j i l, (j < 4)%nat -> (i < nc_full (e_c E) j)%nat -> (l < d_dim (e_D E) (spc j))%nat ->
    fldF E x j i l = k1 * fldF E x1 j i l + k2 * fldF E x2 j i l).
  { intros j i l Hj Hi Hl. apply Hx. eapply dof_lt; [apply (eo_f _ HE)|..]; assumption. }
  assert (A1 : aS E g om n (fldF E x) Y = k1 * aS E g om n (fldF E x1) Y + k2 * aS E g om n (fldF E x2) Y).
  { unfold aS. rewrite <- (eval_lin2 _ 4 (nc_pre (e_c E))) by apply wf_slab.
    apply (eval_ext (e_D E) 4 (nc_pre (e_c E))); [apply wf_slab| |apply feq_refl].
    intros j i l Hj Hi Hl. rewrite !restr_at. apply HF; auto.
    exact (up_slab_lt (e_c E) n j i Hn' (proj2 (in_slab_idx (e_c E) j i) (conj Hj Hi))). }
  assert (A2 : aC E gj n (fldF E x) Y = k1 * aC E gj n (fldF E x1) Y + k2 * aC E gj n (fldF E x2) Y).
  { unfold aC. destruct (Nat.ltb_spec 0 n); [|ring]. rewrite <- (eval_lin2 _ 2 nc_coup) by apply wf_coup.
    apply (eval_ext (e_D E) 2 nc_coup); [apply wf_coup| |apply feq_refl].
    intros j i l Hj Hi Hl. unfold pull. apply HF; auto; apply up_coup_lt; auto; apply in_coup_idx; auto. }
  rewrite A1, A2. ring.
Qed.
Lemma apply_result E om s s' vi vo : env_ok E -> reached E om s -> vi <> vo -> apply_spacetime_matrix E vi vo s = (Ok tt, s') ->
  exists g, get_gammas (c_stab (e_c E)) = Ok g /\
  (forall I, (I < dimF E)%nat -> s_heap s' vo I = applyF E g (g_jump g) om (fldF E (s_heap s vi)) (basF E I))
  /\ forall k, k <> vo -> s_heap s' k = s_heap s k.
Proof.
  intros HE HR Hv Hrun. pose proof (reached_wf _ _ _ HR) as HW.
  destruct (wf_ready E om s HW (apply_ok_can E HE om s vi vo s' HW Hrun)) as [g [Hg Hr]].
  exists g. split; [exact Hg|]. destruct (apply_run E HE g (g_jump g) om vi vo s Hv Hr) as [s1 [E1 [_ [_ [H1 H2]]]]].
  rewrite E1 in Hrun. injection Hrun as <-. split; [exact H2|exact H1].
Qed.
(** Three products, computed after any three histories of the object (or in the
    course of one), in any vectors. *)
Theorem C22_pure_linear : forall E om s1 s2 s3 s1' s2' s3' i1 o1 i2 o2 i3 o3 k1 k2, env_ok E ->
  reached E om s1 -> reached E om s2 -> reached E om s3 -> i1 <> o1 -> i2 <> o2 -> i3 <> o3 ->
  apply_spacetime_matrix E i1 o1 s1 = (Ok tt, s1') ->
  apply_spacetime_matrix E i2 o2 s2 = (Ok tt, s2') ->
  apply_spacetime_matrix E i3 o3 s3 = (Ok tt, s3') ->
  (forall I, (I < dimF E)%nat -> s_heap s3 i3 I = k1 * s_heap s1 i1 I + k2 * s_heap s2 i2 I) ->
  (forall I, (I < dimF E)%nat -> s_heap s3' o3 I = k1 * s_heap s1' o1 I + k2 * s_heap s2' o2 I)
  /\ forall k, k <> o1 -> s_heap s1' k = s_heap s1 k.
Proof.
  intros E om s1 s2 s3 s1' s2' s3' i1 o1 i2 o2 i3 o3 k1 k2 HE R1 R2 R3 V1 V2 V3 A1 A2 A3 Hx.
  destruct (apply_result E om _ _ _ _ HE R1 V1 A1) as [g [Hg [B1 C1]]].
  destruct (apply_result E om _ _ _ _ HE R2 V2 A2) as [g2 [Hg2 [B2 _]]].
  destruct (apply_result E om _ _ _ _ HE R3 V3 A3) as [g3 [Hg3 [B3 _]]].
  assert (g2 = g) by congruence. assert (g3 = g) by congruence. subst g2 g3.
  split; [|exact C1]. intros I HI. rewrite B1, B2, B3 by exact HI. apply applyF_lin; assumption.
Qed.
(** equal inputs give equal results, whatever was done before *)
Corollary C22_deterministic : forall E om s1 s2 s1' s2' i1 o1 i2 o2, env_ok E ->
  reached E om s1 -> reached E om s2 -> i1 <> o1 -> i2 <> o2 ->
  apply_spacetime_matrix E i1 o1 s1 = (Ok tt, s1') -> apply_spacetime_matrix E i2 o2 s2 = (Ok tt, s2') ->
  (forall I, (I < dimF E)%nat -> s_heap s1 i1 I = s_heap s2 i2 I) ->
  forall I, (I < dimF E)%nat -> s_heap s1' o1 I = s_heap s2' o2 I.
Proof.
  intros E om s1 s2 s1' s2' i1 o1 i2 o2 HE R1 R2 V1 V2 A1 A2 Hx I HI.
  destruct (C22_pure_linear E om s1 s1 s2 s1' s1' s2' i1 o1 i1 o1 i2 o2 1 0 HE R1 R1 R2 V1 V1 V2 A1 A1 A2) as [H _].
  - intros J HJ. rewrite Hx by exact HJ. ring.
  - rewrite (H I HI). ring.
Qed.

(** * C23 *)
Theorem C23_aliased_product_is_zero : forall E om s v, env_ok E -> reached E om s ->
  (s_fes s = true /\ s_njm s <> None /\ ((1 < c_N (e_c E))%nat -> s_com s <> None)) ->
  exists s', apply_spacetime_matrix E v v s = (Ok tt, s') /\ (forall I, (I < dimF E)%nat -> s_heap s' v I = 0)
    /\ forall k, k <> v -> s_heap s' k = s_heap s k.
Proof.
  intros E om s v HE HR HA. destruct (wf_ready E om s (reached_wf _ _ _ HR) HA) as [g [_ Hr]].
  exact (alias_run E HE om g (g_jump g) v s Hr).
Qed.
Theorem C23_aliasing_refuted : exists P E s s' g I,
  p_wp P = false /\ p_jumps P = false /\ construct P = Ok (e_c E) /\ 0 < p_T P /\ env_ok E /\ reached E om1 s
  /\ apply_spacetime_matrix E 0 0 s = (Ok tt, s') /\ get_gammas (p_stab P) = Ok g /\ (I < dimF E)%nat
  /\ s_heap s' 0%nat I = 0 /\ 1 / 4 <= mult (dimF E) (matF E g om1 false) (s_heap s 0%nat) I.
Proof.
  destruct (exP_ok 0 0 1 false false) as [c HC]; try lia. set (E := exE exI c). pose proof (construct_inv _ _ HC) as HB.
  set (I := dof (e_Lf E) 0 0 0).
  destruct (ex_apply 0 0 1 false false c I) as [HE [HR [HA H0]]]; try lia; [exact HC|]. fold E in HE, HR, HA, H0.
  destruct (C23_aliased_product_is_zero E om1 _ 0%nat HE HR HA) as [s' [Hs [Hz _]]].
  set (s := after E ready_calls (ex0 I)) in *.
  exists (exP 0 0 1 false false), E, s, s', exG, I.
  split; [reflexivity|]. split; [reflexivity|]. split; [exact HC|]. split; [cbn; lra|]. split; [exact HE|].
  split; [exact HR|]. split; [exact Hs|]. split; [reflexivity|].
  pose proof (ex_full c 0 (bu_N _ _ HB)) as Hn.
  assert (HI : (I < dimF E)%nat).
  { unfold I, dimF. eapply dof_lt; [apply (eo_f _ HE)|lia|exact Hn|cbn; lia]. }
  split; [exact HI|]. split; [apply Hz; exact HI|].
  unfold matF, st_matrix, dimF.
  rewrite (mult_assemble (e_D E) 4 (nc_full (e_c E)) (e_Lf E)) by (try apply (eo_f _ HE); apply wf_st; apply (eo_N _ HE)).
  rewrite H0. fold (fldF E (unitv I)). set (X := fldF E (unitv I)).
  pose proof (applyF_spec E HE exG 1 om1 X X eq_refl) as HS.
  rewrite (missing_default E exG X X (bu_jumps _ _ HB) (bu_wp _ _ HB)) in HS.
  assert (HN : c_N c = 1%nat) by (rewrite (bu_NP _ _ HB); reflexivity).
  assert (HX : forall j l, (j < 4)%nat -> (l < 3)%nat -> X j 0%nat l = if Nat.eqb 0 j then delta 0 l else 0).
  { intros j l Hj Hl. unfold X, I. rewrite unit_at; auto; try lia; try (cbn; lia); try apply (ex_full c j (bu_N _ _ HB)).
    rewrite andb_true_r. reflexivity. }
  assert (EA : 1 / 4 <= applyF E exG 1 om1 X X).
  { unfold applyF. cbn [e_c exE E]. change (e_c E) with c. rewrite HN. cbn [seq]. rewrite Rsum_cons, Rsum_nil.
    unfold aC. cbn [Nat.ltb Nat.leb]. unfold aS. change (e_D E) with exI. change (e_c E) with c.
    pose proof (x_slab 1 c HC false (restr (ntime c) 0 X)) as HL.
    rewrite (eval_ext exI 4 (nc_pre c) _ _ (restr (ntime c) 0 X) (flip (restr (ntime c) 0 X)) (restr (ntime c) 0 X)) in HL.
    2: apply wf_slab. 2: apply feq_refl.
    2:{ destruct (x_q 1 c HC) as [Q1 Q2]. intros j i l Hj Hi Hl. unfold flip. rewrite !restr_at. cbn [Nat.mul Nat.add].
        assert (i = 0%nat) as -> by (unfold nc_pre, ntime, sto in Hi; rewrite Q1, Q2 in Hi; destruct (Nat.ltb j 2); lia).
        cbn in Hl. rewrite HX by assumption. destruct j as [|[|[|[|j]]]]; cbn; try ring; try lia. }
    rewrite !exI_mass, !restr_at in HL. cbn [Nat.mul Nat.add] in HL. rewrite !HX in HL by lia. cbn [Nat.eqb] in HL. unfold delta in HL.
    cbn [Nat.eqb] in HL. assert (Ed : c_dt c = 1) by (rewrite (bu_dt _ _ HB); cbn; lra). rewrite Ed in HL. decimals. lra. }
  assert (ER : reg_rest E X X = 0).
  { unfold reg_rest. change (e_c E) with c. rewrite HN. cbn [seq]. rewrite Rsum_cons, Rsum_nil. cbn [Nat.ltb Nat.leb]. ring. }
  rewrite ER in HS. unfold X in *. change (basF E I) with (fldF E (unitv I)). change (e_c E) with c in HS |- *. 
  unfold fldF in *. lra.
Qed.

(** * C24, C25: time marching with exact slab solvers *)
(** the 1e-20 terms of the slab matrices 1, 2, ... *)
Definition tiny_march (P : params) (D : disc) (X Y : field) : R :=
  let q1 := S (Z.to_nat (p_q P)) in let qs1 := S (Z.to_nat (p_qstar P)) in
  sumn (p_N P) (fun n => if Nat.ltb 0 n then L2 D Vp Vd (X 0%nat (n * q1)%nat) (Y 2%nat (n * qs1)%nat) else 0).
(** the 1e-20 terms of the slab right-hand sides: integrals of the first dual
    component at the start of the slabs *)
Definition tiny_rhs (P : params) (D : disc) (Y : field) : R :=
  let qs1 := S (Z.to_nat (p_qstar P)) in
  sumn (p_N P) (fun n => integ D Dx WOne 1 one_f (fev D Dx Vd Val (Y 2%nat (n * qs1)%nat))).

(** slab matrices set up, slab solvers set *)
Definition can_march (S0 S1 : solver) (s : state) : Prop :=
  s_fim s <> None /\ s_slm s <> None /\ s_sfi s = Some S0 /\ s_ssl s = Some S1.
(** in addition, what prepare_precondition_gmres provides *)
Definition can_improve (S0 S1 : solver) (s : state) : Prop :=
  can_march S0 S1 s /\ s_mam s <> None /\ s_brp s <> None.
(** S0 and S1 solve with the object's first slab matrix and slab matrix *)
Definition exact_solvers (E : env) (s : state) (S0 S1 : solver) : Prop :=
  (forall A, s_fim s = Some A -> exact (lay_dim (e_Lp E)) A S0) /\
  (forall A, s_slm s = Some A -> exact (lay_dim (e_Lp E)) A S1).

Lemma tiny_march_slabs P E X Y : construct P = Ok (e_c E) -> reg_slabs E X Y = tiny_march P (e_D E) X Y.
Proof.
  intro HC. pose proof (construct_inv _ _ HC) as HB. unfold reg_slabs, tiny_march.
  rewrite (bu_NP _ _ HB), (bu_cq _ _ HB), (bu_cqs _ _ HB). reflexivity.
Qed.
Lemma tiny_rhs_ones P E Y : construct P = Ok (e_c E) -> reg_ones E Y = tiny_rhs P (e_D E) Y.
Proof.
  intro HC. pose proof (construct_inv _ _ HC) as HB. unfold reg_ones, tiny_rhs, ones.
  rewrite (bu_NP _ _ HB). apply Rsum_ext; intro n. rewrite restr_at, Nat.add_0_r.
  replace (ntime (e_c E) 2) with (S (Z.to_nat (p_qstar P))) by (rewrite <- (bu_cqs _ _ HB); reflexivity). reflexivity.
Qed.
Lemma mat_eval E g om precond x I : env_ok E -> (I < dimF E)%nat ->
  mult (dimF E) (matF E g om precond) x I = eval (e_D E) (st_form (e_c E) g om precond) (fldF E x) (basF E I).
Proof.
  intros HE HI. unfold matF, st_matrix, dimF, basF, fldF.
  apply (mult_assemble (e_D E) 4 (nc_full (e_c E)) (e_Lf E)); [apply (eo_f _ HE)|apply wf_st, (eo_N _ HE)].
Qed.

Theorem C24_time_marching : forall P E om s S0 S1 b x,
  construct P = Ok (e_c E) -> 0 < p_T P -> env_ok E -> p_jumps P = false -> reached E om s ->
  can_march S0 S1 s -> exact_solvers E s S0 S1 ->
  let out := pre_time_marching E b x s in
  (forall k, k <> x -> s_heap (snd out) k = s_heap s k) /\
  match fst out with
  | Ok _ => exists g, get_gammas (p_stab P) = Ok g /\ forall I, (I < dimF E)%nat ->
      let X := fldF E (s_heap (snd out) x) in
      mult (dimF E) (matF E g om true) (s_heap (snd out) x) I + 1e-20 * tiny_march P (e_D E) X (basF E I)
      = s_heap s b I + 1e-20 * tiny_rhs P (e_D E) (basF E I)
  | Err e => exists r w, S0 r w = Err e \/ S1 r w = Err e
  end.
Proof.
  intros P E om s S0 S1 b x HC HT HE Hj HR [HA0 [HA1 [HS0 HS1]]] [X0 X1] out. pose proof (construct_inv _ _ HC) as HB.
  pose proof (reached_wf _ _ _ HR) as HW. pose proof (dt_pos _ _ HC HT) as Hdt.
  destruct (s_fim s) as [A0|] eqn:E0; [|congruence]. destruct (s_slm s) as [A1|] eqn:E1; [|congruence].
  destruct (wf_slab_mats E om s A0 A1 HW E0 E1) as [Hf [g [Hg [M0 M1]]]].
  pose proof (sol_exact E om S0 S1 g A0 A1 M0 M1 (X0 _ eq_refl) (X1 _ eq_refl)) as Hsol.
  pose proof (pre_outcome E HE om S0 S1 (sol_eq E g om) s b x g A0 A1 HW E0 E1 HS0 HS1 ltac:(lra) Hg Hsol) as [H1 H2].
  split; [exact H1|]. fold out in H1, H2. destruct (fst out); [|exact H2].
  exists g. split; [rewrite <- (bu_stab _ _ HB); exact Hg|]. intros I HI X.
  pose proof (march_solves E HE g om (carryP (e_c E) (e_D E) (g_jump g)) (carryP_ext _ _ _) (carryP_zero _ _ _) _ _ H2 I HI) as H3.
  assert (Hj' : c_jumps (e_c E) = false) by (rewrite (bu_jumps _ _ HB); exact Hj).
  rewrite (marchF_P E HE g om Hj') in H3.
  rewrite (tiny_march_slabs P E _ _ HC), (tiny_rhs_ones P E _ HC) in H3.
  rewrite mat_eval by assumption. unfold X, basF, fldF in *. unfold reg in H3. lra.
Qed.
Theorem C25_improved_time_marching : forall P E om s S0 S1 b x,
  construct P = Ok (e_c E) -> 0 < p_T P -> env_ok E -> p_jumps P = false -> reached E om s ->
  can_improve S0 S1 s -> exact_solvers E s S0 S1 ->
  let out := pre_time_marching_improved E b x s in
  (forall k, k <> x -> s_heap (snd out) k = s_heap s k) /\
  match fst out with
  | Ok _ => exists g, get_gammas (p_stab P) = Ok g /\ forall I, (I < dimF E)%nat ->
      let X := fldF E (s_heap (snd out) x) in
      mult (dimF E) (matF E g om true) (s_heap (snd out) x) I + 1e-20 * tiny_march P (e_D E) X (basF E I)
      = s_heap s b I
  | Err e => exists r w, S0 r w = Err e \/ S1 r w = Err e
  end.
Proof.
  intros P E om s S0 S1 b x HC HT HE Hj HR [[HA0 [HA1 [HS0 HS1]]] [Hm Hb]] [X0 X1] out. pose proof (construct_inv _ _ HC) as HB.
  pose proof (reached_wf _ _ _ HR) as HW.
  destruct (s_fim s) as [A0|] eqn:E0; [|congruence]. destruct (s_slm s) as [A1|] eqn:E1; [|congruence].
  destruct (wf_slab_mats E om s A0 A1 HW E0 E1) as [Hf [g [Hg [M0 M1]]]].
  pose proof (sol_exact E om S0 S1 g A0 A1 M0 M1 (X0 _ eq_refl) (X1 _ eq_refl)) as Hsol.
  assert (Hj' : c_jumps (e_c E) = false) by (rewrite (bu_jumps _ _ HB); exact Hj).
  pose proof (improved_outcome E HE om S0 S1 (sol_eq E g om) s b x g A0 A1 HW E0 E1 HS0 HS1 Hj' Hm Hb Hg Hsol) as [H1 H2].
  split; [exact H1|]. fold out in H1, H2. destruct (fst out); [|exact H2].
  exists g. split; [rewrite <- (bu_stab _ _ HB); exact Hg|]. intros I HI X.
  pose proof (march_solves E HE g om (carryI (e_c E) (e_D E) (g_jump g)) (carryI_ext _ _ _) (carryI_zero _ _ _) _ _ H2 I HI) as H3.
  rewrite (marchF_I E HE g om Hj') in H3. rewrite (tiny_march_slabs P E _ _ HC) in H3.
  rewrite mat_eval by assumption. unfold X, basF, fldF in *. unfold reg in H3. lra.
Qed.

(** * C25 (second part), C26, C27, C29: solvers that compute a function *)
(** S computes the function F of the entries of its right-hand side *)
Definition computes (E : env) (S : solver) (F : vec -> vec) : Prop :=
  (forall r w, S r w = Ok (F r)) /\
  forall r r', veq (lay_dim (e_Lp E)) r r' -> veq (lay_dim (e_Lp E)) (F r) (F r').
Definition F01 (F0 F1 : vec -> vec) (n : nat) : vec -> vec := if Nat.eqb n 0 then F0 else F1.
Lemma F01_ext E S0 S1 F0 F1 : computes E S0 F0 -> computes E S1 F1 ->
  forall n r r', veq (lay_dim (e_Lp E)) r r' -> veq (lay_dim (e_Lp E)) (F01 F0 F1 n r) (F01 F0 F1 n r').
Proof. intros [_ H0] [_ H1] n r r' H. unfold F01. destruct (Nat.eqb n 0); auto. Qed.
Lemma computes_sol E S0 S1 F0 F1 : computes E S0 F0 -> computes E S1 F1 ->
  forall n r w u, Sn S0 S1 n r w = Ok u -> sol_fun E (F01 F0 F1) n r u.
Proof.
  intros [H0 _] [H1 _] n r w u Hu. unfold Sn in Hu. unfold sol_fun, F01. destruct (Nat.eqb n 0).
  - rewrite H0 in Hu. injection Hu as <-. intros l _. reflexivity.
  - rewrite H1 in Hu. injection Hu as <-. intros l _. reflexivity.
Qed.
Lemma pre_fun P E om s S0 S1 F0 F1 b x : construct P = Ok (e_c E) -> 0 < p_T P -> env_ok E -> reached E om s ->
  can_march S0 S1 s -> computes E S0 F0 -> computes E S1 F1 ->
  exists s' g, get_gammas (c_stab (e_c E)) = Ok g /\ pre_time_marching E b x s = (Ok tt, s') /\ (forall k, k <> x -> s_heap s' k = s_heap s k)
    /\ forall n, (n < c_N (e_c E))%nat ->
       slab_done E (sol_fun E (F01 F0 F1)) (carryP (e_c E) (e_D E) (g_jump g)) (s_heap s b) n (fldF E (s_heap s' x)).
Proof.
  intros HC HT HE HR [HA0 [HA1 [HS0 HS1]]] C0 C1. pose proof (reached_wf _ _ _ HR) as HW. pose proof (dt_pos _ _ HC HT) as Hdt.
  destruct (s_fim s) as [A0|] eqn:E0; [|congruence]. destruct (s_slm s) as [A1|] eqn:E1; [|congruence].
  destruct (wf_slab_mats E om s A0 A1 HW E0 E1) as [Hf [g [Hg _]]].
  pose proof (pre_outcome E HE om S0 S1 _ s b x g A0 A1 HW E0 E1 HS0 HS1 ltac:(lra) Hg (computes_sol E S0 S1 F0 F1 C0 C1)) as [H1 H2].
  destruct (pre_time_marching E b x s) as [[[]|e] s']; cbn [fst snd] in *.
  - exists s', g. split; [exact Hg|]. split; [reflexivity|]. split; [exact H1|exact H2].
  - destruct H2 as [r [w [H|H]]]; [rewrite (proj1 C0) in H|rewrite (proj1 C1) in H]; discriminate.
Qed.
Lemma improved_fun P E om s S0 S1 F0 F1 b x : construct P = Ok (e_c E) -> env_ok E -> p_jumps P = false -> reached E om s ->
  can_improve S0 S1 s -> computes E S0 F0 -> computes E S1 F1 ->
  exists s' g, get_gammas (c_stab (e_c E)) = Ok g /\ pre_time_marching_improved E b x s = (Ok tt, s') /\ (forall k, k <> x -> s_heap s' k = s_heap s k)
    /\ forall n, (n < c_N (e_c E))%nat ->
       slab_done E (sol_fun E (F01 F0 F1)) (carryI (e_c E) (e_D E) (g_jump g)) (s_heap s b) n (fldF E (s_heap s' x)).
Proof.
  intros HC HE Hj HR [[HA0 [HA1 [HS0 HS1]]] [Hm Hb]] C0 C1. pose proof (reached_wf _ _ _ HR) as HW. pose proof (construct_inv _ _ HC) as HB.
  destruct (s_fim s) as [A0|] eqn:E0; [|congruence]. destruct (s_slm s) as [A1|] eqn:E1; [|congruence].
  destruct (wf_slab_mats E om s A0 A1 HW E0 E1) as [Hf [g [Hg _]]].
  assert (Hj' : c_jumps (e_c E) = false) by (rewrite (bu_jumps _ _ HB); exact Hj).
  pose proof (improved_outcome E HE om S0 S1 _ s b x g A0 A1 HW E0 E1 HS0 HS1 Hj' Hm Hb Hg (computes_sol E S0 S1 F0 F1 C0 C1)) as [H1 H2].
  destruct (pre_time_marching_improved E b x s) as [[[]|e] s']; cbn [fst snd] in *.
  - exists s', g. split; [exact Hg|]. split; [reflexivity|]. split; [exact H1|exact H2].
  - destruct H2 as [r [w [H|H]]]; [rewrite (proj1 C0) in H|rewrite (proj1 C1) in H]; discriminate.
Qed.

(** the vectors agree on the slabs 0, ..., n-1: all components at all time
    indices of these slabs *)
Definition agree_upto (E : env) (n : nat) (x x' : vec) : Prop :=
  forall j i l, (j < 4)%nat -> (i < n * ntime (e_c E) j)%nat -> (l < d_dim (e_D E) (spc j))%nat ->
  fldF E x j i l = fldF E x' j i l.
Lemma agree_slabs E n x x' : agree_upto E n x x' <-> forall m, (m < n)%nat -> same_slab E m (fldF E x) (fldF E x').
Proof.
  split.
  - intros H m Hm j i l Hj Hi Hl. apply H; auto. unfold nc_pre in Hi. nia.
  - intros H j k l Hj Hk Hl. pose proof (ntime_pos E j) as Hp.
    assert (Hm : (k / ntime (e_c E) j < n)%nat) by (apply Nat.div_lt_upper_bound; [lia|nia]).
    pose proof (H _ Hm j (k mod ntime (e_c E) j)%nat l Hj) as G. unfold nc_pre in G.
    specialize (G ltac:(apply Nat.mod_upper_bound; lia) Hl).
    replace (k / ntime (e_c E) j * ntime (e_c E) j + k mod ntime (e_c E) j)%nat with k in G; [exact G|].
    rewrite (Nat.div_mod k (ntime (e_c E) j)) at 1; lia.
Qed.
Lemma agree_all E x x' : env_ok E -> (agree_upto E (c_N (e_c E)) x x' <-> forall I, (I < dimF E)%nat -> x I = x' I).
Proof.
  intro HE. rewrite agree_slabs. split.
  - intro H. apply (same_all E HE). exact H.
  - intro H. apply (all_same E HE). exact H.
Qed.

(** C29; with n = N: equal right-hand sides give equal results, whatever was done
    before, and also in place (C27) *)
Theorem C29_causal : forall P E om s1 s2 S0 S1 F0 F1 b1 x1 b2 x2 n,
  construct P = Ok (e_c E) -> 0 < p_T P -> env_ok E -> reached E om s1 -> reached E om s2 ->
  can_march S0 S1 s1 -> can_march S0 S1 s2 -> computes E S0 F0 -> computes E S1 F1 ->
  (n <= p_N P)%nat -> agree_upto E n (s_heap s1 b1) (s_heap s2 b2) ->
  exists s1' s2', pre_time_marching E b1 x1 s1 = (Ok tt, s1') /\ pre_time_marching E b2 x2 s2 = (Ok tt, s2')
    /\ agree_upto E n (s_heap s1' x1) (s_heap s2' x2).
Proof.
  intros P E om s1 s2 S0 S1 F0 F1 b1 x1 b2 x2 n HC HT HE R1 R2 M1 M2 C0 C1 Hn Hb. pose proof (construct_inv _ _ HC) as HB.
  destruct (pre_fun P E om s1 S0 S1 F0 F1 b1 x1 HC HT HE R1 M1 C0 C1) as [s1' [g [Hg [E1 [_ D1]]]]].
  destruct (pre_fun P E om s2 S0 S1 F0 F1 b2 x2 HC HT HE R2 M2 C0 C1) as [s2' [g' [Hg' [E2 [_ D2]]]]].
  assert (g' = g) by congruence. subst g'. exists s1', s2'. split; [exact E1|]. split; [exact E2|].
  rewrite agree_slabs in Hb |- *. rewrite <- (bu_NP _ _ HB) in Hn.
  apply (march_unique E HE (F01 F0 F1) (F01_ext E S0 S1 F0 F1 C0 C1) (carryP (e_c E) (e_D E) (g_jump g))
    (carryP_ext _ _ _) (carryP_first _ _ _) n (s_heap s1 b1) (s_heap s2 b2)); [exact Hb| |]; intros m Hm.
  - apply D1; lia.
  - apply D2; lia.
Qed.
Theorem C29_causal_improved : forall P E om s1 s2 S0 S1 F0 F1 b1 x1 b2 x2 n,
  construct P = Ok (e_c E) -> env_ok E -> p_jumps P = false -> reached E om s1 -> reached E om s2 ->
  can_improve S0 S1 s1 -> can_improve S0 S1 s2 -> computes E S0 F0 -> computes E S1 F1 ->
  (n <= p_N P)%nat -> agree_upto E n (s_heap s1 b1) (s_heap s2 b2) ->
  exists s1' s2', pre_time_marching_improved E b1 x1 s1 = (Ok tt, s1') /\ pre_time_marching_improved E b2 x2 s2 = (Ok tt, s2')
    /\ agree_upto E n (s_heap s1' x1) (s_heap s2' x2).
Proof.
  intros P E om s1 s2 S0 S1 F0 F1 b1 x1 b2 x2 n HC HE Hj R1 R2 M1 M2 C0 C1 Hn Hb. pose proof (construct_inv _ _ HC) as HB.
  destruct (improved_fun P E om s1 S0 S1 F0 F1 b1 x1 HC HE Hj R1 M1 C0 C1) as [s1' [g [Hg [E1 [_ D1]]]]].
  destruct (improved_fun P E om s2 S0 S1 F0 F1 b2 x2 HC HE Hj R2 M2 C0 C1) as [s2' [g' [Hg' [E2 [_ D2]]]]].
  assert (g' = g) by congruence. subst g'. exists s1', s2'. split; [exact E1|]. split; [exact E2|].
  rewrite agree_slabs in Hb |- *. rewrite <- (bu_NP _ _ HB) in Hn.
  apply (march_unique E HE (F01 F0 F1) (F01_ext E S0 S1 F0 F1 C0 C1) (carryI (e_c E) (e_D E) (g_jump g))
    (carryI_ext _ _ _) (carryI_first _ _ _) n (s_heap s1 b1) (s_heap s2 b2)); [exact Hb| |]; intros m Hm.
  - apply D1; lia.
  - apply D2; lia.
Qed.

(** C27.  v holds in s1 what b holds in s2: in place and with distinct vectors the
    results are the same. *)
Theorem C27_in_place : forall P E om s1 s2 S0 S1 F0 F1 v b x,
  construct P = Ok (e_c E) -> 0 < p_T P -> env_ok E -> reached E om s1 -> reached E om s2 ->
  can_march S0 S1 s1 -> can_march S0 S1 s2 -> computes E S0 F0 -> computes E S1 F1 -> b <> x ->
  (forall I, (I < dimF E)%nat -> s_heap s1 v I = s_heap s2 b I) ->
  exists s1' s2', pre_time_marching E v v s1 = (Ok tt, s1') /\ pre_time_marching E b x s2 = (Ok tt, s2')
    /\ (forall I, (I < dimF E)%nat -> s_heap s1' v I = s_heap s2' x I) /\ s_heap s2' b = s_heap s2 b.
Proof.
  intros P E om s1 s2 S0 S1 F0 F1 v b x HC HT HE R1 R2 M1 M2 C0 C1 Hne Hb. pose proof (construct_inv _ _ HC) as HB.
  destruct (C29_causal P E om s1 s2 S0 S1 F0 F1 v v b x (p_N P) HC HT HE R1 R2 M1 M2 C0 C1 (le_n _)) as [s1' [s2' [E1 [E2 H]]]].
  - rewrite <- (bu_NP _ _ HB). apply agree_all; assumption.
  - exists s1', s2'. split; [exact E1|]. split; [exact E2|]. rewrite <- (bu_NP _ _ HB) in H.
    split; [apply agree_all; assumption|].
    destruct (pre_fun P E om s2 S0 S1 F0 F1 b x HC HT HE R2 M2 C0 C1) as [s3 [g [_ [E3 [H3 _]]]]].
    rewrite E2 in E3. injection E3 as <-. apply H3. exact Hne.
Qed.
Theorem C27_in_place_improved : forall P E om s1 s2 S0 S1 F0 F1 v b x,
  construct P = Ok (e_c E) -> env_ok E -> p_jumps P = false -> reached E om s1 -> reached E om s2 ->
  can_improve S0 S1 s1 -> can_improve S0 S1 s2 -> computes E S0 F0 -> computes E S1 F1 -> b <> x ->
  (forall I, (I < dimF E)%nat -> s_heap s1 v I = s_heap s2 b I) ->
  exists s1' s2', pre_time_marching_improved E v v s1 = (Ok tt, s1') /\ pre_time_marching_improved E b x s2 = (Ok tt, s2')
    /\ (forall I, (I < dimF E)%nat -> s_heap s1' v I = s_heap s2' x I) /\ s_heap s2' b = s_heap s2 b.
Proof.
  intros P E om s1 s2 S0 S1 F0 F1 v b x HC HE Hj R1 R2 M1 M2 C0 C1 Hne Hb. pose proof (construct_inv _ _ HC) as HB.
  destruct (C29_causal_improved P E om s1 s2 S0 S1 F0 F1 v v b x (p_N P) HC HE Hj R1 R2 M1 M2 C0 C1 (le_n _)) as [s1' [s2' [E1 [E2 H]]]].
  - rewrite <- (bu_NP _ _ HB). apply agree_all; assumption.
  - exists s1', s2'. split; [exact E1|]. split; [exact E2|]. rewrite <- (bu_NP _ _ HB) in H.
    split; [apply agree_all; assumption|].
    destruct (improved_fun P E om s2 S0 S1 F0 F1 b x HC HE Hj R2 M2 C0 C1) as [s3 [g [_ [E3 [H3 _]]]]].
    rewrite E2 in E3. injection E3 as <-. apply H3. exact Hne.
Qed.

(** C26: a fixed linear operator, over any three applications *)
Definition linear_on (E : env) (F : vec -> vec) : Prop :=
  forall k1 r1 k2 r2, veq (lay_dim (e_Lp E)) (F (vlin k1 r1 k2 r2)) (vlin k1 (F r1) k2 (F r2)).
Theorem C26_linear_operator : forall P E om s1 s2 s3 S0 S1 F0 F1 b1 x1 b2 x2 b3 x3 k1 k2,
  construct P = Ok (e_c E) -> env_ok E -> p_jumps P = false ->
  reached E om s1 -> reached E om s2 -> reached E om s3 ->
  can_improve S0 S1 s1 -> can_improve S0 S1 s2 -> can_improve S0 S1 s3 ->
  computes E S0 F0 -> computes E S1 F1 -> linear_on E F0 -> linear_on E F1 ->
  (forall I, (I < dimF E)%nat -> s_heap s3 b3 I = k1 * s_heap s1 b1 I + k2 * s_heap s2 b2 I) ->
  exists s1' s2' s3',
    pre_time_marching_improved E b1 x1 s1 = (Ok tt, s1') /\ pre_time_marching_improved E b2 x2 s2 = (Ok tt, s2') /\
    pre_time_marching_improved E b3 x3 s3 = (Ok tt, s3') /\
    (forall I, (I < dimF E)%nat -> s_heap s3' x3 I = k1 * s_heap s1' x1 I + k2 * s_heap s2' x2 I) /\
    (forall k, k <> x1 -> s_heap s1' k = s_heap s1 k).
Proof.
  intros P E om s1 s2 s3 S0 S1 F0 F1 b1 x1 b2 x2 b3 x3 k1 k2 HC HE Hj R1 R2 R3 M1 M2 M3 C0 C1 L0 L1 Hb.
  destruct (improved_fun P E om s1 S0 S1 F0 F1 b1 x1 HC HE Hj R1 M1 C0 C1) as [s1' [g [Hg [E1 [K1 D1]]]]].
  destruct (improved_fun P E om s2 S0 S1 F0 F1 b2 x2 HC HE Hj R2 M2 C0 C1) as [s2' [g2 [Hg2 [E2 [_ D2]]]]].
  destruct (improved_fun P E om s3 S0 S1 F0 F1 b3 x3 HC HE Hj R3 M3 C0 C1) as [s3' [g3 [Hg3 [E3 [_ D3]]]]].
  assert (g2 = g) by congruence. assert (g3 = g) by congruence. subst g2 g3.
  exists s1', s2', s3'. split; [exact E1|]. split; [exact E2|]. split; [exact E3|]. split; [|exact K1].
  apply (same_all E HE _ (vlin k1 (s_heap s1' x1) k2 (s_heap s2' x2))).
  apply (march_linear E HE (F01 F0 F1) (F01_ext E S0 S1 F0 F1 C0 C1) (carryI (e_c E) (e_D E) (g_jump g)) (carryI_ext _ _ _) (carryI_first _ _ _))
    with (b1 := s_heap s1 b1) (b2 := s_heap s2 b2) (b := s_heap s3 b3); auto.
  - intros n a r1 a' r2. unfold F01. destruct (Nat.eqb n 0); [apply L0|apply L1].
  - intros. apply carryI_lin.
  - apply (all_same E HE). exact Hb.
Qed.

(** C25, second part: pre_time_marching is the improved routine with the 1e-20
    term added to its right-hand side. *)
Lemma ones_ext D c Y Y' : feq D 4 (nc_pre c) Y Y' -> ones D Y = ones D Y'.
Proof.
  intro H. unfold ones. apply integ_ext; intros; [reflexivity|]. apply fev_ext. intros l Hl. apply H; [lia|unfold nc_pre, ntime; lia|exact Hl].
Qed.
Lemma ones_zero D : ones D (fun _ _ _ => 0) = 0.
Proof.
  unfold ones, integ. apply Rsum_zero; intros p _. rewrite (Rsum_zero (seq 0 1)); [ring|]. intros k _.
  unfold fev. rewrite (Rsum_zero (seq 0 (d_dim D Vd))); [ring|]. intros. ring.
Qed.
Theorem C25_routines_agree : forall P E om s1 s2 S0 S1 F0 F1 b1 x1 b2 x2,
  construct P = Ok (e_c E) -> 0 < p_T P -> env_ok E -> p_jumps P = false -> reached E om s1 -> reached E om s2 ->
  can_march S0 S1 s1 -> can_improve S0 S1 s2 -> computes E S0 F0 -> computes E S1 F1 ->
  (forall I, (I < dimF E)%nat -> s_heap s2 b2 I = s_heap s1 b1 I + 1e-20 * tiny_rhs P (e_D E) (basF E I)) ->
  exists s1' s2', pre_time_marching E b1 x1 s1 = (Ok tt, s1') /\ pre_time_marching_improved E b2 x2 s2 = (Ok tt, s2')
    /\ forall I, (I < dimF E)%nat -> s_heap s1' x1 I = s_heap s2' x2 I.
Proof.
  intros P E om s1 s2 S0 S1 F0 F1 b1 x1 b2 x2 HC HT HE Hj R1 R2 M1 M2 C0 C1 Hb. pose proof (construct_inv _ _ HC) as HB.
  destruct (pre_fun P E om s1 S0 S1 F0 F1 b1 x1 HC HT HE R1 M1 C0 C1) as [s1' [g [Hg [E1 [_ D1]]]]].
  destruct (improved_fun P E om s2 S0 S1 F0 F1 b2 x2 HC HE Hj R2 M2 C0 C1) as [s2' [g2 [Hg2 [E2 [_ D2]]]]].
  assert (g2 = g) by congruence. subst g2.
  exists s1', s2'. split; [exact E1|]. split; [exact E2|].
  assert (Hj' : c_jumps (e_c E) = false) by (rewrite (bu_jumps _ _ HB); exact Hj).
  assert (D1' : forall n, (n < c_N (e_c E))%nat ->
    slab_done E (sol_fun E (F01 F0 F1)) (carryI (e_c E) (e_D E) (g_jump g)) (s_heap s2 b2) n (fldF E (s_heap s1' x1))).
  { intros n Hn. destruct (D1 n Hn) as [r [u [Hr [Hu Hx]]]]. exists r, u. split; [|split; [exact Hu|exact Hx]].
    intros j i l Hj4 Hi Hl. rewrite (Hr j i l Hj4 Hi Hl). unfold field_of at 3.
    rewrite Hb by (eapply dof_lt; [apply (eo_f _ HE)|assumption| |assumption]; unfold nc_full, nc_pre in *; nia).
    rewrite <- (tiny_rhs_ones P E _ HC). unfold reg_ones.
    rewrite (Rsum_ext_in _ _ (fun m => delta n m * ones (e_D E) (field_of (e_Lp E) (unitv (dof (e_Lp E) j i l))))).
    - rewrite sumn_delta by exact Hn. unfold carryX, carryP, carryI, field_of. rewrite Hj'. unfold reg.
      destruct (Nat.ltb 0 n); ring.
    - intros m Hm. apply in_seq in Hm. unfold basF, fldF.
      rewrite (ones_ext _ (e_c E) _ _ (restr_unit E HE j i l m n Hj4 Hi Hl Hn ltac:(lia))).
      unfold delta. rewrite (Nat.eqb_sym n m). destruct (Nat.eqb m n); [ring|rewrite ones_zero; ring]. }
  apply (same_all E HE).
  apply (march_unique E HE (F01 F0 F1) (F01_ext E S0 S1 F0 F1 C0 C1) (carryI (e_c E) (e_D E) (g_jump g))
    (carryI_ext _ _ _) (carryI_first _ _ _) (c_N (e_c E)) (s_heap s2 b2) (s_heap s2 b2)); [|exact D1'|exact D2].
  intros m Hm j i l _ _ _. reflexivity.
Qed.

(** * C28 *)
Theorem C28_jumps_refused : forall P E s b x, construct P = Ok (e_c E) -> p_jumps P = true ->
  pre_time_marching_improved E b x s = (Err ValueError, s).
Proof.
  intros P E s b x HC Hj. pose proof (construct_inv _ _ HC) as HB. unfold pre_time_marching_improved, err_if, bind, raise.
  rewrite (bu_jumps _ _ HB), Hj. reflexivity.
Qed.
Example C28_nonvacuous : exists c, construct (exP 1 0 2 true false) = Ok c /\ p_jumps (exP 1 0 2 true false) = true.
Proof. destruct (exP_ok 1 0 2 true false) as [c HC]; try lia. exists c. split; [exact HC|reflexivity]. Qed.

(** * The hypotheses of C24 to C27 and C29 are met *)
Lemma step_done E k m s s' : step E k = done m -> m s = (Ok tt, s') -> snd (step E k s) = s'.
Proof. intros -> H. apply done_run. exact H. Qed.
Example solvers_nonvacuous : forall N, (1 <= N <= 1000)%nat -> exists c s S0 S1 F0 F1, let E := exE exI c in
  construct (exP 0 0 N false false) = Ok c /\ env_ok E /\ reached E om1 s /\ can_improve S0 S1 s
  /\ exact_solvers E s S0 S1 /\ computes E S0 F0 /\ computes E S1 F1 /\ linear_on E F0 /\ linear_on E F1
  /\ s_heap s 0%nat = unitv 0 /\ can_apply E s.
Proof.
  intros N HN. destruct (exP_ok 0 0 N false false) as [c HC]; try lia. pose proof (construct_inv _ _ HC) as HB.
  set (E := exE exI c).
  destruct (x_solver N c HC (proj2 HN) false) as [F0 [X0 [Y0 Z0]]].
  destruct (x_solver N c HC (proj2 HN) true) as [F1 [X1 [Y1 Z1]]].
  set (S0 := fun (r w : vec) => @Ok vec (F0 r)) in *. set (S1 := fun (r w : vec) => @Ok vec (F1 r)) in *.
  assert (HE : env_ok E) by (apply exE_ok, (bu_N _ _ HB)).
  pose proof (reached_init E false om1 (fun _ => vzero) 5) as R0. cbv beta iota in R0.
  pose proof (reached_after E om1 _ [Setup_fes] R0) as R1.
  set (s1 := after E [Setup_fes] (init_state false om1 (fun _ => vzero) 5)) in *.
  assert (Hf1 : s_fes s1 = true) by reflexivity. assert (Hs1 : s_slm s1 = None) by reflexivity.
  clearbody s1.
  destruct (prepare_run _ E exG (exE_good exI 0 0 N false false c HC) om1 s1 ltac:(cbn; lra) (reached_wf _ _ _ R1) Hf1)
    as [s2 [E2 [HP [Hbr _]]]].
  pose proof (reached_after E om1 s1 [Prepare; Set_first S0; Set_slab S1; Write 0 (unitv 0)] R1) as R3.
  set (s3 := after E [Prepare; Set_first S0; Set_slab S1; Write 0 (unitv 0)] s1) in *.
  assert (E3 : s3 = put 0 (unitv 0) (w_ssl (Some S1) (w_sfi (Some S0) s2))).
  { unfold s3, after. cbn [fold_left]. rewrite (step_done E Prepare _ s1 s2 eq_refl E2). reflexivity. }
  clearbody s3. specialize (Hbr Hs1).
  destruct HP as [Pf [Psl [Pco [_ [Pma [Pfi Pnj]]]]]].
  exists c, s3, S0, S1, F0, F1. cbv zeta. fold E.
  split; [exact HC|]. split; [exact HE|]. split; [exact R3|].
  assert (CI : can_improve S0 S1 s3).
  { rewrite E3. split; [|split; [exact Pma|exact Hbr]]. split; [exact Pfi|]. split; [exact Psl|]. split; reflexivity. }
  split; [exact CI|]. split.
  - destruct CI as [[H1 [H2 _]] _]. destruct (s_fim s3) as [A0|] eqn:EA0; [|congruence]. destruct (s_slm s3) as [A1|] eqn:EA1; [|congruence].
    destruct (wf_slab_mats E om1 s3 A0 A1 (reached_wf _ _ _ R3) EA0 EA1) as [_ [g [Hg [M0 M1]]]].
    cbn [e_c E exE] in Hg. change (e_c E) with c in Hg. rewrite (bu_stab _ _ HB) in Hg. injection Hg as <-. fold exG in M0, M1.
    unfold fn in M0, M1. cbn [Nat.eqb] in M0, M1. change (e_c E) with c in M0, M1. rewrite (bu_wp _ _ HB) in M0.
    split; intros A HA; rewrite ?EA0, ?EA1 in HA; injection HA as <-; [rewrite M0|rewrite M1]; [exact X0|exact X1].
  - split; [split; [intros; reflexivity|exact Y0]|]. split; [split; [intros; reflexivity|exact Y1]|].
    split; [exact Z0|]. split; [exact Z1|]. rewrite E3. split; [reflexivity|].
    split; [exact Pf|]. split; [apply Pnj; exact (bu_wp _ _ HB)|]. intros _. exact Pco.
Qed.

Print Assumptions C20_matrix_free_product.
Print Assumptions C20_when.
Print Assumptions C21_difference.
Print Assumptions C21_wellposed_refuted.
Print Assumptions C21_fwjumps_refuted.
Print Assumptions C22_pure_linear.
Print Assumptions C22_deterministic.
Print Assumptions C23_aliased_product_is_zero.
Print Assumptions C23_aliasing_refuted.
Print Assumptions C24_time_marching.
Print Assumptions C25_improved_time_marching.
Print Assumptions C25_routines_agree.
Print Assumptions C26_linear_operator.
Print Assumptions C27_in_place.
Print Assumptions C27_in_place_improved.
Print Assumptions C28_jumps_refused.
Print Assumptions C29_causal.
Print Assumptions C29_causal_improved.
Print Assumptions solvers_nonvacuous.
