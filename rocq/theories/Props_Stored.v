(** Props_Stored.v -- properties C12 and C18 for the objects a SpaceTime instance
    holds after any history: the stored matrix and vector are those of the
    variational form with the weights of the user's dictionary under the keys
    "data", "dual", "primal" and "primal-jump". *)
From Coq Require Import Reals List ZArith Lra Lia Bool String.
From Verif Require Import Base TimeModel TimeSpec QuadProofs FormModel FormSpec FormProofs SpaceTimeForms FormBlocks FormTime FormC12
  FormSym FormCons FormWf FormExample Props_Forms SpaceTimeModel SlabOps ApplyProofs MarchProofs MarchLoops MarchSum MarchUnique
  ErrorsModel Lifecycle LifeProofs OpsProofs SetupOk LinAlg OpsExample Props_Ops LifeFrames Props_Life.
Import ListNotations.
Open Scope R_scope.

Lemma gammas_named st g : get_gammas st = Ok g ->
  st "data"%string = Some (g_data g) /\ st "dual"%string = Some (g_dual g) /\
  st "primal"%string = Some (g_primal g) /\ st "primal-jump"%string = Some (g_jump g).
Proof.
  unfold get_gammas, rbind, lookup. intro H.
  destruct (st "data"%string) eqn:E1; [|discriminate]. destruct (st "dual"%string) eqn:E2; try discriminate.
  destruct (st "primal"%string) eqn:E3; try discriminate. destruct (st "primal-jump"%string) eqn:E4; try discriminate.
  injection H as <-. cbn [g_data g_dual g_primal g_jump]. auto.
Qed.
Lemma lookup_some st k v : lookup st k = Ok v -> st k = Some v.
Proof. unfold lookup. destruct (st k); [|discriminate]. intro H. injection H as <-. reflexivity. Qed.

(** y . A x for the matrix A held after any history *)
Theorem C12_stored_matrix : forall P E om s A, construct P = Ok (e_c E) -> 0 < p_T P -> env_ok E ->
  reached E om s -> s_stm s = Some A ->
  exists (w_data w_dual w_primal w_jump : R) (precond : bool),
  p_stab P "data"%string = Some w_data /\ p_stab P "dual"%string = Some w_dual /\
  p_stab P "primal"%string = Some w_primal /\ p_stab P "primal-jump"%string = Some w_jump /\
  forall x y,
  let D := e_D E in let d := tgrid P in let lam := 5 * INR (p_k P) ^ 2 in
  let X := fldF E x in let Y := fldF E y in
  dotn (dimF E) y (mult (dimF E) A x)
  = 1e-20 * L2 D Vp Vd (X 0%nat 0%nat) (Y 2%nat 0%nat)
    + sumn (p_N P) (fun n =>
        wave D d X Y n + wave D d Y X n + w_data * data D d om X Y n
        - w_dual * dual D d lam Y X n + w_primal * primal D d lam X Y n)
    + sumn (p_N P) (fun n => if Nat.ltb 0 n then
        w_jump * (if precond then jumps_pre D d X Y n else jumps D d X Y n)
        + (if p_jumps P then
             (1 + if Z.eqb (p_qstar P) 0 then 1e-15 else 0) * (fwjumps D d X Y n + fwjumps D d Y X n)
             - w_dual * dualjumps D d Y X n
           else 0) else 0)
    + (if p_wp P then w_jump * init D d X Y else 0).
Proof.
  intros P E om s A HC HT HE HR HA. pose proof (C34_which_matrices P E om s HC HR) as [W _]. rewrite HA in W.
  destruct (s_stb s) as [f|]; [|contradiction]. destruct W as [g [p [Hg [-> ->]]]].
  destruct (gammas_named _ _ Hg) as [G1 [G2 [G3 G4]]].
  exists (g_data g), (g_dual g), (g_primal g), (g_jump g), p.
  split; [exact G1|]. split; [exact G2|]. split; [exact G3|]. split; [exact G4|].
  intros x y D d lam X Y.
  exact (C12_variational_form P (e_c E) g om D (e_Lf E) HC HT (eo_f E HE) p x y).
Qed.
(** f . y for the vector setup_rhs assembles: the measurements and, if the problem
    is well posed, the initial data u1_0, u2_0, with the weights of the keys "data"
    and "primal-jump"; the difference is that of the quadrature in time *)
Theorem C18_stored_rhs : forall P E s s', construct P = Ok (e_c E) -> 0 < p_T P -> env_ok E ->
  setup_rhs E s = (Ok tt, s') ->
  exists w_data w_jump i, p_stab P "data"%string = Some w_data /\ p_stab P "primal-jump"%string = Some w_jump /\
  s_rhs s' = Some i /\
  forall U y,
  let D := e_D E in let d := tgrid P in let om := s_om s in let Y := fldF E y in
  (forall n p t, (n < p_N P)%nat -> In p (d_pts D Dx) ->
     INR n * t_dt d <= t <= INR n * t_dt d + t_dt d ->
     p_v P t (d_x D p) = fev D Dx Vp Val (at_time d U 0 n t) p 0) ->
  (p_wp P = true -> forall p, In p (d_pts D Dx) ->
     fev D Dx Vp Val (s_u10 s) p 0%nat = fev D Dx Vp Val (upper d U 0 0) p 0
     /\ (forall k, (k < d_gd D)%nat -> fev D Dx Vp Grad (s_u10 s) p k = fev D Dx Vp Grad (upper d U 0 0) p k)
     /\ fev D Dx Vp Val (s_u20 s) p 0%nat = fev D Dx Vp Val (upper d U 1 0) p 0) ->
  Rabs (dotn (dimF E) y (s_heap s' i)
        - (1e-20 * integ D Dx WOne 1 (fun _ _ => 1) (fev D Dx Vd Val (Y 2%nat 0%nat))
           + sumn (p_N P) (fun n => w_data * data D d om U Y n)
           + if p_wp P then w_jump * init D d U Y else 0))
  <= 3e-7 * Rabs w_data * t_dt d * sumn (p_N P) (fun n =>
       sumn (S (t_q d)) (fun a => sumn (S (t_q d)) (fun b =>
         Rabs (L2w D om Vp (U 0%nat (n * S (t_q d) + a)%nat) (Y 0%nat (n * S (t_q d) + b)%nat))))).
Proof.
  intros P E s s' HC HT HE Hs. pose proof (construct_inv _ _ HC) as HB.
  destruct (setup_rhs_inv E s s' Hs) as [gj [gd [f [_ [H1 [H2 [-> ->]]]]]]]. rewrite (bu_stab _ _ HB) in *.
  exists gd, gj, (s_next s). split; [apply lookup_some, H2|]. split; [apply lookup_some, H1|]. split; [reflexivity|].
  intros U y D d om Y HM HI.
  cbn [s_heap w_rhs w_lfi w_next put w_heap]. rewrite Nat.eqb_refl.
  exact (C18_rhs_consistent P (e_c E) om D (e_Lf E) HC HT (eo_f E HE) gd gj (d_x D) _ _ _ U y HM HI).
Qed.
(** a history after which both are held, in the well-posed mode *)
Example C12_stored_nonvacuous : exists P E om s s' A, construct P = Ok (e_c E) /\ 0 < p_T P /\ env_ok E /\ p_wp P = true /\
  reached E om s /\ s_stm s = Some A /\ setup_rhs E s = (Ok tt, s').
Proof.
  destruct (exP_ok 1 1 2 false true) as [c HC]; try lia. set (E := exE exI c). pose proof (construct_inv _ _ HC) as HB.
  set (P := exP 1 1 2 false true) in *.
  assert (HG : good P E exG) by apply (exE_good exI _ _ _ _ _ _ HC).
  set (s0 := after E [Setup_fes] (init_state false om1 (fun _ => vzero) 5)).
  assert (R0 : reached E om1 s0) by (apply reached_after; exact (reached_init E false om1 _ 5)).
  pose proof (first_request P E exG om1 s0 false HG (reached_wf _ _ _ R0) eq_refl eq_refl) as F.
  set (s := snd (step E (Get_matrix false) s0)).
  assert (Es : s = after E [Get_matrix false] s0) by reflexivity.
  assert (Rs : reached E om1 s) by (rewrite Es; apply reached_after, R0).
  assert (Hst : s_stm s = Some (matF E exG om1 false)) by (unfold s; rewrite F; reflexivity).
  assert (Hf : s_fes s = true) by (unfold s; rewrite F; reflexivity).
  destruct (rhs_run P E exG HG s Hf) as [f H].
  exists P, E, om1, s, (w_rhs (Some (s_next s)) (w_lfi (Some f) (w_next (S (s_next s)) (put (s_next s) (assemble_vec (e_D E) (e_Lf E) f) s)))), (matF E exG om1 false).
  split; [exact HC|]. split; [cbn; lra|]. split; [apply exE_ok, (bu_N _ _ HB)|]. split; [reflexivity|].
  split; [exact Rs|]. split; [exact Hst|]. exact H.
Qed.
Print Assumptions C12_stored_matrix.
Print Assumptions C18_stored_rhs.
