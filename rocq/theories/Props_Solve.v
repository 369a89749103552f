(** Props_Solve.v -- properties C55 and C64: what the drivers assemble and solve. *)
From Coq Require Import Reals List ZArith Lra Lia Bool String FunctionalExtensionality.
From Verif Require Import QuadProofs Base TimeModel TimeSpec FormModel FormSpec FormProofs SpaceTimeForms FormBlocks FormTime FormC12
  FormCons FormExample Props_Forms SpaceTimeModel SlabOps ApplyProofs MarchProofs MarchLoops MarchSum MarchUnique
  ErrorsModel Lifecycle LifeProofs OpsProofs SetupOk LinAlg OpsExample Props_Ops LifeFrames Props_Life ErrorsSpec ErrorsProofs Props_Errors GmresModel Props_Gmres DriverModel.
Import ListNotations.
Open Scope R_scope.
Open Scope monad_scope.

(** * C64 *)
(** the right-hand side vector of an object holds the assembled linear form *)
Definition rhs_inv (W : vec -> Prop) (om : nat -> R) (s : state) : Prop :=
  s_om s = om /\ forall i, s_rhs s = Some i -> (i < s_next s)%nat /\ W (s_heap s i).
Section Rhs.
  Variables (E : env) (om : nat -> R).
  Definition is_rhs (v : vec) : Prop := exists gj gd u10 u20,
    lookup (c_stab (e_c E)) "primal-jump" = Ok gj /\ lookup (c_stab (e_c E)) "data" = Ok gd /\
    v = assemble_vec (e_D E) (e_Lf E) (rhs_form (e_c E) om gd gj (d_x (e_D E))
          (fev (e_D E) Dx Vp Val u10) (fev (e_D E) Dx Vp Grad u10) (fev (e_D E) Dx Vp Val u20)).
  Notation Q := (rhs_inv is_rhs om).
  Lemma Q_same s s' : s_om s' = s_om s -> s_rhs s' = s_rhs s -> s_heap s' = s_heap s -> s_next s' = s_next s -> Q s -> Q s'.
  Proof. unfold rhs_inv. intros -> -> -> ->. exact (fun H => H). Qed.
  Lemma Q_setup s : Q s -> okat Q (setup_rhs E) s.
  Proof.
    intros HQ. unfold okat. destruct (setup_rhs E s) as [[[]|e] s'] eqn:Hs; cbn [snd].
    - destruct (setup_rhs_inv E s s' Hs) as [gj [gd [f [_ [H1 [H2 [-> ->]]]]]]]. destruct HQ as [HO HR].
      split; [exact HO|]. cbn [s_rhs s_next s_heap w_rhs w_lfi w_next put w_heap]. intros i Hi. injection Hi as <-. split; [lia|].
      rewrite Nat.eqb_refl. exists gj, gd, (s_u10 s), (s_u20 s). split; [exact H1|]. split; [exact H2|]. unfold rhs_form_of. rewrite HO. reflexivity.
    - replace s' with s; [exact HQ|]. unfold setup_rhs in Hs. unfold need_fes, bind, lift, err_if, get, modify, raise, ret in Hs.
      destruct (s_fes s); cbn [negb] in Hs; [|injection Hs; auto].
      destruct (lookup (c_stab (e_c E)) "primal-jump"); [|injection Hs; auto].
      destruct (lookup (c_stab (e_c E)) "data"); [|injection Hs; auto].
      destruct (c_wp (e_c E) && is_zero (c_dt (e_c E))); [injection Hs; auto|].
      match type of Hs with context [fem_lform ?a ?b ?d] => destruct (fem_lform a b d) end; [discriminate Hs|injection Hs; auto].
  Qed.
  Ltac qleaf := idtac; match goal with
    | H : Q ?s |- Q ?t => first [exact H | apply (Q_same s t); [reflexivity..|exact H]]
    end.
  Ltac qstep := idtac; lazymatch goal with
    | |- okat _ (setup_rhs _) _ => apply Q_setup; qleaf
    | |- okat _ (bind (setup_rhs _) _) _ => apply ok_bind; [apply Q_setup; qleaf|intros ? ? ? _]
    | _ => wstep qleaf
    end.
  Lemma Q_step k s : outputs k = [] -> Q s -> okat Q (step E k) s.
  Proof.
    intros Hk HQ. destruct k; try discriminate Hk; cbn [step]; repeat qstep.
  Qed.
End Rhs.
Lemma Q_after E om ks : (forall k, In k ks -> outputs k = []) -> forall s, rhs_inv (is_rhs E om) om s -> rhs_inv (is_rhs E om) om (after E ks s).
Proof.
  induction ks as [|k ks IH]; intros Hk s HQ; [exact HQ|]. cbn [after fold_left].
  apply IH; [intros k' Hk'; apply Hk; right; exact Hk'|]. apply Q_step; [apply Hk; left; reflexivity|exact HQ].
Qed.
(** After any calls that do not write into vectors, the right-hand side is the
    assembled form with the object's indicator. *)
Theorem C64_rhs : forall E fitted ind heap next ks i,
  (forall k, In k ks -> outputs k = []) ->
  let s0 := init_state fitted ind heap next in
  s_rhs (after E ks s0) = Some i -> is_rhs E (s_om s0) (s_heap (after E ks s0) i).
Proof.
  intros E fitted ind heap next ks i Hk s0 Hi.
  assert (H0 : rhs_inv (is_rhs E (s_om s0)) (s_om s0) s0) by (split; [reflexivity|discriminate]).
  exact (proj2 (proj2 (Q_after E (s_om s0) ks Hk s0 H0) i Hi)).
Qed.
(** the only entry of a right-hand side without data *)
Definition tiny_rhs (E : env) (I : nat) : R :=
  1e-20 * integ (e_D E) Dx WOne 1 (fun _ _ => 1) (fev (e_D E) Dx Vd Val (basF E I 2%nat 0%nat)).
Lemma fitted_rhs P E v : construct P = Ok (e_c E) -> 0 < p_T P -> p_wp P = false -> is_rhs E (fun _ => 0) v ->
  forall I, v I = tiny_rhs E I.
Proof.
  intros HC HT Hw [gj [gd [u10 [u20 [_ [_ ->]]]]]] I. pose proof (construct_inv _ _ HC) as HB. pose proof (dt_pos _ _ HC HT) as Hdt.
  unfold assemble_vec. rewrite (rhs_slabs (e_c E) (fun _ => 0) (e_D E)). unfold tiny_rhs. rewrite Rsum_zero; [rewrite Rplus_0_r; reflexivity|].
  intros n _. rewrite (rhs_data_eval P (e_c E) (fun _ => 0) (e_D E) HB).
  unfold rhs_init. rewrite (bu_wp _ _ HB), Hw, andb_false_r. unfold leval. rewrite Rsum_nil.
  rewrite Rsum_zero; [ring|]. intros [tau w] _. rewrite Rsum_zero; [ring|]. intros k _. unfold integ. rewrite Rsum_zero; [ring|].
  intros p _. cbn [wval]. ring.
Qed.

Lemma after_one E k s : after E [k] s = snd (step E k s).
Proof. reflexivity. Qed.
Section Setup.
  Variables (P : params) (E : env) (g : gammas).
  Hypotheses (HG : good P E g) (Hjump : g_jump g <> 0).
  Variables (fitted : bool) (ind : nat -> R) (heap : nat -> vec) (next : nat).
  Notation s0 := (init_state fitted ind heap next).
  Notation om := (s_om s0).
  Lemma driver_ready : exists s1 b, driver_setup E s0 = (Ok (Some b), s1) /\ s1 = after E [Setup_fes; Prepare] s0 /\
    reached E om s1 /\ prepared E s1 /\ s_brp s1 <> None /\ s_rhs s1 = Some b.
  Proof.
    assert (R1 : reached E om (after E [Setup_fes] s0)) by (exists fitted, ind, heap, next, [Setup_fes]; split; reflexivity).
    assert (R2 : reached E om (after E [Setup_fes; Prepare] s0)) by (exists fitted, ind, heap, next, [Setup_fes; Prepare]; split; reflexivity).
    destruct (prepare_run P E g HG om _ Hjump (reached_wf _ _ _ R1) eq_refl) as [s1 [Hr [Hp [Hb _]]]].
    assert (E1 : s1 = after E [Setup_fes; Prepare] s0).
    { pose proof (proj2 (run_returns E Prepare _ _ eq_refl _ _ Hr)) as H. rewrite <- H.
      change [Setup_fes; Prepare] with ([Setup_fes] ++ [Prepare]). rewrite after_app, (after_one E Prepare). reflexivity. }
    destruct (s_rhs s1) as [b|] eqn:Eb; [|destruct Hp as [_ [_ [_ [Hp _]]]]; contradiction].
    exists s1, b. split; [|split; [exact E1|split; [rewrite E1; exact R2|split; [exact Hp|split; [apply Hb; reflexivity|exact Eb]]]]].
    unfold driver_setup. unfold bind at 1. cbn [setup_fes].
    assert (Es : setup_fes s0 = (Ok tt, after E [Setup_fes] s0)) by reflexivity. rewrite Es.
    rewrite (bind_ok _ _ _ _ _ Hr). unfold get_spacetime_rhs. rewrite bind_get, Eb. unfold bind, ret, get. rewrite Eb. reflexivity.
  Qed.
End Setup.

(** C64 as stated is false.  In the drivers' set-up (fitted domain, default mode) the
    right-hand side is 1e-20 times the integrals of one block of test functions: it
    contains neither the solution nor the indicator. *)
Theorem C64_refuted : forall P E g ind heap next, good P E g -> g_jump g <> 0 -> p_wp P = false ->
  exists s1 b, driver_setup E (init_state true ind heap next) = (Ok (Some b), s1) /\
  forall I, s_heap s1 b I = tiny_rhs E I.
Proof.
  intros P E g ind heap next HG Hj Hw. destruct (driver_ready P E g HG Hj true ind heap next) as [s1 [b [H1 [H2 [_ [_ [_ H3]]]]]]].
  exists s1, b. split; [exact H1|]. apply (fitted_rhs P E _ (gd_c _ _ _ HG) (gd_T _ _ _ HG) Hw). rewrite H2 in *.
  apply (C64_rhs E true ind heap next [Setup_fes; Prepare] b); [|exact H3].
  intros k [<-|[<-|[]]]; reflexivity.
Qed.

(** * C55 *)
(** the slab solver a driver builds for a slab matrix *)
Definition slab_solver_of (lu : matrix -> solver) (pard : matrix -> res solver) (st : solver_type) (A : matrix) : res solver :=
  match st with Pypardiso => pard A | _ => Ok (lu A) end.

Section Solve.
  Variables (P : params) (E : env) (g : gammas).
  Hypotheses (HG : good P E g) (Hjump : g_jump g <> 0) (HE : env_ok E) (Hpj : p_jumps P = false) (Hpw : p_wp P = false).
  Variables (om : nat -> R) (s1 : state) (A0 A1 : matrix) (S0 S1 : solver).
  Hypotheses (HR : reached E om s1) (HP : prepared E s1) (HB1 : s_brp s1 <> None) (HA0 : s_fim s1 = Some A0) (HA1 : s_slm s1 = Some A1).
  Notation s2 := (w_sfi (Some S0) (w_ssl (Some S1) s1)).
  Lemma solve_usable : usable E om S0 S1 s2.
  Proof.
    split; [|split].
    - exact (reached_after E om s1 [Set_slab S1; Set_first S0] HR).
    - destruct HP as [Hf [_ [Hc [_ [_ [_ Hn]]]]]]. split; [exact Hf|]. split; [|intros _; exact Hc].
      apply Hn. rewrite (bu_wp _ _ (construct_inv _ _ (gd_c _ _ _ HG))). exact Hpw.
    - destruct HP as [_ [Hs [_ [_ [Hm [Hi _]]]]]]. split; [split; [exact Hi|split; [exact Hs|split; reflexivity]]|split; [exact Hm|exact HB1]].
  Qed.
  Lemma plot_runs ev u nsp nsub b s : s_fes s = true -> exists p, plot E ev u nsp nsub b s = (Ok p, s).
  Proof.
    intro Hf. unfold plot. rewrite bind_fes_ok by exact Hf. rewrite bind_err_if_ok.
    - eexists. reflexivity.
    - pose proof (dt_pos _ _ (gd_c _ _ _ HG) (gd_T _ _ _ HG)) as Hdt. unfold is_zero. destruct (Req_EM_T (c_dt (e_c E)) 0); [lra|reflexivity].
  Qed.
  Hypothesis Hw : nonneg_dx (e_D E).
  Lemma solve_run d ext lu pard ev pt db st b xa m r s' : st <> OtherSolver ->
    slab_solver_of lu pard st A0 = Ok S0 -> slab_solver_of lu pard st A1 = Ok S1 ->
    gmres_spacetime E ext db (dimF E) b xa 100000 (Some 1e-7) None true None s2 = (r, s') -> s_fes s' = true ->
    exists s3, solve_problem E ext lu pard ev pt db d st b xa m s1 = (match r with Ok _ => Ok tt | Err e => Err e end, s3) /\ s_heap s3 = s_heap s'.
  Proof.
    intros Hst HS0 HS1 Hg Hf. unfold solve_problem.
    assert (G1 : get_slab_matrix E s1 = (Ok (Some A1), s1)).
    { unfold get_slab_matrix. rewrite bind_get, HA1. unfold bind, ret, get. rewrite HA1. reflexivity. }
    assert (HW : solve_with_gmres E ext db b xa s2 = (match r with Ok x => Ok (fst x) | Err e => Err e end, s')).
    { unfold solve_with_gmres. destruct r as [x|e]; [rewrite (bind_ok _ _ _ _ _ Hg)|rewrite (bind_err _ _ _ _ _ Hg)]; reflexivity. }
    pose (inner := match r with Ok x => Ok (fst x) | Err e => Err e end).
    match goal with |- exists _, bind ?m _ _ = _ /\ _ => assert (HM : m s1 = (inner, s')) end.
    { destruct st; [| |congruence]; cbn [slab_solver_of] in HS0, HS1.
      - rewrite (bind_ok _ _ _ _ _ G1), (bind_need _ _ _ A1) by reflexivity. rewrite (bind_lift_ok _ _ S1) by exact HS1.
        unfold set_solver_slab at 1. rewrite bind_modify. unfold get_slab_matrix_first at 1. unfold bind at 1. rewrite bind_get.
        cbn [ret]. replace (s_fim (w_ssl (Some S1) s1)) with (Some A0) by (symmetry; exact HA0).
        unfold ret at 1. rewrite (bind_need _ _ _ A0) by reflexivity. rewrite (bind_lift_ok _ _ S0) by exact HS0.
        unfold set_solver_first at 1. rewrite bind_modify. unfold inner. destruct r as [x|e].
        + rewrite (bind_ok _ _ _ _ _ HW). destruct d.
          * destruct (plot_runs ev (fst x) 500 20 false s' Hf) as [p Hp].
            unfold bind at 1. unfold plot_error. rewrite (bind_ok _ _ _ _ _ Hp). reflexivity.
          * reflexivity.
          * reflexivity.
        + rewrite (bind_err _ _ _ _ _ HW). reflexivity.
      - rewrite (bind_ok _ _ _ _ _ G1), (bind_need _ _ _ A1) by reflexivity. injection HS0 as HS0. injection HS1 as HS1.
        rewrite HS1. unfold set_solver_slab at 1. rewrite bind_modify. unfold get_slab_matrix_first at 1. unfold bind at 1. rewrite bind_get.
        replace (s_fim (w_ssl (Some S1) s1)) with (Some A0) by (symmetry; exact HA0).
        unfold ret at 1. rewrite (bind_need _ _ _ A0) by reflexivity. rewrite HS0. unfold set_solver_first at 1. rewrite bind_modify. exact HW. }
    unfold inner in HM. destruct r as [x|e]; [rewrite (bind_ok _ _ _ _ _ HM)|rewrite (bind_err _ _ _ _ _ HM); exists s'; split; reflexivity].
    destruct m; [|exists s'; split; reflexivity].
    assert (PV : exists s4, (match d with Driver3D => (do _ <- plot_para_view E pt (fst x); ret tt) | _ => ret tt end) s' = (Ok tt, s4)
      /\ s_fes s4 = true /\ s_heap s4 = s_heap s').
    { destruct d; [exists s'; auto|exists s'; auto|].
      unfold plot_para_view, load_solution. eexists. unfold bind, need_fes, err_if, get, modify, ret, bind. rewrite Hf. cbn [negb].
      split; [reflexivity|]. split; [exact Hf|reflexivity]. }
    destruct PV as [s4 [PV [Hf4 Hh4]]]. rewrite (bind_ok _ _ _ _ _ PV).
    destruct (C46_total_nonnegative P E (fst x) s4 (gd_c _ _ _ HG) HE (gd_T _ _ _ HG) Hw Hf4) as [er [s3 [M3 [Hh3 _]]]].
    rewrite (bind_ok _ _ _ _ _ M3). exists s3. split; [reflexivity|congruence].
  Qed.
End Solve.

(** What holds: with either slab solver the driver's call succeeds or fails exactly as
    the external GMRES does on plain vectors with the two fixed maps of C63, the
    solution vector is GMRES's, the right-hand side is intact; measuring errors or
    plotting does not change this.  (For the third choice see C55_refuted.) *)
Theorem C55_partial : forall P E g fitted ind heap next,
  good P E g -> g_jump g <> 0 -> env_ok E -> p_jumps P = false -> p_wp P = false -> nonneg_dx (e_D E) ->
  let s0 := init_state fitted ind heap next in
  exists s1 b A0 A1, driver_setup E s0 = (Ok (Some b), s1) /\ s_fim s1 = Some A0 /\ s_slm s1 = Some A1 /\
  forall lu pard st S0 S1 F0 F1, st <> OtherSolver ->
  slab_solver_of lu pard st A0 = Ok S0 -> slab_solver_of lu pard st A1 = Ok S1 -> computes E S0 F0 -> computes E S1 F1 ->
  exists B : vec -> vec,
  (linear_on E F0 -> linear_on E F1 -> forall k1 v1 k2 v2 I, (I < dimF E)%nat -> B (vlin k1 v1 k2 v2) I = k1 * B v1 I + k2 * B v2 I) /\
  (exact (lay_dim (e_Lp E)) A0 S0 -> exact (lay_dim (e_Lp E)) A1 S1 -> forall v I, (I < dimF E)%nat ->
     mult (dimF E) (matF E g (s_om s0) true) (B v) I + 1e-20 * tiny_march P (e_D E) (fldF E (B v)) (basF E I) = v I) /\
  forall d ext ev pt db xa m c db', b <> xa ->
  configure db 100000 (Some 1e-7) None true None = Ok (c, db') ->
  no_alias (ext c (dimF E) b xa) -> spares b (ext c (dimF E) b xa) ->
  let out := pure_ksp (st_op P E g (s_om s0)) B (dimF E) (ext c (dimF E) b xa) (upd xa (fun _ => 0) (s_heap s1)) in
  exists s', solve_problem E ext lu pard ev pt db d st b xa m s1 = (if Z.ltb (o_reason (fst out)) 0 then Err PETScError else Ok tt, s')
    /\ veq (dimF E) (s_heap s' xa) (snd out xa) /\ s_heap s' b = s_heap s1 b.
Proof.
  intros P E g fitted ind heap next HG Hj HE Hpj Hpw Hw s0.
  destruct (driver_ready P E g HG Hj fitted ind heap next) as [s1 [b [D1 [_ [HR [HP [HB _]]]]]]]. fold s0 in D1, HR.
  destruct (s_fim s1) as [A0|] eqn:E0; [|destruct HP as [_ [_ [_ [_ [_ [HP _]]]]]]; congruence].
  destruct (s_slm s1) as [A1|] eqn:E1; [|destruct HP as [_ [HP _]]; congruence].
  exists s1, b, A0, A1. split; [exact D1|]. split; [exact E0|]. split; [exact E1|].
  intros lu pard st S0 S1 F0 F1 Hst HS0 HS1 C0 C1.
  pose proof (solve_usable P E g HG Hpw (s_om s0) s1 S0 S1 HR HP HB) as HU.
  destruct (C63_gmres P E (s_om s0) S0 S1 F0 F1 g (gd_c _ _ _ HG) (gd_T _ _ _ HG) HE Hpj (gd_g _ _ _ HG) C0 C1) as [B [HL [HX HK]]].
  exists B. split; [exact HL|]. split.
  - intros X0 X1. apply (HX _ HU). split; intros A HA; [change (s_fim s1 = Some A) in HA; rewrite E0 in HA|change (s_slm s1 = Some A) in HA; rewrite E1 in HA]; injection HA as <-; assumption.
  - intros d ext ev pt db xa m c db' Hb Hc Ha Hs out.
    destruct (HK ext db b xa 100000%Z (Some 1e-7) None true None c db' _ HU Hb Hc Ha Hs) as [s' [G1 [G2 [G3 G4]]]].
    fold out in G1, G2. change (s_heap (w_sfi (Some S0) (w_ssl (Some S1) s1))) with (s_heap s1) in *. fold out in G1, G2.
    assert (Hf : s_fes s' = true) by (destruct G4 as [_ [[Hf _] _]]; exact Hf).
    destruct (solve_run P E g HG HE s1 A0 A1 S0 S1 E0 E1 Hw d ext lu pard ev pt db st b xa m _ s' Hst HS0 HS1 G1 Hf) as [s3 [R1 R2]].
    exists s3. rewrite R1, R2. split; [|split; assumption]. destruct (Z.ltb (o_reason (fst out)) 0); reflexivity.
Qed.

(** C55 as stated is false for the third choice: the arguments of the direct solve are
    swapped.  Whatever LU does, when the call returns the solution vector is zero and
    the right-hand side has been overwritten by the solution for a zero right-hand
    side. *)
Theorem C55_third_choice : forall E ext lu pard ev pt db d b xa s s1 A r,
  get_spacetime_matrix E false s = (Ok (Some A), s1) -> b <> xa -> lu A vzero (s_heap s1 b) = Ok r ->
  solve_problem E ext lu pard ev pt db d OtherSolver b xa false s = (Ok tt, put b r (put xa vzero s1)).
Proof.
  intros E ext lu pard ev pt db d b xa s s1 A r HA Hb Hr. unfold solve_problem.
  unfold bind at 1. rewrite (bind_ok _ _ _ _ _ HA), (bind_need _ _ _ A) by reflexivity. rewrite bind_modify, bind_get, put_same.
  rewrite put_other by congruence. rewrite (bind_lift_ok _ _ r) by exact Hr. reflexivity.
Qed.

Definition no_stm (s : state) : Prop := s_stm s = None.
Lemma no_stm_setup E fitted ind heap next : no_stm (after E [Setup_fes; Prepare] (init_state fitted ind heap next)).
Proof.
  change [Setup_fes; Prepare] with ([Setup_fes] ++ [Prepare]). rewrite after_app, (after_one E Prepare).
  assert (H : no_stm (after E [Setup_fes] (init_state fitted ind heap next))) by reflexivity. revert H.
  generalize (after E [Setup_fes] (init_state fitted ind heap next)). intros s HQ.
  change (okat no_stm (step E Prepare) s). cbn [step]. walk leaf.
Qed.
Lemma first_matrix P E g om s p : good P E g -> wfst E om s -> s_fes s = true -> s_stm s = None ->
  get_spacetime_matrix E p s = (Ok (Some (matF E g om p)), w_stm (Some (matF E g om p)) (w_stb (Some (st_form (e_c E) g om p)) s)).
Proof.
  intros HG HW Hf Hs. pose proof (first_request P E g om s p HG HW Hf Hs) as H. unfold step, answers, bind in H.
  destruct (get_spacetime_matrix E p s) as [[o|e] s']; [|discriminate]. injection H as H1 H2. congruence.
Qed.
(** So on every object whose right-hand side has a non-zero entry, u_sol does not solve
    the assembled system; with an exact LU of a regular matrix b_rhs is left zero. *)
Theorem C55_third_choice_wrong : forall P E g fitted ind heap next,
  good P E g -> g_jump g <> 0 ->
  let s0 := init_state fitted ind heap next in let A := matF E g (s_om s0) false in
  exists s1 b, driver_setup E s0 = (Ok (Some b), s1) /\
  forall ext lu pard ev pt db d xa r, b <> xa -> lu A vzero (s_heap s1 b) = Ok r ->
  exists s', solve_problem E ext lu pard ev pt db d OtherSolver b xa false s1 = (Ok tt, s') /\
  (forall I, s_heap s1 b I <> 0 -> mult (dimF E) A (s_heap s' xa) I <> s_heap s1 b I) /\
  (exact (dimF E) A (lu A) -> (forall x, (forall I, (I < dimF E)%nat -> mult (dimF E) A x I = 0) -> forall I, (I < dimF E)%nat -> x I = 0) ->
   forall I, (I < dimF E)%nat -> s_heap s' b I = 0).
Proof.
  intros P E g fitted ind heap next HG Hj s0 A.
  destruct (driver_ready P E g HG Hj fitted ind heap next) as [s1 [b [D1 [E1 [HR [HP _]]]]]]. fold s0 in D1, E1, HR.
  exists s1, b. split; [exact D1|]. intros ext lu pard ev pt db d xa r Hb Hr.
  assert (Hs : s_stm s1 = None) by (rewrite E1; apply no_stm_setup).
  pose proof (first_matrix P E g _ s1 false HG (reached_wf _ _ _ HR) (proj1 HP) Hs) as HM. fold A in HM.
  pose proof (C55_third_choice E ext lu pard ev pt db d b xa _ _ A r HM Hb Hr) as HS.
  eexists. split; [exact HS|]. split.
  - intros I HI. rewrite (put_other b xa) by exact Hb. rewrite put_same. unfold mult. rewrite Rsum_zero; [congruence|].
    intros J _. unfold vzero. ring.
  - intros HX HJ I HI. rewrite put_same. apply HJ; [|exact HI]. intros J HJ1. rewrite (HX _ _ _ Hr J HJ1). reflexivity.
Qed.
Theorem C55_refuted : exists P E g ind heap next s1 b I A, good P E g /\ env_ok E /\ (I < dimF E)%nat /\
  driver_setup E (init_state true ind heap next) = (Ok (Some b), s1) /\ 0 < s_heap s1 b I /\
  A = matF E g (fun _ => 0) false /\
  forall ext lu pard ev pt db d xa r, b <> xa -> lu A vzero (s_heap s1 b) = Ok r ->
  exists s', solve_problem E ext lu pard ev pt db d OtherSolver b xa false s1 = (Ok tt, s') /\
  mult (dimF E) A (s_heap s' xa) I <> s_heap s1 b I.
Proof.
  destruct (exP_ok 0 0 1 false false) as [c HC]; try lia. pose proof (construct_inv _ _ HC) as HB.
  set (E := exE exI c). assert (HE : env_ok E) by (apply exE_ok, (bu_N _ _ HB)).
  assert (HG : good (exP 0 0 1 false false) E exG) by (apply exE_good; exact HC).
  assert (Hj : g_jump exG <> 0) by (cbn; lra).
  destruct (C55_third_choice_wrong _ E exG true (fun _ => 0) (fun _ => vzero) 5 HG Hj) as [s1 [b [D1 HW]]].
  destruct (C64_refuted _ E exG (fun _ => 0) (fun _ => vzero) 5%nat HG Hj eq_refl) as [s1' [b' [D2 HF]]].
  rewrite D1 in D2. injection D2 as <- <-.
  pose proof (ex_full c 2 (bu_N _ _ HB)) as HN.
  set (I := dof (e_Lf E) 2 0 0). 
  assert (HI : (I < dimF E)%nat) by (unfold I, dimF; eapply dof_lt; [apply (eo_f _ HE)|lia|exact HN|cbn; lia]).
  assert (HP : 0 < s_heap s1 b I).
  { rewrite HF. unfold tiny_rhs, integ.
    assert (EB : forall l, (l < 3)%nat -> basF E I 2%nat 0%nat l = delta 0 l).
    { intros l Hl. unfold basF, I. rewrite unit_at; try exact HE; try lia; try exact HN; try (cbn; lia). reflexivity. }
    cbn [e_D E exE d_pts exI]. rewrite !Rsum_cons, Rsum_nil. cbn [d_w exI wval].
    unfold fev. cbn [d_dim exI d_tab seq]. rewrite !Rsum_cons, !Rsum_nil. rewrite !EB by lia. unfold delta. cbn [exI_dof Nat.eqb].
    decimals. lra. }
  exists (exP 0 0 1 false false), E, exG, (fun _ => 0), (fun _ => vzero), 5%nat, s1, b, I. eexists.
  split; [exact HG|]. split; [exact HE|]. split; [exact HI|]. split; [exact D1|]. split; [exact HP|]. split; [reflexivity|].
  intros ext lu pard ev pt db d xa r Hb Hr. destruct (HW ext lu pard ev pt db d xa r Hb Hr) as [s' [H1 [H2 _]]].
  exists s'. split; [exact H1|]. apply H2. lra.
Qed.

(** the hypotheses of C55_partial and C64_refuted hold for a concrete object *)
Example C55_nonvacuous : forall N, (1 <= N <= 1000)%nat -> exists P E g, good P E g /\ g_jump g <> 0 /\ env_ok E /\
  p_jumps P = false /\ p_wp P = false /\ nonneg_dx (e_D E) /\ p_N P = N.
Proof.
  intros N HN. destruct (exP_ok 0 0 N false false) as [c HC]; try lia. pose proof (construct_inv _ _ HC) as HB.
  exists (exP 0 0 N false false), (exE exI c), exG. split; [apply exE_good; exact HC|]. split; [cbn; lra|].
  split; [apply exE_ok, (bu_N _ _ HB)|]. split; [reflexivity|]. split; [reflexivity|]. split; [|reflexivity].
  intros p _. cbn. lra.
Qed.

Print Assumptions C55_partial.
Print Assumptions C55_third_choice_wrong.
Print Assumptions C55_refuted.
Print Assumptions C64_rhs.
Print Assumptions C64_refuted.
