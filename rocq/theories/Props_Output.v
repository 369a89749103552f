(** Props_Output.v -- property C93: what SpaceTime and the drivers print. *)
From Coq Require Import Reals List ZArith Lra Lia Bool Ascii String Floats.SpecFloat FunctionalExtensionality.
From Verif Require Import Base TimeModel FormModel SpaceTimeForms SpaceTimeModel ErrorsModel Lifecycle LifeProofs LifeFrames GmresModel DriverModel MonitorModel OutputModel OutputProofs.
Import ListNotations.
Open Scope list_scope.
Open Scope R_scope.
Open Scope monad_scope.

(** started in [s], [mo] ends with [r] in [s'] and prints [l], whatever was printed before *)
Definition prints {S A} (mo : M (S * list line) A) (s : S) (r : res A) (s' : S) (l : list line) : Prop :=
  forall o, mo (s, o) = (r, (s', o ++ l)).

Lemma prints_agrees {S A} (mo : M (S * list line) A) m s r s' l : agrees mo m -> m s = (r, s') -> outs mo s = l -> prints mo s r s' l.
Proof. intros H E <- o. rewrite (H s o), E. reflexivity. Qed.
Lemma bind_prints {S A B} (mo : M (S * list line) A) m (fo : A -> M (S * list line) B) f s b s'' :
  agrees mo m -> (forall a, agrees (fo a) (f a)) -> bind m f s = (Ok b, s'') ->
  exists a s', m s = (Ok a, s') /\ f a s' = (Ok b, s'') /\ outs (bind mo fo) s = outs mo s ++ outs (fo a) s'.
Proof.
  intros Hm Hf H. destruct (bind_both mo m fo f Hm Hf) as [_ HO]. rewrite (HO s). unfold bind in H.
  destruct (m s) as [[a|e] s'] eqn:E; [|discriminate H]. exists a, s'. repeat split; assumption.
Qed.
Lemma outs_say {S A} l (mo : M (S * list line) A) m s : agrees mo m -> outs (print l ;; mo) s = l :: outs mo s.
Proof.
  intro H. rewrite (outs_bind (print l) (ret tt)); [|apply agrees_print|intros; exists m; exact H]. reflexivity.
Qed.
Lemma outs_say_if {S A} b l (mo : M (S * list line) A) m s : agrees mo m -> outs (print_if b l ;; mo) s = (if b then [l] else []) ++ outs mo s.
Proof.
  intro H. rewrite (outs_bind (print_if b l) (ret tt)); [|apply agrees_print_if|intros; exists m; exact H].
  rewrite outs_print_if. reflexivity.
Qed.

(** ** Printing changes nothing else *)
Theorem C93_same : forall E verbose k s o, exists l,
  out_step E verbose k (s, o) = (returns E k s, (snd (step E k s), o ++ l)).
Proof. intros E v k s o. exists (outs (out_step E v k) s). exact (agree_step E v k s o). Qed.
Theorem C93_session : forall E verbose ks s o, exists l, out_run E verbose ks (s, o) = (after E ks s, o ++ l).
Proof. intros E v ks s o. apply agree_run. Qed.

(** ** Matrices and right-hand sides *)
(** the calls that put the space-time matrix together, and those that put the right-hand side together *)
Definition matrix_now (k : call) (s : state) : bool :=
  match k with
  | Build_matrix _ | Prepare_coarse _ => true
  | Get_matrix _ => is_none (s_stm s)
  | Get_bfi _ => is_none (s_stb s)
  | _ => false
  end.
Definition rhs_now (k : call) (s : state) : bool :=
  match k with
  | Setup_rhs => true
  | Get_rhs | Prepare => is_none (s_rhs s)
  | Get_lfi => is_none (s_lfi s)
  | _ => false
  end.
Definition is_measure (k : call) : bool := match k with Measure _ => true | _ => false end.
(** the first slab exists and carries initial data *)
Definition initial_data (E : env) : bool := c_wp (e_c E) && negb (Nat.eqb (c_N (e_c E)) 0).
Definition matrix_lines (E : env) : list line :=
  (if initial_data E then [[T "Adding initial data."]] else []) ++ [[T "Creating bfi"]; [T "assemble matrix"]].
Definition rhs_lines (E : env) : list line :=
  if initial_data E then [[T "Adding initial data on right hand side"]] else [].

Lemma has_init_eq E : has_init E = initial_data E.
Proof. unfold has_init, initial_data. rewrite andb_comm. destruct (c_N (e_c E)); reflexivity. Qed.

Lemma outs_matrix E D0 L0 om p s a s' : setup_spacetime_matrix E D0 L0 om p s = (Ok a, s') ->
  s' = s /\ outs (out_matrix E D0 L0 om p) s = matrix_lines E.
Proof.
  unfold setup_spacetime_matrix, bind, lift. destruct (get_gammas (c_stab (e_c E))) as [g|e] eqn:EG; [|discriminate].
  unfold fem_form. destruct (forallb has_domain (st_form (e_c E) g om p)) eqn:E1; [|discriminate].
  destruct (wf_bform 4 (nc_full (e_c E)) (st_form (e_c E) g om p)) eqn:E2; [|discriminate].
  destruct (existsb nonzero_t (st_form (e_c E) g om p)) eqn:E3; [|discriminate].
  intro H. injection H as _ <-. split; [reflexivity|].
  unfold outs, out_matrix, bind, lift. rewrite EG, E1, E2, E3. unfold matrix_lines. rewrite <- has_init_eq.
  destruct (has_init E); reflexivity.
Qed.
Lemma outs_build E p s s' : build_spacetime E p s = (Ok tt, s') -> outs (out_build E p) s = matrix_lines E.
Proof.
  unfold build_spacetime. intro H. unfold bind, need_fes, get, err_if, bind in H. destruct (s_fes s) eqn:Ef; [|discriminate H].
  cbn [negb] in H. unfold ret in H.
  destruct (setup_spacetime_matrix E (e_D E) (e_Lf E) (s_om s) p s) as [[[A f]|e] s1] eqn:EM; [|discriminate H].
  destruct (outs_matrix _ _ _ _ _ _ _ _ EM) as [-> O1].
  unfold outs, out_build. unfold bind at 1. unfold quiet at 1. unfold need_fes, bind, get, err_if. rewrite Ef. cbn [negb]. unfold ret, quiet at 1.
  pose proof (agree_matrix E (e_D E) (e_Lf E) (s_om s) p s []) as G. rewrite EM in G. rewrite G. cbn [fst snd app]. exact O1.
Qed.
Lemma outs_rhs E s s' : setup_rhs E s = (Ok tt, s') -> outs (out_rhs E) s = rhs_lines E.
Proof.
  unfold setup_rhs, bind, need_fes, get, err_if, bind, lift. destruct (s_fes s) eqn:Ef; [|discriminate]. cbn [negb]. unfold ret.
  destruct (lookup (c_stab (e_c E)) "primal-jump") as [gj|] eqn:E1; [|discriminate].
  destruct (lookup (c_stab (e_c E)) "data") as [gd|] eqn:E2; [|discriminate].
  destruct (c_wp (e_c E) && is_zero (c_dt (e_c E))) eqn:E3; [discriminate|].
  destruct (fem_lform _ _ _) as [f|] eqn:E4; [|discriminate]. intros _.
  unfold outs, out_rhs, bind, quiet, need_fes, get, err_if, bind, lift. rewrite Ef. cbn [negb]. unfold ret. rewrite E1, E2.
  unfold rhs_lines. rewrite <- has_init_eq.
  unfold print_if. destruct (has_init E); unfold print, modify, ret; rewrite E3; unfold ret; rewrite E4; reflexivity.
Qed.

Definition rhs_frame (x : option nat) (s : state) : Prop := s_rhs s = x.
Lemma bind_ok {S A B} (m : M S A) (f : A -> M S B) s b s'' : bind m f s = (Ok b, s'') -> exists a s', m s = (Ok a, s') /\ f a s' = (Ok b, s'').
Proof. unfold bind. destruct (m s) as [[a|e] s'] eqn:E; [|discriminate]. intro H. exists a, s'. split; [reflexivity|exact H]. Qed.
Lemma outs_skip {S A B} (m : M S A) (fo : A -> M (S * list line) B) s a s1 : m s = (Ok a, s1) -> outs (bind (quiet m) fo) s = outs (fo a) s1.
Proof. intro H. unfold outs, bind, quiet. rewrite H. reflexivity. Qed.

Lemma answers_ok {A} (f : A -> answer) (m : M state A) s a s' : answers f m s = (Ok a, s') -> exists x, m s = (Ok x, s') /\ a = f x.
Proof.
  unfold answers, bind, ret. destruct (m s) as [[x|e] t]; [|discriminate]. intro H. injection H as <- <-. exists x. split; reflexivity.
Qed.
Lemma outs_answers {A} (f : A -> answer) (mo : O A) m s : agrees mo m -> outs (out_answers f mo) s = outs mo s.
Proof.
  intro H. unfold out_answers. rewrite (outs_bind mo m); [|exact H|intro; eexists; apply agrees_ret].
  destruct (m s) as [[x|e] t]; [rewrite outs_ret|]; rewrite app_nil_r; reflexivity.
Qed.

(** started in [s] a get statement prints nothing and goes on *)
Lemma outs_get {S B} (fo : S -> M (S * list line) B) s : outs (bind (quiet get) fo) s = outs (fo s) s.
Proof. reflexivity. Qed.

Theorem C93_matrix_and_rhs : forall E verbose k s a s', is_measure k = false -> step E k s = (Ok a, s') ->
  prints (out_step E verbose k) s (Ok a) s'
    ((if matrix_now k s then matrix_lines E else []) ++ (if rhs_now k s then rhs_lines E else [])).
Proof.
  intros E v k s a s' Hk H. apply (prints_agrees _ (step E k)); [apply agree_step|exact H|].
  destruct k; try discriminate Hk; cbn [out_step matrix_now rhs_now app]; try (rewrite outs_quiet; reflexivity).
  - (* Build_matrix *) cbn [step] in H. unfold bind at 1 in H. unfold need_fes, bind, get, err_if in H.
    destruct (s_fes s) eqn:Ef; [|discriminate H]. cbn [negb] in H. unfold ret at 1 in H.
    apply answers_ok in H. destruct H as [x [H _]]. destruct (outs_matrix _ _ _ _ _ _ _ _ H) as [_ O1].
    rewrite (outs_skip _ _ s tt s) by (unfold need_fes, bind, get, err_if; rewrite Ef; reflexivity).
    rewrite outs_get, (outs_answers _ _ _ _ (agree_matrix E _ _ _ _)), O1, app_nil_r. reflexivity.
  - (* Get_matrix *) cbn [step] in H. apply answers_ok in H. destruct H as [x [H _]].
    rewrite (outs_answers _ _ _ _ (agree_get_matrix E _)), app_nil_r. unfold out_get_matrix. rewrite outs_get.
    unfold get_spacetime_matrix, bind at 1, get at 1 in H. destruct (s_stm s) as [A|]; [reflexivity|]. cbn [is_none].
    rewrite (outs_bind _ _ _ _ (agree_build E precond)); [|intro; eexists; agree].
    unfold bind in H. destruct (build_spacetime E precond s) as [[[]|e] s1] eqn:EB; [|discriminate H].
    rewrite (outs_build _ _ _ _ EB), outs_get, outs_ret, app_nil_r. reflexivity.
  - (* Get_bfi *) cbn [step] in H. apply answers_ok in H. destruct H as [x [H _]].
    rewrite (outs_answers _ _ _ _ (agree_get_bfi E _)), app_nil_r. unfold out_get_bfi. rewrite outs_get.
    unfold get_spacetime_bfi, bind at 1, get at 1 in H. destruct (s_stb s) as [A|]; [reflexivity|]. cbn [is_none].
    rewrite (outs_bind _ _ _ _ (agree_build E precond)); [|intro; eexists; agree].
    unfold bind in H. destruct (build_spacetime E precond s) as [[[]|e] s1] eqn:EB; [|discriminate H].
    rewrite (outs_build _ _ _ _ EB), outs_get, outs_ret, app_nil_r. reflexivity.
  - (* Setup_rhs *) cbn [step] in H. unfold done in H. apply answers_ok in H. destruct H as [[] [H _]].
    rewrite (outs_answers _ _ _ _ (agree_rhs E)). exact (outs_rhs _ _ _ H).
  - (* Get_rhs *) cbn [step] in H. apply answers_ok in H. destruct H as [x [H _]].
    rewrite (outs_answers _ _ _ _ (agree_get_rhs E)). unfold out_get_rhs. rewrite outs_get.
    unfold get_spacetime_rhs, bind at 1, get at 1 in H. destruct (s_rhs s) as [i|]; [reflexivity|]. cbn [is_none].
    rewrite (outs_bind _ _ _ _ (agree_rhs E)); [|intro; eexists; agree].
    unfold bind in H. destruct (setup_rhs E s) as [[[]|e] s1] eqn:EB; [|discriminate H].
    rewrite (outs_rhs _ _ _ EB), outs_get, outs_ret, app_nil_r. reflexivity.
  - (* Get_lfi *) cbn [step] in H. apply answers_ok in H. destruct H as [x [H _]].
    rewrite (outs_answers _ _ _ _ (agree_get_lfi E)). unfold out_get_lfi. rewrite outs_get.
    unfold get_spacetime_lfi, bind at 1, get at 1 in H. destruct (s_lfi s) as [i|]; [reflexivity|]. cbn [is_none].
    rewrite (outs_bind _ _ _ _ (agree_rhs E)); [|intro; eexists; agree].
    unfold bind in H. destruct (setup_rhs E s) as [[[]|e] s1] eqn:EB; [|discriminate H].
    rewrite (outs_rhs _ _ _ EB), outs_get, outs_ret, app_nil_r. reflexivity.
  - (* Prepare *) cbn [step] in H. unfold done in H. apply answers_ok in H. destruct H as [[] [H _]].
    rewrite (outs_answers _ _ _ _ (agree_prepare E)). unfold out_prepare. unfold prepare_precondition_gmres in H.
    rewrite outs_get. apply bind_ok in H. destruct H as [t0 [t0' [H0 H]]]. injection H0 as <- <-.
    pose proof (eq_refl : rhs_frame (s_rhs s) s) as F.
    apply bind_ok in H. destruct H as [[] [s1 [H1 H]]]. rewrite (outs_skip _ _ _ _ _ H1). rewrite outs_get.
    assert (F1 : rhs_frame (s_rhs s) s1).
    { enough (X : okat (rhs_frame (s_rhs s)) (if is_none (s_slm s) then setup_slab_matrix E true;; modify (w_brp (Some vzero)) else ret tt) s)
        by (unfold okat in X; rewrite H1 in X; exact X). revert F. generalize (s_rhs s). intros r F. walk leaf. }
    apply bind_ok in H. destruct H as [t0 [t0' [H0 H]]]. injection H0 as <- <-.
    apply bind_ok in H. destruct H as [[] [s2 [H2 H]]]. rewrite (outs_skip _ _ _ _ _ H2). rewrite outs_get.
    assert (F2 : rhs_frame (s_rhs s) s2).
    { enough (X : okat (rhs_frame (s_rhs s)) (if is_none (s_fim s1) && negb (c_wp (e_c E)) then setup_slab_matrix E false else ret tt) s1)
        by (unfold okat in X; rewrite H2 in X; exact X). revert F1. generalize (s_rhs s). intros r F1. walk leaf. }
    apply bind_ok in H. destruct H as [t0 [t0' [H0 H]]]. injection H0 as <- <-.
    apply bind_ok in H. destruct H as [[] [s3 [H3 H]]]. rewrite (outs_skip _ _ _ _ _ H3). rewrite outs_get.
    assert (F3 : rhs_frame (s_rhs s) s3).
    { enough (X : okat (rhs_frame (s_rhs s)) (if is_none (s_com s2) then setup_coupling E else ret tt) s2)
        by (unfold okat in X; rewrite H3 in X; exact X). revert F2. generalize (s_rhs s). intros r F2. walk leaf. }
    unfold rhs_frame in F3. rewrite F3.
    apply bind_ok in H. destruct H as [t0 [t0' [H0 H]]]. injection H0 as <- <-. rewrite F3 in H.
    apply bind_ok in H. destruct H as [[] [s4 [H4 H]]]. destruct (s_rhs s) as [i|]; cbn [is_none] in *.
    + unfold outs, bind, ret, quiet, get. destruct (is_none (s_mam s3)); [|reflexivity].
      destruct (setup_scaled_mass E s3) as [[?|?] ?]; reflexivity.
    + rewrite (outs_bind _ _ _ _ (agree_rhs E)); [|intro; eexists; agree]. rewrite H4, (outs_rhs _ _ _ H4), outs_get, outs_quiet, app_nil_r. reflexivity.
  - (* Prepare_coarse *) cbn [step] in H. unfold done in H. apply answers_ok in H. destruct H as [[] [H _]].
    rewrite (outs_answers _ _ _ _ (agree_coarse E K)), app_nil_r. unfold out_coarse. unfold prepare_coarse in H.
    apply bind_ok in H. destruct H as [[] [s1 [H1 H]]]. rewrite (outs_skip _ _ _ _ _ H1).
    apply bind_ok in H. destruct H as [[] [s2 [H2 H]]]. rewrite (outs_skip _ _ _ _ _ H2).
    apply bind_ok in H. destruct H as [[] [s3 [H3 H]]]. rewrite (outs_skip _ _ _ _ _ H3). rewrite outs_get.
    apply bind_ok in H. destruct H as [t0 [t0' [H0 H]]]. injection H0 as <- <-.
    apply bind_ok in H. destruct H as [[A f] [s4 [H4 H]]].
    rewrite (outs_bind _ _ _ _ (agree_matrix E _ _ _ _)); [|intros [? ?]; eexists; agree].
    rewrite H4. destruct (outs_matrix _ _ _ _ _ _ _ _ H4) as [-> ->].
    apply bind_ok in H. destruct H as [[] [s5 [H5 H]]]. rewrite (outs_skip _ _ _ _ _ H5). rewrite outs_get.
    apply bind_ok in H. destruct H as [t0 [t0' [H0 H]]]. injection H0 as <- <-.
    apply bind_ok in H. destruct H as [x [s6 [H6 H]]]. rewrite (outs_bind _ _ _ _ (agrees_need _ _)); [|intro; eexists; agree].
    rewrite H6, outs_need, outs_quiet, app_nil_r. reflexivity.
Qed.

(** *** Failing calls print a first part of these lines *)
Definition prefix (l full : list line) : Prop := exists l', full = l ++ l'.
Lemma prefix_nil l : prefix [] l. Proof. exists l. reflexivity. Qed.
Lemma prefix_refl l : prefix l l. Proof. exists []. rewrite app_nil_r. reflexivity. Qed.
Lemma prefix_bind {S A B} (mo : M (S * list line) A) m (fo : A -> M (S * list line) B) s full : agrees mo m -> (forall a, exists fa, agrees (fo a) fa) ->
  prefix (outs mo s) full -> (forall a s', m s = (Ok a, s') -> prefix (outs mo s ++ outs (fo a) s') full) -> prefix (outs (bind mo fo) s) full.
Proof.
  intros H1 H2 H3 H4. rewrite (outs_bind mo m fo s H1 H2). destruct (m s) as [[a|e] s'] eqn:E; [apply H4; reflexivity|].
  rewrite app_nil_r. exact H3.
Qed.
Lemma prefix_quiet {S A B} (m : M S A) (fo : A -> M (S * list line) B) s full :
  (forall a s', m s = (Ok a, s') -> prefix (outs (fo a) s') full) -> prefix (outs (bind (quiet m) fo) s) full.
Proof.
  intro H. unfold outs, bind, quiet. destruct (m s) as [[a|e] s'] eqn:E; [exact (H a s' eq_refl)|apply prefix_nil].
Qed.
Lemma prefix_answers {A} (f : A -> answer) (mo : O A) m s full : agrees mo m -> prefix (outs mo s) full -> prefix (outs (out_answers f mo) s) full.
Proof. intros H P. rewrite (outs_answers _ _ _ _ H). exact P. Qed.

Lemma matrix_failure E D0 L0 om p s e s' : setup_spacetime_matrix E D0 L0 om p s = (Err e, s') ->
  outs (out_matrix E D0 L0 om p) s = match e with
    | UFLError => (if initial_data E then [[T "Adding initial data."]] else []) ++ [[T "Creating bfi"]]
    | RuntimeError => matrix_lines E
    | _ => [] end /\ (e = KeyError \/ e = ValueError \/ e = UFLError \/ e = RuntimeError).
Proof.
  unfold setup_spacetime_matrix, bind, lift. destruct (get_gammas (c_stab (e_c E))) as [g|x] eqn:EG.
  2: { intro H. injection H as -> _. assert (X : e = KeyError).
       { revert EG. unfold get_gammas, rbind, lookup. repeat match goal with |- context [match ?o with Some _ => _ | None => _ end] => destruct o end;
           intro H; try discriminate H; injection H as <-; reflexivity. }
       subst e. split; [|tauto]. unfold outs, out_matrix, bind, lift. rewrite EG. reflexivity. }
  unfold fem_form. destruct (forallb has_domain (st_form (e_c E) g om p)) eqn:E1.
  2: { intro H. injection H as <- _. split; [|tauto]. unfold outs, out_matrix, bind, lift. rewrite EG, E1. reflexivity. }
  destruct (wf_bform 4 (nc_full (e_c E)) (st_form (e_c E) g om p)) eqn:E2.
  2: { intro H. injection H as <- _. split; [|tauto]. unfold outs, out_matrix, bind, lift. rewrite EG, E1, E2. rewrite <- has_init_eq.
       destruct (has_init E); reflexivity. }
  destruct (existsb nonzero_t (st_form (e_c E) g om p)) eqn:E3; [discriminate|].
  intro H. injection H as <- _. split; [|tauto].
  unfold outs, out_matrix, bind, lift. rewrite EG, E1, E2, E3. unfold matrix_lines. rewrite <- has_init_eq.
  destruct (has_init E); reflexivity.
Qed.
Lemma matrix_prefix E D0 L0 om p s : prefix (outs (out_matrix E D0 L0 om p) s) (matrix_lines E).
Proof.
  destruct (setup_spacetime_matrix E D0 L0 om p s) as [[a|e] s'] eqn:EM.
  - rewrite (proj2 (outs_matrix _ _ _ _ _ _ _ _ EM)). apply prefix_refl.
  - destruct (matrix_failure _ _ _ _ _ _ _ _ EM) as [-> He]. destruct He as [-> | [-> | [-> | ->]]]; try apply prefix_nil; [|apply prefix_refl].
    exists [[T "assemble matrix"]]. unfold matrix_lines. rewrite <- app_assoc. reflexivity.
Qed.
Lemma build_prefix E p s : prefix (outs (out_build E p) s) (matrix_lines E).
Proof.
  unfold out_build. apply prefix_quiet. intros _ s1 _. rewrite outs_get.
  apply (prefix_bind _ _ _ _ _ (agree_matrix E _ _ _ _)); [intros [A f]; eexists; agree|apply matrix_prefix|].
  intros [A f] s2 _. rewrite outs_quiet, app_nil_r. apply matrix_prefix.
Qed.
Lemma rhs_prefix E s : prefix (outs (out_rhs E) s) (rhs_lines E).
Proof.
  destruct (setup_rhs E s) as [[[]|e] s'] eqn:ER; [rewrite (outs_rhs _ _ _ ER); apply prefix_refl|].
  unfold out_rhs. apply prefix_quiet. intros _ s1 _.
  apply (prefix_bind _ _ _ _ _ (agrees_lift _)); [intros; eexists; agree|apply prefix_nil|]. intros gj s2 _. rewrite outs_lift. cbn [app].
  apply (prefix_bind _ _ _ _ _ (agrees_lift _)); [intros; eexists; agree|apply prefix_nil|]. intros gd s3 _. rewrite outs_lift. cbn [app].
  erewrite outs_say_if by agree.
  assert (X : forall A (mo : O A), outs mo s3 = [] -> prefix ((if has_init E then [l_rhs] else []) ++ outs mo s3) (rhs_lines E)).
  { intros A mo ->. rewrite app_nil_r. rewrite has_init_eq. apply prefix_refl. }
  apply X. clear. unfold outs, bind, quiet. destruct (err_if _ _ s3) as [[?|?] ?]; [|reflexivity]. cbn [fst snd].
  unfold get, lift. destruct (fem_lform _ _ _); reflexivity.
Qed.
Theorem C93_prefix : forall E verbose k s, is_measure k = false -> exists r s' l, step E k s = (r, s') /\
  prints (out_step E verbose k) s r s' l /\
  prefix l ((if matrix_now k s then matrix_lines E else []) ++ (if rhs_now k s then rhs_lines E else [])).
Proof.
  intros E v k s Hk. destruct (step E k s) as [r s'] eqn:H. exists r, s', (outs (out_step E v k) s). split; [reflexivity|].
  split; [exact (prints_agrees _ _ _ _ _ _ (agree_step E v k) H eq_refl)|]. clear H.
  destruct k; try discriminate Hk; cbn [out_step matrix_now rhs_now app]; try (rewrite outs_quiet; apply prefix_nil).
  - apply prefix_quiet. intros _ s1 _. rewrite outs_get, app_nil_r. apply (prefix_answers _ _ _ _ _ (agree_matrix E _ _ _ _)), matrix_prefix.
  - rewrite app_nil_r. apply (prefix_answers _ _ _ _ _ (agree_get_matrix E _)). unfold out_get_matrix. rewrite outs_get.
    destruct (s_stm s); [apply prefix_nil|]. cbn [is_none].
    apply (prefix_bind _ _ _ _ _ (agree_build E _)); [intros; eexists; agree|apply build_prefix|]. intros _ s1 _.
    rewrite outs_get, outs_ret, app_nil_r. apply build_prefix.
  - rewrite app_nil_r. apply (prefix_answers _ _ _ _ _ (agree_get_bfi E _)). unfold out_get_bfi. rewrite outs_get.
    destruct (s_stb s); [apply prefix_nil|]. cbn [is_none].
    apply (prefix_bind _ _ _ _ _ (agree_build E _)); [intros; eexists; agree|apply build_prefix|]. intros _ s1 _.
    rewrite outs_get, outs_ret, app_nil_r. apply build_prefix.
  - apply (prefix_answers _ _ _ _ _ (agree_rhs E)), rhs_prefix.
  - apply (prefix_answers _ _ _ _ _ (agree_get_rhs E)). unfold out_get_rhs. rewrite outs_get.
    destruct (s_rhs s); [apply prefix_nil|]. cbn [is_none].
    apply (prefix_bind _ _ _ _ _ (agree_rhs E)); [intros; eexists; agree|apply rhs_prefix|]. intros _ s1 _.
    rewrite outs_get, outs_ret, app_nil_r. apply rhs_prefix.
  - apply (prefix_answers _ _ _ _ _ (agree_get_lfi E)). unfold out_get_lfi. rewrite outs_get.
    destruct (s_lfi s); [apply prefix_nil|]. cbn [is_none].
    apply (prefix_bind _ _ _ _ _ (agree_rhs E)); [intros; eexists; agree|apply rhs_prefix|]. intros _ s1 _.
    rewrite outs_get, outs_ret, app_nil_r. apply rhs_prefix.
  - apply (prefix_answers _ _ _ _ _ (agree_prepare E)). unfold out_prepare. rewrite outs_get.
    pose proof (eq_refl : rhs_frame (s_rhs s) s) as F.
    apply prefix_quiet. intros [] s1 H1. rewrite outs_get.
    assert (F1 : rhs_frame (s_rhs s) s1).
    { enough (X : okat (rhs_frame (s_rhs s)) (if is_none (s_slm s) then setup_slab_matrix E true;; modify (w_brp (Some vzero)) else ret tt) s)
        by (unfold okat in X; rewrite H1 in X; exact X). revert F. generalize (s_rhs s). intros rr F. walk leaf. }
    apply prefix_quiet. intros [] s2 H2. rewrite outs_get.
    assert (F2 : rhs_frame (s_rhs s) s2).
    { enough (X : okat (rhs_frame (s_rhs s)) (if is_none (s_fim s1) && negb (c_wp (e_c E)) then setup_slab_matrix E false else ret tt) s1)
        by (unfold okat in X; rewrite H2 in X; exact X). revert F1. generalize (s_rhs s). intros rr F1. walk leaf. }
    apply prefix_quiet. intros [] s3 H3. rewrite outs_get.
    assert (F3 : rhs_frame (s_rhs s) s3).
    { enough (X : okat (rhs_frame (s_rhs s)) (if is_none (s_com s2) then setup_coupling E else ret tt) s2)
        by (unfold okat in X; rewrite H3 in X; exact X). revert F2. generalize (s_rhs s). intros rr F2. walk leaf. }
    unfold rhs_frame in F3. rewrite F3. destruct (s_rhs s) as [i|]; cbn [is_none].
    + apply (prefix_bind _ _ _ _ _ (agrees_ret _)); [intros; eexists; agree|apply prefix_nil|]. intros _ s4 _.
      rewrite outs_ret, outs_get, outs_quiet. apply prefix_nil.
    + apply (prefix_bind _ _ _ _ _ (agree_rhs E)); [intros; eexists; agree|apply rhs_prefix|]. intros _ s4 _.
      rewrite outs_get, outs_quiet, app_nil_r. apply rhs_prefix.
  - rewrite app_nil_r. apply (prefix_answers _ _ _ _ _ (agree_coarse E K)). unfold out_coarse.
    apply prefix_quiet. intros _ s1 _. apply prefix_quiet. intros _ s2 _. apply prefix_quiet. intros _ s3 _. rewrite outs_get.
    apply (prefix_bind _ _ _ _ _ (agree_matrix E _ _ _ _)); [intros [A f]; eexists; agree|apply matrix_prefix|]. intros [A f] s4 _.
    match goal with |- prefix (_ ++ outs ?mo s4) _ => assert (X : outs mo s4 = []) end.
    { unfold outs, bind, quiet, modify, get. destruct (need _ _ _) as [[?|?] [? ?]] eqn:EN; revert EN; unfold need, ret, raise;
        destruct (s_lfi _); intro EN; try discriminate EN; injection EN as; subst; reflexivity. }
    rewrite X, app_nil_r. apply matrix_prefix.
Qed.
(** which part, when setup_spacetime_matrix fails *)
Theorem C93_matrix_failure : forall E verbose p s e s', step E (Build_matrix p) s = (Err e, s') -> s_fes s = true ->
  prints (out_step E verbose (Build_matrix p)) s (Err e) s'
    (match e with
     | UFLError => (if initial_data E then [[T "Adding initial data."]] else []) ++ [[T "Creating bfi"]]
     | RuntimeError => matrix_lines E
     | _ => [] end).
Proof.
  intros E v p s e s' H Hf. apply (prints_agrees _ _ _ _ _ _ (agree_step E v (Build_matrix p)) H).
  cbn [out_step]. rewrite (outs_skip _ _ s tt s) by (unfold need_fes, bind, get, err_if; rewrite Hf; reflexivity).
  rewrite outs_get, (outs_answers _ _ _ _ (agree_matrix E _ _ _ _)).
  cbn [step] in H. unfold bind, need_fes, get, err_if, bind in H. rewrite Hf in H. cbn [negb] in H. unfold ret, answers, bind in H.
  destruct (setup_spacetime_matrix E (e_D E) (e_Lf E) (s_om s) p s) as [[[A f]|x] t] eqn:EM; [discriminate H|].
  injection H as -> _. exact (proj1 (matrix_failure _ _ _ _ _ _ _ _ EM)).
Qed.

(** ** measured_errors *)
(** a sample time, the two errors there *)
Record row : Type := mkRow { r_t : R; r_u : R; r_ut : R }.
Definition row_line (r : row) : line :=
  [T "t = "; V (r_t r); T ", L2-error u = "; V (r_u r); T ", L2-error u_t = "; V (r_ut r); T " "].
(** the sample times of one slab, and of all slabs in order *)
Definition times_of (E : env) (n : nat) : list R :=
  filter (fun t => if Rle_dec (INR n * c_dt (e_c E)) t then if Rle_dec t (INR n * c_dt (e_c E) + c_dt (e_c E)) then true else false else false)
    (c_samples (e_c E)).
Definition all_times (E : env) : list R := flat_map (times_of E) (seq 0 (c_N (e_c E))).

Lemma filter_in_slab E n : filter (in_slab E (INR n * c_dt (e_c E))) (c_samples (e_c E)) = times_of E n.
Proof.
  unfold times_of. apply filter_ext. intro t. unfold in_slab. destruct (Rle_dec _ t); [|reflexivity].
  destruct (Rle_dec t _); reflexivity.
Qed.
Lemma samples_run E v n tn us um : forall ts acc s acc' s', 
  for_acc ts (fun t acc => lift (me_sample E n tn us um t acc)) acc s = (Ok acc', s') ->
  s' = s /\ exists rows, map r_t rows = filter (in_slab E tn) ts /\
  acc' = (fst acc ++ map r_u rows, snd acc ++ map r_ut rows) /\
  outs (for_acc ts (out_sample E v n tn us um) acc) s = if v then map row_line rows else [].
Proof.
  induction ts as [|t ts IH]; intros acc s acc' s' H.
  - injection H as <- <-. split; [reflexivity|]. exists []. cbn [map]. rewrite !app_nil_r. destruct acc; destruct v; repeat split; reflexivity.
  - cbn [for_acc] in H |- *. apply bind_ok in H. destruct H as [a1 [s1 [H1 H]]]. injection H1 as H1 <-.
    rewrite (outs_bind _ _ _ _ (agree_sample E v n tn us um t acc)); [|intro; eexists; apply agrees_for; intros; apply agree_sample].
    unfold lift at 1. rewrite H1. destruct (IH _ _ _ _ H) as [-> [rows [R1 [R2 R3]]]]. split; [reflexivity|].
    unfold me_sample in H1. cbn [filter]. destruct (in_slab E tn t) eqn:EI.
    + destruct (py_sqrt (l2sq E (fun p => uh_at E n tn t us um p - c_v (e_c E) t (d_x (e_D E) p)))) as [e1|] eqn:Q1; [|discriminate H1].
      destruct (py_sqrt (l2sq E (fun p => duh_at E n tn t us um p - c_dv (e_c E) t (d_x (e_D E) p)))) as [e2|] eqn:Q2; [|discriminate H1].
      cbn [rbind] in H1. injection H1 as <-. exists (mkRow t e1 e2 :: rows). cbn [map r_t r_u r_ut]. rewrite R1. split; [reflexivity|].
      split; [rewrite R2; cbn [fst snd]; rewrite <- !app_assoc; reflexivity|].
      rewrite R3. unfold outs, out_sample. rewrite EI. unfold bind, lift. rewrite Q1, Q2. destruct v; reflexivity.
    + injection H1 as <-. exists rows. split; [exact R1|]. split; [exact R2|].
      rewrite R3. unfold outs, out_sample. rewrite EI. reflexivity.
Qed.
Lemma slab_run E v n acc s acc' s' : me_slab E n acc s = (Ok acc', s') ->
  exists rows, map r_t rows = times_of E n /\
  fst acc' = (fst (fst acc) ++ map r_u rows, snd (fst acc) ++ map r_ut rows) /\
  outs (out_slab E v n acc) s = if v then map row_line rows else [].
Proof.
  intro H. unfold me_slab in H. unfold out_slab. rewrite outs_get.
  apply bind_ok in H. destruct H as [t0 [t0' [H0 H]]]. injection H0 as <- <-.
  apply bind_ok in H. destruct H as [[] [s1 [H1 H]]]. rewrite (outs_skip _ _ _ _ _ H1).
  apply bind_ok in H. destruct H as [[] [s2 [H2 H]]]. rewrite (outs_skip _ _ _ _ _ H2).
  apply bind_ok in H. destruct H as [[] [s3 [H3 H]]]. rewrite (outs_skip _ _ _ _ _ H3). rewrite outs_get.
  apply bind_ok in H. destruct H as [t0 [t0' [H0 H]]]. injection H0 as <- <-.
  apply bind_ok in H. destruct H as [l [s4 [H4 H]]]. injection H as <- _.
  pose proof (samples_for E n (INR n * c_dt (e_c E)) (s_u1s s3) (s_u1m s3) (c_samples (e_c E)) (fst acc) s3) as G.
  rewrite H4 in G. symmetry in G.
  destruct (samples_run E v _ _ _ _ _ _ _ _ _ G) as [_ [rows [R1 [R2 R3]]]]. rewrite filter_in_slab in R1.
  exists rows. split; [exact R1|]. split; [exact R2|].
  rewrite (outs_bind _ (for_acc (c_samples (e_c E)) (fun t acc => lift (me_sample E n (INR n * c_dt (e_c E)) (s_u1s s3) (s_u1m s3) t acc)) (fst acc))).
  - rewrite R3, G, outs_ret, app_nil_r. reflexivity.
  - apply agrees_for. intros. apply agree_sample.
  - intro. eexists. agree.
Qed.
Lemma slabs_run E v : forall ns acc s acc' s', for_acc ns (me_slab E) acc s = (Ok acc', s') ->
  exists rows, map r_t rows = flat_map (times_of E) ns /\
  fst acc' = (fst (fst acc) ++ map r_u rows, snd (fst acc) ++ map r_ut rows) /\
  outs (for_acc ns (out_slab E v) acc) s = if v then map row_line rows else [].
Proof.
  induction ns as [|n ns IH]; intros acc s acc' s' H.
  - injection H as <- <-. exists []. cbn [map]. rewrite !app_nil_r. destruct acc as [[]]; destruct v; repeat split; reflexivity.
  - cbn [for_acc flat_map] in H |- *. apply bind_ok in H. destruct H as [a1 [s1 [H1 H]]].
    destruct (slab_run E v _ _ _ _ _ H1) as [r1 [A1 [A2 A3]]]. destruct (IH _ _ _ _ H) as [r2 [B1 [B2 B3]]].
    rewrite (outs_bind _ _ _ _ (agree_slab E v n acc)); [|intro; eexists; apply agrees_for; intros; apply agree_slab].
    rewrite H1. exists (r1 ++ r2). rewrite !map_app, A1, B1. split; [reflexivity|].
    split; [rewrite B2, A2; cbn [fst snd]; rewrite <- !app_assoc; reflexivity|].
    rewrite A3, B3. destruct v; reflexivity.
Qed.
(** the greatest entry *)
Definition is_max (m : R) (l : list R) : Prop := In m l /\ forall x, In x l -> x <= m.
Lemma py_max_is l m : py_max l = Ok m -> is_max m l.
Proof.
  destruct l as [|a l]; [discriminate|]. cbn [py_max]. intro H. injection H as <-. revert a.
  induction l as [|b l IH]; intro a; cbn [fold_left].
  - split; [left; reflexivity|intros x [<-|[]]; lra].
  - destruct (Rlt_dec a b) as [L|L].
    + destruct (IH b) as [I1 I2]. split; [destruct I1 as [I1|I1]; [right; left; exact I1|right; right; exact I1]|].
      intros x [<-|[<-|Hx]]; [specialize (I2 b (or_introl eq_refl)); lra|apply I2; left; reflexivity|apply I2; right; exact Hx].
    + destruct (IH a) as [I1 I2]. split; [destruct I1 as [I1|I1]; [left; exact I1|right; right; exact I1]|].
      intros x [<-|[<-|Hx]]; [apply I2; left; reflexivity|specialize (I2 a (or_introl eq_refl)); lra|apply I2; right; exact Hx].
Qed.
Definition head_line (E : env) (e : errors) : line := [T "t = "; V (c_T (e_c E)); T ", L2-error = "; V (er_T e); T " "].
Definition foot_lines (e : errors) : list line :=
  [[T "L-infty-L2 error u = "; T " "; V (er_inf e)]; [T "L-infty-L2 error u_t = "; T " "; V (er_dinf e)]; [T "L2-L2 error u_t = "; T " "; V (er_l2 e)]].
Lemma outs_errors E v u s e s' : measured_errors E u s = (Ok e, s') ->
  exists rows, map r_t rows = all_times E /\ is_max (er_inf e) (map r_u rows) /\ is_max (er_dinf e) (map r_ut rows) /\
  (exists tot s1 s2, load_solution E u s = (Ok tt, s1) /\ for_acc (seq 0 (c_N (e_c E))) (me_slab E) ([], [], 0) s1 = (Ok (map r_u rows, map r_ut rows, tot), s2)) /\
  outs (out_errors E v u) s = head_line E e :: (if v then map row_line rows else []) ++ foot_lines e.
Proof.
  intro H. unfold measured_errors in H. unfold out_errors.
  apply bind_ok in H. destruct H as [[] [s1 [H1 H]]]. rewrite (outs_skip _ _ _ _ _ H1). rewrite outs_get.
  apply bind_ok in H. destruct H as [t0 [t0' [H0 H]]]. injection H0 as <- <-.
  apply bind_ok in H. destruct H as [eT [s2 [H2 H]]]. injection H2 as H2 <-.
  rewrite (outs_bind _ _ _ _ (agrees_lift _)); [|intro; eexists; agree; apply agree_slab]. unfold lift at 2. rewrite H2, outs_lift. cbn [app].
  erewrite outs_say by (agree; apply agree_slab).
  apply bind_ok in H. destruct H as [a [s3 [H3 H]]].
  destruct (slabs_run E v _ _ _ _ _ H3) as [rows [R1 [R2 R3]]].
  rewrite (outs_bind _ (for_acc (seq 0 (c_N (e_c E))) (me_slab E) ([], [], 0))); [|apply agrees_for; intros; apply agree_slab|intro; eexists; agree].
  rewrite R3, H3.
  apply bind_ok in H. destruct H as [m1 [s4 [H4 H]]]. injection H4 as H4 <-.
  rewrite (outs_bind _ _ _ _ (agrees_lift _)); [|intro; eexists; agree]. unfold lift at 2. rewrite H4, outs_lift. cbn [app].
  erewrite outs_say by agree.
  apply bind_ok in H. destruct H as [m2 [s5 [H5 H]]]. injection H5 as H5 <-.
  rewrite (outs_bind _ _ _ _ (agrees_lift _)); [|intro; eexists; agree]. unfold lift at 2. rewrite H5, outs_lift. cbn [app].
  erewrite outs_say by agree.
  apply bind_ok in H. destruct H as [l2 [s6 [H6 H]]]. injection H6 as H6 <-.
  rewrite (outs_bind _ _ _ _ (agrees_lift _)); [|intro; eexists; agree]. unfold lift at 2. rewrite H6, outs_lift. cbn [app].
  erewrite outs_say by agree. rewrite outs_ret. injection H as <- _.
  exists rows. split; [exact R1|]. rewrite R2 in H4, H5. cbn [fst snd app] in H4, H5.
  split; [exact (py_max_is _ _ H4)|]. split; [exact (py_max_is _ _ H5)|]. split; [|reflexivity].
  destruct a as [[a1 a2] tot]. cbn [fst snd app] in R2. injection R2 as -> ->. exists tot, s1, s3. split; [exact H1|exact H3].
Qed.
(** The printed numbers are the returned ones.  With verbose=True, every sample time is
    printed once for each slab it lies in, slab by slab, and the two maxima are those of the
    printed columns. *)
Theorem C93_errors : forall E verbose u s e s', measured_errors E u s = (Ok e, s') ->
  exists rows, map r_t rows = all_times E /\ is_max (er_inf e) (map r_u rows) /\ is_max (er_dinf e) (map r_ut rows) /\
  prints (out_step E verbose (Measure u)) s (Ok (AErr e)) s'
    (head_line E e :: (if verbose then map row_line rows else []) ++ foot_lines e).
Proof.
  intros E v u s e s' H. destruct (outs_errors E v u s e s' H) as [rows [R1 [R2 [R3 [_ R4]]]]]. exists rows.
  split; [exact R1|]. split; [exact R2|]. split; [exact R3|].
  apply (prints_agrees _ (step E (Measure u))); [apply agree_step|cbn [step]; unfold answers, bind, ret; rewrite H; reflexivity|].
  cbn [out_step]. rewrite (outs_answers _ _ _ _ (agree_errors E v u)). exact R4.
Qed.
(** without a sample time in any slab the call fails after its first line *)
Theorem C93_no_samples : forall E verbose u s, all_times E = [] -> s_fes s = true -> c_dt (e_c E) <> 0 ->
  (forall f, 0 <= l2sq E f) -> exists x s', prints (out_step E verbose (Measure u)) s (Err ValueError) s'
    [[T "t = "; V (c_T (e_c E)); T ", L2-error = "; V x; T " "]].
Proof.
  intros E v u s HA Hf Hdt HP.
  assert (Hsq : forall f, py_sqrt (l2sq E f) = Ok (sqrt (l2sq E f))).
  { intro f. unfold py_sqrt. destruct (Rlt_dec (l2sq E f) 0) as [L|L]; [exfalso; specialize (HP f); lra|reflexivity]. }
  set (s1 := snd (load_solution E u s)).
  assert (H1 : load_solution E u s = (Ok tt, s1)).
  { unfold s1, load_solution, bind, need_fes, get, err_if, bind. rewrite Hf. reflexivity. }
  assert (HS : forall n tn us um ts acc, filter (in_slab E tn) ts = [] -> me_samples E n tn us um ts acc = Ok acc).
  { intros n tn us um ts. induction ts as [|t ts IH]; intros acc H; [reflexivity|]. cbn [me_samples filter] in *. unfold me_sample.
    destruct (in_slab E tn t); [discriminate H|]. cbn [rbind]. apply IH. exact H. }
  assert (HN : forall n, In n (seq 0 (c_N (e_c E))) -> times_of E n = []).
  { intros n Hn. unfold all_times in HA. revert HA Hn. generalize (seq 0 (c_N (e_c E))). intro l. induction l as [|m l IH]; [intros _ []|].
    cbn [flat_map]. intros HA [<-|Hn]; apply app_eq_nil in HA; [apply HA|apply IH; [apply HA|exact Hn]]. }
  assert (HL : forall ns tot st, (forall n, In n ns -> times_of E n = []) -> exists tot' st', for_acc ns (me_slab E) ([], [], tot) st = (Ok ([], [], tot'), st')
             /\ outs (for_acc ns (out_slab E v) ([], [], tot)) st = []).
  { induction ns as [|n ns IH]; intros tot st H; [exists tot, st; split; reflexivity|]. cbn [for_acc].
    assert (X : exists tot1 st1, me_slab E n ([], [], tot) st = (Ok ([], [], tot1), st1)).
    { unfold me_slab, bind, get, modify, err_if, is_zero, lift, ret. destruct (Req_EM_T (c_dt (e_c E)) 0); [contradiction|].
      destruct (Nat.ltb 0 n); cbv beta iota zeta; cbn [fst snd]; rewrite HS by (rewrite filter_in_slab; apply H; left; reflexivity);
        eexists; eexists; reflexivity. }
    destruct X as [tot1 [st1 X]]. destruct (slab_run E v _ _ _ _ _ X) as [r1 [A1 [_ A3]]].
    rewrite (H n (or_introl eq_refl)) in A1. destruct r1; [|discriminate A1].
    destruct (IH tot1 st1 (fun m Hm => H m (or_intror Hm))) as [tot2 [st2 [Y1 Y2]]].
    exists tot2, st2. split; [unfold bind; rewrite X; exact Y1|].
    rewrite (outs_bind _ _ _ _ (agree_slab E v n _)); [|intro; eexists; apply agrees_for; intros; apply agree_slab].
    rewrite X, A3, Y2. destruct v; reflexivity. }
  set (x := sqrt (l2sq E (fun p => val E (s_u10 s1) p - c_v (e_c E) (c_T (e_c E)) (d_x (e_D E) p)))).
  destruct (HL _ 0 s1 HN) as [tot [s2 [Y1 Y2]]].
  assert (HM : measured_errors E u s = (Err ValueError, s2)).
  { unfold measured_errors, bind at 1. rewrite H1. unfold bind at 1, get at 1, bind at 1, lift at 1. rewrite Hsq. unfold bind. rewrite Y1. reflexivity. }
  exists x, s2. apply (prints_agrees _ (step E (Measure u))); [apply agree_step|cbn [step]; unfold answers, bind; rewrite HM; reflexivity|].
  cbn [out_step]. rewrite (outs_answers _ _ _ _ (agree_errors E v u)). unfold out_errors. rewrite (outs_skip _ _ _ _ _ H1), outs_get.
  rewrite (outs_bind _ _ _ _ (agrees_lift _)); [|intro; eexists; agree; apply agree_slab]. unfold lift at 2. rewrite Hsq, outs_lift. cbn [app].
  erewrite outs_say by (agree; apply agree_slab).
  rewrite (outs_bind _ (for_acc (seq 0 (c_N (e_c E))) (me_slab E) ([], [], 0))); [|apply agrees_for; intros; apply agree_slab|intro; eexists; agree].
  rewrite Y2, Y1. cbn [app fst snd]. reflexivity.
Qed.

(** ** Only once *)
(** every line of every run satisfies [Q] *)
Definition says {S A} (Q : line -> Prop) (mo : M (S * list line) A) : Prop := forall s, List.Forall Q (outs mo s).
Lemma says_bind {S A B} (Q : line -> Prop) (mo : M (S * list line) A) m (fo : A -> M (S * list line) B) :
  agrees mo m -> (forall a, exists fa, agrees (fo a) fa) -> says Q mo -> (forall a, says Q (fo a)) -> says Q (bind mo fo).
Proof.
  intros H1 H2 H3 H4 s. rewrite (outs_bind mo m fo s H1 H2). apply Forall_app. split; [apply H3|].
  destruct (m s) as [[a|e] s']; [apply H4|constructor].
Qed.
Lemma says_quiet {S A} (Q : line -> Prop) (m : M S A) : says Q (quiet m).
Proof. intro s. rewrite outs_quiet. constructor. Qed.
Lemma says_quiet_bind {S A B} (Q : line -> Prop) (m : M S A) (fo : A -> M (S * list line) B) : (forall a, says Q (fo a)) -> says Q (bind (quiet m) fo).
Proof. intros H s. unfold outs, bind, quiet. destruct (m s) as [[a|e] s']; [apply H|constructor]. Qed.
Lemma says_lift_bind {S A B} (Q : line -> Prop) (r : res A) (fo : A -> M (S * list line) B) : (forall a, says Q (fo a)) -> says Q (bind (lift r) fo).
Proof. intros H s. unfold outs, bind, lift. destruct r as [a|e]; [apply H|constructor]. Qed.
Lemma says_need_bind {S A B} (Q : line -> Prop) (x : option A) e (fo : A -> M (S * list line) B) : (forall a, says Q (fo a)) -> says Q (bind (need x e) fo).
Proof. intros H s. unfold outs, bind, need. destruct x as [a|]; [apply H|constructor]. Qed.
Lemma says_ret {S A} (Q : line -> Prop) (a : A) : says (S := S) Q (ret a).
Proof. intro s. constructor. Qed.
Lemma says_raise {S A} (Q : line -> Prop) e : says (S := S) (A := A) Q (raise e).
Proof. intro s. constructor. Qed.
Lemma says_print_bind {S A} (Q : line -> Prop) l (mo : M (S * list line) A) m : agrees mo m -> Q l -> says Q mo -> says Q (print l ;; mo).
Proof. intros H HQ HS s. rewrite (outs_say l mo m s H). constructor; [exact HQ|apply HS]. Qed.
Lemma says_print_if_bind {S A} (Q : line -> Prop) b l (mo : M (S * list line) A) m : agrees mo m -> Q l -> says Q mo -> says Q (print_if b l ;; mo).
Proof. intros H HQ HS s. rewrite (outs_say_if b l mo m s H). destruct b; [constructor; [exact HQ|apply HS]|apply HS]. Qed.
Lemma says_for {S A B} (Q : line -> Prop) (l : list A) (bo : A -> B -> M (S * list line) B) b : (forall a x, agrees (bo a x) (b a x)) ->
  (forall a x, says Q (bo a x)) -> forall x, says Q (for_acc l bo x).
Proof.
  intros HA HS. induction l as [|a l IH]; intro x; cbn [for_acc]; [apply says_ret|].
  apply (says_bind _ _ _ _ (HA a x)); [intro y; eexists; apply agrees_for; exact HA|apply HS|exact IH].
Qed.
Lemma says_if {S A} (Q : line -> Prop) (b : bool) (mo no : M (S * list line) A) : says Q mo -> says Q no -> says Q (if b then mo else no).
Proof. destruct b; intros; assumption. Qed.
Lemma says_weaken {S A} (Q Q' : line -> Prop) (mo : M (S * list line) A) : (forall l, Q l -> Q' l) -> says Q mo -> says Q' mo.
Proof. intros H HS s. exact (Forall_impl _ H (HS s)). Qed.

(** the first character of a line that starts with text *)
Definition initial (l : line) : option Ascii.ascii := match l with T (String a _) :: _ => Some a | _ => None end.
(** lines of measured_errors start with t or L *)
Definition error_line (l : line) : Prop := initial l = Some "t"%char \/ initial l = Some "L"%char.
Lemma says_slab E v n acc : says error_line (out_slab E v n acc).
Proof.
  unfold out_slab. apply says_quiet_bind. intro s0. apply says_quiet_bind. intro. apply says_quiet_bind. intro. apply says_quiet_bind. intro.
  apply says_quiet_bind. intro s. apply (says_bind _ _ _ _ (agrees_for _ _ _ (fun t a => agree_sample E v n _ _ _ t a) _)).
  - intro. eexists. agree.
  - apply (says_for _ _ _ _ (fun t a => agree_sample E v n _ _ _ t a)). intros t x. unfold out_sample. apply says_if; [|apply says_ret].
    apply says_lift_bind. intro. apply says_lift_bind. intro. eapply says_print_if_bind; [agree|left; reflexivity|apply says_ret].
  - intro. apply says_ret.
Qed.
Lemma says_errors E v u : says error_line (out_errors E v u).
Proof.
  unfold out_errors. apply says_quiet_bind. intro. apply says_quiet_bind. intro s. apply says_lift_bind. intro eT.
  eapply says_print_bind; [agree; apply agree_slab|left; reflexivity|].
  apply (says_bind _ _ _ _ (agrees_for _ _ _ (fun n a => agree_slab E v n a) _)); [intro; eexists; agree| |intro acc].
  - apply (says_for _ _ _ _ (fun n a => agree_slab E v n a)). intros. apply says_slab.
  - apply says_lift_bind. intro. eapply says_print_bind; [agree|right; reflexivity|].
    apply says_lift_bind. intro. eapply says_print_bind; [agree|right; reflexivity|].
    apply says_lift_bind. intro. eapply says_print_bind; [agree|right; reflexivity|]. apply says_ret.
Qed.
Lemma says_answers {A} (Q : line -> Prop) (f : A -> answer) (mo : O A) m : agrees mo m -> says Q mo -> says Q (out_answers f mo).
Proof. intros H HS s. rewrite (outs_answers _ _ _ _ H). apply HS. Qed.

(** each call of a session *)
Lemma step_lines E v k s x : initial x = Some "A"%char \/ initial x = Some "C"%char \/ initial x = Some "a"%char ->
  In x (outs (out_step E v k) s) ->
  (matrix_now k s = true /\ In x (matrix_lines E)) \/ (rhs_now k s = true /\ In x (rhs_lines E)).
Proof.
  intros Hx HI. destruct (is_measure k) eqn:Hk.
  - destruct k; try discriminate Hk. exfalso. cbn [out_step] in HI. pose proof (says_answers _ AErr _ _ (agree_errors E v u) (says_errors E v u) s) as F.
    rewrite Forall_forall in F. destruct (F _ HI) as [F1|F1]; rewrite F1 in Hx; destruct Hx as [Hx|[Hx|Hx]]; discriminate Hx.
  - destruct (C93_prefix E v k s Hk) as [r [s' [l [_ [HP [l' Hl]]]]]].
    assert (X : outs (out_step E v k) s = l) by (unfold outs; rewrite (HP []); reflexivity). rewrite X in HI.
    assert (Y : In x (l ++ l')) by (apply in_or_app; left; exact HI). rewrite <- Hl in Y. apply in_app_or in Y.
    destruct Y as [Y|Y]; [left; destruct (matrix_now k s); [tauto|destruct Y]|right; destruct (rhs_now k s); [tauto|destruct Y]].
Qed.
Lemma run_lines E v x (Q : state -> Prop) (ok : call -> bool) :
  (forall k s, ok k = true -> Q s -> okat Q (step E k) s) ->
  (forall k s, ok k = true -> Q s -> ~ In x (outs (out_step E v k) s)) ->
  forall ks s o s' l, forallb ok ks = true -> Q s -> out_run E v ks (s, o) = (s', o ++ l) -> ~ In x l.
Proof.
  intros HF HN. induction ks as [|k ks IH]; intros s o s' l Hk HQ H; cbn [out_run] in H.
  - injection H as _ H. rewrite <- app_nil_r in H at 1. apply app_inv_head in H. subst l. intros [].
  - cbn [forallb] in Hk. apply andb_true_iff in Hk as [K1 K2]. rewrite (agree_step E v k s o) in H. cbn [snd] in H.
    destruct (agree_run E v ks (snd (step E k s)) (o ++ outs (out_step E v k) s)) as [l2 H2].
    pose proof H2 as H2'. rewrite H in H2. injection H2 as _ H2. rewrite <- app_assoc in H2. apply app_inv_head in H2. subst l.
    intro HI. apply in_app_or in HI. destruct HI as [HI|HI]; [exact (HN k s K1 HQ HI)|].
    exact (IH _ _ _ _ K2 (HF k s K1 HQ) H2' HI).
Qed.
(** once there is a right-hand side, its line is printed by setup_rhs only *)
Theorem C93_rhs_once : forall E verbose ks s i f o s' l, s_rhs s = Some i -> s_lfi s = Some f ->
  ~ In Setup_rhs ks -> out_run E verbose ks (s, o) = (s', o ++ l) -> ~ In [T "Adding initial data on right hand side"] l.
Proof.
  intros E v ks s i f o s' l H1 H2 Hk. 
  assert (Hk' : forallb (fun k => negb (is_setup_rhs k)) ks = true).
  { apply forallb_forall. intros k HI. destruct k; try reflexivity. contradiction. }
  apply (run_lines E v _ (rhs_is i f) (fun k => negb (is_setup_rhs k))); [| |exact Hk'|split; assumption].
  - intros k t K. apply rhs_step. destruct (is_setup_rhs k); [discriminate K|reflexivity].
  - intros k t K [Q1 Q2] HI. destruct (step_lines E v k t [T "Adding initial data on right hand side"] (or_introl eq_refl) HI) as [[_ X]|[X _]].
    + unfold matrix_lines in X. destruct (initial_data E); cbn [app In] in X; repeat (destruct X as [X|X]; [discriminate X|]); destruct X.
    + destruct k; cbn [rhs_now] in X; try discriminate X; try discriminate K; rewrite ?Q1, ?Q2 in X; discriminate X.
Qed.
(** once there is a space-time matrix, its lines are printed by setup_spacetime_matrix and the coarse problem only *)
Definition mat_is (A : matrix) (f : bform) (s : state) : Prop := s_stm s = Some A /\ s_stb s = Some f.
Lemma mat_step E A f k s : mat_is A f s -> okat (mat_is A f) (step E k) s.
Proof.
  intro HQ. assert (G1 : forall p s, mat_is A f s -> okat (mat_is A f) (get_spacetime_matrix E p) s).
  { intros p t [H1 H2]. unfold get_spacetime_matrix. apply ok_bind_get. rewrite H1. split; assumption. }
  assert (G2 : forall p s, mat_is A f s -> okat (mat_is A f) (get_spacetime_bfi E p) s).
  { intros p t [H1 H2]. unfold get_spacetime_bfi. apply ok_bind_get. rewrite H2. split; assumption. }
  destruct k; cbn [step].
  all: try (unfold answers; apply ok_bind; [first [apply G1|apply G2]; assumption|intros; walk leaf]; fail).
  all: walk leaf.
Qed.
Theorem C93_matrix_once : forall E verbose ks s A f o s' l, s_stm s = Some A -> s_stb s = Some f ->
  (forall p, ~ In (Build_matrix p) ks) -> (forall K, ~ In (Prepare_coarse K) ks) ->
  out_run E verbose ks (s, o) = (s', o ++ l) ->
  ~ In [T "Adding initial data."] l /\ ~ In [T "Creating bfi"] l /\ ~ In [T "assemble matrix"] l.
Proof.
  intros E v ks s A f o s' l H1 H2 K1 K2 HR. set (ok := fun k => match k with Build_matrix _ | Prepare_coarse _ => false | _ => true end).
  assert (Hk : forallb ok ks = true).
  { apply forallb_forall. intros k HI. destruct k; try reflexivity; exfalso; [exact (K1 _ HI)|exact (K2 _ HI)]. }
  assert (X : forall x, initial x = Some "A"%char \/ initial x = Some "C"%char \/ initial x = Some "a"%char -> ~ In x (rhs_lines E) -> ~ In x l).
  { intros x Hx Hn. refine (run_lines E v x (mat_is A f) ok _ _ ks s o s' l Hk (conj H1 H2) HR); [intros k t _; apply mat_step|].
    intros k t K [Q1 Q2] HI. destruct (step_lines E v k t x Hx HI) as [[X _]|[_ X]]; [|exact (Hn X)].
    destruct k; cbn [matrix_now] in X; try discriminate X; try discriminate K; rewrite ?Q1, ?Q2 in X; discriminate X. }
  assert (Y : forall s, In [T s] (rhs_lines E) -> s = "Adding initial data on right hand side"%string).
  { intros t HI. unfold rhs_lines in HI. destruct (initial_data E); [destruct HI as [HI|[]]|destruct HI]. injection HI as <-. reflexivity. }
  split; [|split]; (apply X; [cbn; tauto|intro HI; apply Y in HI; discriminate HI]).
Qed.

(** ** The GMRES solver *)
(** what is reported to the monitor during a run of the external solver *)
Fixpoint reported (E : env) (n : nat) (p : kspm) (s : state) : list (nat * spec_float) :=
  match p with
  | MHalt _ => []
  | MWrite i v k => reported E n k (put i v s)
  | MRead i k => reported E n (k (first_n n (s_heap s i))) s
  | MMult i o k => match wrapper_mult E i o s with (Ok _, s') => reported E n k s' | (Err _, _) => [] end
  | MPrec i o k => match wrapper_apply E i o s with (Ok _, s') => reported E n k s' | (Err _, _) => [] end
  | MMonitor its r k => (its, r) :: reported E n k s
  end.
Definition ksp_run (E : env) (n : nat) (p : kspm) : M state kout :=
  run_ksp state s_heap (fun i v => modify (put i v)) (wrapper_mult E) (wrapper_apply E) n (forget p).
Lemma outs_ksp E mon n p : forall s, outs (out_ksp E mon n p) s =
  if mon then map (fun '(i, r) => [T (monitor_line i r)]) (reported E n p s) else [].
Proof.
  induction p; intro s; cbn [out_ksp reported].
  - destruct mon; reflexivity.
  - rewrite (outs_skip (modify (put i v)) _ s tt (put i v s)) by reflexivity. apply IHp.
  - rewrite outs_get. apply H.
  - destruct (wrapper_mult E i o s) as [[x|e] s'] eqn:EW; [rewrite (outs_skip _ _ _ _ _ EW); apply IHp|].
    unfold outs, bind, quiet. rewrite EW. destruct mon; reflexivity.
  - destruct (wrapper_apply E i o s) as [[x|e] s'] eqn:EW; [rewrite (outs_skip _ _ _ _ _ EW); apply IHp|].
    unfold outs, bind, quiet. rewrite EW. destruct mon; reflexivity.
  - erewrite outs_say_if by apply agree_ksp. rewrite IHp. destruct mon; reflexivity.
Qed.
(** the lines of Props_Monitor.v (C87), one by one *)
Definition texts (l : list string) : list line := map (fun s => [T s]) l.
Theorem C93_gmres : forall E ext db n b xa maxsteps tol restart printrates reltol s,
  let mo := out_gmres E ext db n b xa maxsteps tol restart printrates reltol in
  match configure db maxsteps tol restart printrates reltol with
  | Err e => prints mo s (Err e) s []
  | Ok (c, _) => exists r s', 
      let p := ext c n b xa in
      let s0 := put xa (fun _ => 0) s in
      prints mo s r s' (texts (gmres_output db maxsteps tol restart printrates reltol (reported E n p s0)
        (match ksp_run E n p s0 with (Ok o, _) => Some o | (Err _, _) => None end)))
      /\ s' = snd (ksp_run E n p s0)
      /\ r = match fst (ksp_run E n p s0) with
             | Ok o => if Z.ltb (o_reason o) 0 then Err PETScError else Ok (xa, o_res o)
             | Err e => Err e end
  end.
Proof.
  intros E ext db n b xa ms tol rs pr rt s mo.
  destruct (configure db ms tol rs pr rt) as [[c db']|e] eqn:HC.
  2: { intro o. unfold mo, out_gmres, bind, lift. rewrite HC, app_nil_r. reflexivity. }
  set (p := ext c n b xa). set (s0 := put xa (fun _ => 0) s).
  assert (G : forall o, mo (s, o) = (match fst (ksp_run E n p s0) with
             | Ok o => if Z.ltb (o_reason o) 0 then Err PETScError else Ok (xa, o_res o)
             | Err e => Err e end, (snd (ksp_run E n p s0), o ++ texts (gmres_output db ms tol rs pr rt (reported E n p s0)
        (match ksp_run E n p s0 with (Ok o, _) => Some o | (Err _, _) => None end))))).
  { intro o. unfold mo, out_gmres. unfold bind at 1, lift. rewrite HC. unfold bind at 1, quiet, modify. cbn [fst]. fold s0. fold p.
    unfold bind at 1. rewrite (agree_ksp E (k_mon c) n p s0 o). fold (ksp_run E n p).
    assert (X : outs (out_ksp E (k_mon c) n p) s0 = texts (if k_mon c then map (fun '(i, r) => monitor_line i r) (reported E n p s0) else [])).
    { rewrite outs_ksp. unfold texts. destruct (k_mon c); [|reflexivity]. rewrite map_map. apply map_ext. intros [i r]. reflexivity. }
    unfold gmres_output, texts in *. rewrite HC, map_app.
    rewrite X. destruct (ksp_run E n p s0) as [[k|e] s1]; cbn [fst snd]; [|rewrite app_nil_r; reflexivity].
    unfold bind, print, print_if, print, modify, reason_lines, ret, raise. destruct (Z.ltb (o_reason k) 0); cbn [map app]; rewrite <- !app_assoc; reflexivity. }
  exists (match fst (ksp_run E n p s0) with
             | Ok o => if Z.ltb (o_reason o) 0 then Err PETScError else Ok (xa, o_res o)
             | Err e => Err e end), (snd (ksp_run E n p s0)).
  split; [exact G|]. split; reflexivity.
Qed.

(** ** The drivers *)
Section Drivers.
  Variables (E : env) (ext : kspcfg -> nat -> nat -> nat -> kspm).
  Variables (lu : matrix -> solver) (pard : matrix -> res solver) (ev : vec -> R -> R) (pt : nat -> list R) (db : optdb)
    (elapsed memory : R).
  Notation out_main := (out_main E ext lu pard ev pt db elapsed memory).
  Notation main := (main E ext lu pard ev pt db).

  Lemma outs_gmres_ok b xa s u s' : solve_with_gmres E (ext0 ext) db b xa s = (Ok u, s') -> exists calls o, (0 <= o_reason o)%Z /\
    outs (out_solve_gmres E ext db b xa) s = texts (gmres_output db 100000 (Some 1e-7) None true None calls (Some o)).
  Proof.
    intro H. unfold solve_with_gmres in H. apply bind_ok in H. destruct H as [xr [s1 [H _]]].
    unfold out_solve_gmres. rewrite (outs_bind _ _ _ _ (agree_gmres E ext db _ _ _ _ _ _ _ _)); [|intro; eexists; agree].
    rewrite H, outs_ret, app_nil_r.
    pose proof (C93_gmres E ext db (lay_dim (e_Lf E)) b xa 100000 (Some 1e-7) None true None s) as G. cbv zeta in G.
    pose proof (agree_gmres E ext db (lay_dim (e_Lf E)) b xa 100000 (Some 1e-7) None true None s []) as A. rewrite H in A. cbn [fst snd app] in A.
    destruct (configure db 100000 (Some 1e-7) None true None) as [[c db']|e].
    2: { specialize (G []). rewrite A in G. discriminate G. }
    destruct G as [r [s2 [G [_ Gr]]]]. specialize (G []). rewrite A in G. injection G as G1 _ G2. rewrite G2.
    rewrite <- G1 in Gr. destruct (ksp_run E (lay_dim (e_Lf E)) (ext c (lay_dim (e_Lf E)) b xa) (put xa (fun _ => 0) s)) as [[o|e] s3]; cbn [fst] in Gr; [|discriminate Gr].
    destruct (Z.ltb_spec (o_reason o) 0) as [L|L]; [discriminate Gr|].
    eexists _, o. split; [exact L|reflexivity].
  Qed.
  Lemma prepare_rhs s a s' : prepare_precondition_gmres E s = (Ok a, s') -> exists i, s_rhs s' = Some i.
  Proof.
    intro H2. unfold prepare_precondition_gmres in H2. 
      apply bind_ok in H2. destruct H2 as [? [? [_ H2]]]. apply bind_ok in H2. destruct H2 as [? [? [_ H2]]].
      apply bind_ok in H2. destruct H2 as [? [? [_ H2]]]. apply bind_ok in H2. destruct H2 as [? [? [_ H2]]].
      apply bind_ok in H2. destruct H2 as [? [? [_ H2]]]. apply bind_ok in H2. destruct H2 as [? [? [_ H2]]].
      apply bind_ok in H2. destruct H2 as [w [w' [X1 H2]]]. injection X1 as <- <-.
      apply bind_ok in H2. destruct H2 as [[] [s4 [H4 H2]]].
      assert (R4 : exists i, s_rhs s4 = Some i).
      { match type of H4 with (if is_none (s_rhs ?z) then _ else _) _ = _ => destruct (s_rhs z) as [i|] eqn:EZ end; cbn [is_none] in H4.
        - injection H4 as <-. exists i. exact EZ.
        - unfold setup_rhs in H4. repeat (apply bind_ok in H4; destruct H4 as [? [? [_ H4]]]). injection H4 as <-. eexists. reflexivity. }
      destruct R4 as [i R4]. exists i.
      apply bind_ok in H2. destruct H2 as [w2 [w2' [X2 H2]]]. injection X2 as <- <-.
      match type of H2 with ?m _ = _ => assert (X : okat (rhs_frame (Some i)) m s4) end.
      { pose proof (R4 : rhs_frame (Some i) s4) as F. walk leaf. }
      unfold okat in X. rewrite H2 in X. exact X.
  Qed.
  Lemma outs_prep s s' : prepare_precondition_gmres E s = (Ok tt, s') -> outs (out_prepare E) s = if is_none (s_rhs s) then rhs_lines E else [].
  Proof.
    intro H. assert (S1 : step E Prepare s = (Ok Done, s')) by (change (step E Prepare) with (answers (fun _ => Done) (prepare_precondition_gmres E)); unfold answers, bind; rewrite H; reflexivity).
    pose proof (C93_matrix_and_rhs E false Prepare s Done s' eq_refl S1 []) as G.
    rewrite <- (outs_answers (fun _ => Done) _ _ s (agree_prepare E)).
    change (out_answers (fun _ => Done) (out_prepare E)) with (out_step E false Prepare). unfold outs. rewrite G. reflexivity.
  Qed.
  Lemma setup_fes_rhs s a s' : setup_fes s = (Ok a, s') -> s_rhs s = None -> s_rhs s' = None.
  Proof. intros H Hr. unfold setup_fes, modify in H. injection H as _ <-. exact Hr. Qed.
  Lemma outs_have_rhs s i : s_rhs s = Some i -> outs (out_get_rhs E) s = [].
  Proof. intro H. unfold out_get_rhs. rewrite outs_get, H. reflexivity. Qed.
  Lemma driver_setup_eq : driver_setup E = (setup_fes ;; prepare_precondition_gmres E ;; get_spacetime_rhs E).
  Proof. unfold driver_setup. reflexivity. Qed.
  Lemma out_setup_eq : out_setup E = (quiet setup_fes ;; out_prepare E ;; out_get_rhs E).
  Proof. unfold out_setup. reflexivity. Qed.
  Lemma outs_setup s b s' : driver_setup E s = (Ok b, s') -> s_rhs s = None -> outs (out_setup E) s = rhs_lines E.
  Proof.
    intros H Hr. rewrite driver_setup_eq in H. rewrite out_setup_eq. apply bind_ok in H. destruct H as [[] [s1 [H1 H]]]. rewrite (outs_skip _ _ _ _ _ H1).
    apply bind_ok in H. destruct H as [[] [s2 [H2 H]]].
    rewrite (outs_bind _ _ _ _ (agree_prepare E)); [|intro; eexists; apply agree_get_rhs]. rewrite H2.
    rewrite (outs_prep _ _ H2), (setup_fes_rhs _ _ _ H1 Hr). destruct (prepare_rhs _ _ _ H2) as [i R2].
    rewrite (outs_have_rhs _ _ R2), app_nil_r. reflexivity.
  Qed.
  Definition stm_frame (x : option matrix) (s : state) : Prop := s_stm s = x.
  Lemma setup_stm s : stm_frame None s -> okat (stm_frame None) (driver_setup E) s.
  Proof.
    intro F. rewrite driver_setup_eq. apply ok_bind; [unfold setup_fes; walk leaf|intros ? ? F1 _].
    apply ok_bind; [|intros ? ? F2 _; unfold get_spacetime_rhs; walk leaf].
    unfold prepare_precondition_gmres. walk leaf.
  Qed.
  Definition solver_lines (st : solver_type) (l : list line) : Prop :=
    match st with
    | OtherSolver => l = matrix_lines E
    | _ => exists calls o, (0 <= o_reason o)%Z /\ l = texts (gmres_output db 100000 (Some 1e-7) None true None calls (Some o))
    end.
  Lemma outs_need_ok {A B} (x : option A) e (fo : A -> O B) s a s1 : need x e s = (Ok a, s1) -> outs (bind (need x e) fo) s = outs (fo a) s1.
  Proof. destruct x as [y|]; cbn [need]; [|discriminate]. intro H. injection H as <- <-. reflexivity. Qed.
  Lemma outs_lift_ok {A B} (x : res A) (fo : A -> O B) s a s1 : lift x s = (Ok a, s1) -> outs (bind (lift x) fo) s = outs (fo a) s1.
  Proof. unfold lift. intro H. injection H as -> <-. reflexivity. Qed.
  Lemma outs_built s A s' : s_stm s = None -> get_spacetime_matrix E false s = (Ok A, s') -> outs (out_get_matrix E false) s = matrix_lines E.
  Proof.
    intros Hs H. unfold out_get_matrix. rewrite outs_get. unfold get_spacetime_matrix, bind at 1, get at 1 in H. rewrite Hs in *.
    rewrite (outs_bind _ _ _ _ (agree_build E false)); [|intro; eexists; agree].
    unfold bind in H. destruct (build_spacetime E false s) as [[[]|e] s1] eqn:EB; [|discriminate H].
    rewrite (outs_build _ _ _ _ EB), outs_get, outs_ret, app_nil_r. reflexivity.
  Qed.
  Ltac skipq H := let A := fresh "A" in apply bind_ok in H; destruct H as [? [? [A H]]];
    first [rewrite (outs_skip _ _ _ _ _ A) | rewrite (outs_need_ok _ _ _ _ _ _ A) | rewrite (outs_lift_ok _ _ _ _ _ A)].
  Lemma outs_solve d st b xa s s' : solve_problem E (ext0 ext) lu pard ev pt db d st b xa true s = (Ok tt, s') -> s_stm s = None ->
    exists u e s1 l, measured_errors E u s1 = (Ok e, s') /\ solver_lines st l /\
    outs (out_solve E ext lu pard ev pt db elapsed d st b xa true) s = l ++ l_elapsed elapsed :: head_line E e :: foot_lines e.
  Proof.
    intros H Hs. unfold solve_problem in H. unfold out_solve.
    apply bind_ok in H. destruct H as [u [s1 [H1 H]]].
    match type of H1 with ?m s = _ => match goal with |- context [bind ?mo _] =>
      assert (AG : agrees mo m) by (destruct st; agree; try apply agree_solve_gmres; apply agree_get_matrix) end end.
    rewrite (outs_bind _ _ _ _ AG); [|intro; eexists; agree; apply agree_errors]. rewrite H1.
    assert (T1 : exists e s2, measured_errors E u s2 = (Ok e, s') /\
      outs (print (l_elapsed elapsed);; quiet (match d with Driver3D => (do _ <- plot_para_view E pt u; ret tt) | _ => ret tt end) ;;
        do _ <- out_errors E false u; ret tt) s1 = l_elapsed elapsed :: head_line E e :: foot_lines e).
    { erewrite outs_say by (agree; apply agree_errors). apply bind_ok in H. destruct H as [[] [s2 [H2 H]]]. rewrite (outs_skip _ _ _ _ _ H2).
      apply bind_ok in H. destruct H as [e [s3 [H3 H]]]. injection H as <-. exists e, s2. split; [exact H3|].
      rewrite (outs_bind _ _ _ _ (agree_errors E false u)); [|intro; eexists; agree]. rewrite H3, outs_ret, app_nil_r.
      destruct (outs_errors E false u _ _ _ H3) as [rows [_ [_ [_ [_ ->]]]]]. reflexivity. }
    destruct T1 as [e [s2 [M1 T1]]].
    match goal with |- context [outs ?mo s ++ _] => exists u, e, s2, (outs mo s) end. split; [exact M1|].
    split; [|rewrite T1; reflexivity]. clear T1 M1 H AG.
    destruct st.
    - do 8 skipq H1. apply bind_ok in H1. destruct H1 as [xx [s3 [A' H1]]].
      destruct (outs_gmres_ok _ _ _ _ _ A') as [calls [o [O1 O2]]]. exists calls, o. split; [exact O1|].
      rewrite (outs_bind _ _ _ _ (agree_solve_gmres E ext db b xa)); [|intro; eexists; agree]. rewrite A', O2.
      skipq H1. rewrite outs_ret, app_nil_r. reflexivity.
    - do 6 skipq H1. destruct (outs_gmres_ok _ _ _ _ _ H1) as [calls [o [O1 O2]]]. exists calls, o. split; [exact O1|exact O2].
    - apply bind_ok in H1. destruct H1 as [xx [s3 [A' H1]]].
      rewrite (outs_bind _ _ _ _ (agree_get_matrix E false)); [|intro; eexists; agree]. rewrite A'.
      rewrite (outs_built _ _ _ Hs A'). do 2 skipq H1. rewrite outs_get. apply bind_ok in H1. destruct H1 as [t0 [t0' [H0 H1]]]. injection H0 as <- <-.
      do 2 skipq H1. rewrite outs_ret, app_nil_r. reflexivity.
  Qed.
  Lemma outs_ret_bind {A B} (a : A) (fo : A -> O B) s : outs (bind (ret a) fo) s = outs (fo a) s.
  Proof. reflexivity. Qed.
  Lemma out_main_eq d st nx xa : out_main d st nx xa =
    ((match d with Driver3D => print (l_nx nx) | _ => ret tt end) ;; do b <- out_setup E; do b <- need b AttributeError;
     out_solve E ext lu pard ev pt db elapsed d st b xa true ;; print (l_memory memory)).
  Proof. unfold OutputModel.out_main. reflexivity. Qed.
  Lemma main_eq d st xa : main d st xa = (do b <- driver_setup E; do b <- need b AttributeError; solve_problem E (ext0 ext) lu pard ev pt db d st b xa true).
  Proof. unfold OutputProofs.main. reflexivity. Qed.
  Definition nx_lines (d : driver) (nx : nat) : list line := match d with Driver3D => [[T "Nx = "; T " "; I (Z.of_nat nx)]] | _ => [] end.
  Lemma outs_main_head d st nx xa s : outs (out_main d st nx xa) s = nx_lines d nx ++
    outs (do b <- out_setup E; do b <- need b AttributeError; out_solve E ext lu pard ev pt db elapsed d st b xa true ;; print (l_memory memory)) s.
  Proof.
    rewrite out_main_eq. destruct d; cbn [nx_lines app]; [exact (outs_ret_bind tt (fun _ => _) s)|exact (outs_ret_bind tt (fun _ => _) s)|].
    erewrite outs_say by (agree; [apply agree_setup|apply agree_solve|apply agrees_print]). reflexivity.
  Qed.
  (** A run that succeeds: the lines of the right-hand side, of the solver, the time, the
      errors of the computed solution, and the memory. *)
  Theorem C93_driver : forall d st nx xa s s', main d st xa s = (Ok tt, s') -> s_rhs s = None -> s_stm s = None ->
    exists u e s1 l, measured_errors E u s1 = (Ok e, s') /\ solver_lines st l /\
    prints (out_main d st nx xa) s (Ok tt) s'
      (nx_lines d nx ++ rhs_lines E ++ l ++ [[T "elapsed time  "; V elapsed; T " seconds"]] ++ [head_line E e] ++ foot_lines e
       ++ [[T "Memory usage in (Gb) = "; T " "; V memory]]).
  Proof.
    intros d st nx xa s s' H Hr Hs. pose proof H as HM. rewrite main_eq in H.
    apply bind_ok in H. destruct H as [o [s1 [H1 H]]]. apply bind_ok in H. destruct H as [b [s2 [H2 H]]].
    destruct o as [b'|]; [|discriminate H2]. cbn [need] in H2. injection H2 as <- <-.
    assert (S1 : s_stm s1 = None).
    { pose proof (setup_stm s Hs) as X. unfold okat in X. rewrite H1 in X. exact X. }
    destruct (outs_solve d st b' xa s1 s' H S1) as [u [e [t [l [M1 [L1 O1]]]]]]. exists u, e, t, l. split; [exact M1|]. split; [exact L1|].
    apply (prints_agrees _ _ _ _ _ _ (agree_main E ext lu pard ev pt db elapsed memory d st nx xa) HM).
    rewrite outs_main_head. f_equal.
    rewrite (outs_bind _ _ _ _ (agree_setup E)); [|intro; eexists; agree; [apply agree_solve|apply agrees_print]].
    rewrite H1, (outs_setup _ _ _ H1 Hr). f_equal.
    rewrite (outs_need_ok (Some b') AttributeError _ s1 b' s1 eq_refl).
    rewrite (outs_bind _ _ _ _ (agree_solve E ext lu pard ev pt db elapsed d st b' xa true)); [|intro; eexists; apply agrees_print].
    rewrite H, O1, outs_print. rewrite <- app_assoc. reflexivity.
  Qed.
  (** A run that fails does not print its memory. *)
  Definition not_m (l : line) : Prop := exists a, initial l = Some a /\ a <> "M"%char.
  Lemma not_m_error l : error_line l -> not_m l.
  Proof. intros [H|H]; eexists; (split; [exact H|discriminate]). Qed.
  Lemma says_call k : is_measure k = false -> says not_m (out_step E false k).
  Proof.
    intros Hk s. destruct (C93_prefix E false k s Hk) as [r [s' [l [_ [HP [l' Hl]]]]]].
    assert (X : outs (out_step E false k) s = l) by (unfold outs; rewrite (HP []); reflexivity). rewrite X.
    assert (Y : List.Forall not_m (l ++ l')); [|apply Forall_app in Y; apply Y]. rewrite <- Hl. apply Forall_app.
    unfold matrix_lines, rhs_lines.
    split; [destruct (matrix_now k s)|destruct (rhs_now k s)]; destruct (initial_data E); repeat constructor; (eexists; split; [reflexivity|discriminate]).
  Qed.
  Lemma says_prepare : says not_m (out_prepare E).
  Proof. intro s. rewrite <- (outs_answers (fun _ => Done) _ _ s (agree_prepare E)). exact (says_call Prepare eq_refl s). Qed.
  Lemma says_get_rhs : says not_m (out_get_rhs E).
  Proof. intro s. rewrite <- (outs_answers AVec _ _ s (agree_get_rhs E)). exact (says_call Get_rhs eq_refl s). Qed.
  Lemma says_get_matrix : says not_m (out_get_matrix E false).
  Proof. intro s. rewrite <- (outs_answers AMat _ _ s (agree_get_matrix E false)). exact (says_call (Get_matrix false) eq_refl s). Qed.
  Lemma says_setup : says not_m (out_setup E).
  Proof.
    rewrite out_setup_eq. apply says_quiet_bind. intro.
    apply (says_bind _ _ _ _ (agree_prepare E)); [intro; eexists; apply agree_get_rhs|apply says_prepare|intro; apply says_get_rhs].
  Qed.
  Lemma says_gmres b xa : says not_m (out_solve_gmres E ext db b xa).
  Proof.
    unfold out_solve_gmres. apply (says_bind _ _ _ _ (agree_gmres E ext db _ _ _ _ _ _ _ _)); [intro; eexists; agree| |intro; apply says_ret].
    intro s. pose proof (C93_gmres E ext db (lay_dim (e_Lf E)) b xa 100000 (Some 1e-7) None true None s) as G. cbv zeta in G.
    assert (X : forall calls o, List.Forall not_m (texts (gmres_output db 100000 (Some 1e-7) None true None calls o))).
    { intros calls o. unfold gmres_output. destruct (configure db 100000 (Some 1e-7) None true None) as [[c ?]|]; [|constructor]. unfold texts. rewrite map_app.
      apply Forall_app. split.
      - destruct (k_mon c); [|constructor]. induction calls as [|[i r] calls IH]; [constructor|]. cbn [map].
        constructor; [eexists; split; [reflexivity|discriminate]|exact IH].
      - destruct o as [k|]; [|constructor]. unfold reason_lines. destruct (Z.ltb (o_reason k) 0); repeat constructor; (eexists; split; [reflexivity|discriminate]). }
    unfold outs. destruct (configure db 100000 (Some 1e-7) None true None) as [[c db']|e] eqn:HC; [|rewrite (G []); constructor].
    destruct G as [r [s' [G _]]]. rewrite (G []). cbn [snd app]. apply X.
  Qed.
  Lemma says_solve d st b xa m : says not_m (out_solve E ext lu pard ev pt db elapsed d st b xa m).
  Proof.
    unfold out_solve.
    match goal with |- says _ (bind ?mo _) => assert (AG : exists m, agrees mo m) by (destruct st; eexists; agree; first [apply agree_solve_gmres|apply agree_get_matrix]) end.
    destruct AG as [m0 AG]. apply (says_bind _ _ _ _ AG).
    - intro. eexists. agree. apply agree_errors.
    - destruct st.
      + repeat first [apply says_quiet_bind; intro|apply says_need_bind; intro|apply says_lift_bind; intro].
        apply (says_bind _ _ _ _ (agree_solve_gmres E ext db b xa)); [intro; eexists; agree|apply says_gmres|intro]. apply says_quiet_bind. intro. apply says_ret.
      + repeat first [apply says_quiet_bind; intro|apply says_need_bind; intro|apply says_lift_bind; intro]. apply says_gmres.
      + apply (says_bind _ _ _ _ (agree_get_matrix E false)); [intro; eexists; agree|apply says_get_matrix|intro].
        repeat first [apply says_quiet_bind; intro|apply says_need_bind; intro|apply says_lift_bind; intro]. apply says_ret.
    - intro u. eapply says_print_bind; [agree; apply agree_errors|eexists; split; [reflexivity|discriminate]|].
      destruct m; [|apply says_ret]. apply says_quiet_bind. intro.
      apply (says_bind _ _ _ _ (agree_errors E false u)); [intro; eexists; agree| |intro; apply says_ret].
      apply (says_weaken _ _ _ not_m_error). apply says_errors.
  Qed.
  Lemma bind_err {S A B} (m : M S A) (f : A -> M S B) s e s'' : bind m f s = (Err e, s'') ->
    m s = (Err e, s'') \/ exists a s', m s = (Ok a, s') /\ f a s' = (Err e, s'').
  Proof.
    unfold bind. destruct (m s) as [[a|x] s']; intro H; [right; exists a, s'; split; [reflexivity|exact H]|left; injection H as -> ->; reflexivity].
  Qed.
  Theorem C93_stops : forall d st nx xa s ex s', main d st xa s = (Err ex, s') -> exists l,
    prints (out_main d st nx xa) s (Err ex) s' l /\ ~ In [T "Memory usage in (Gb) = "; T " "; V memory] l.
  Proof.
    intros d st nx xa s ex s' H. exists (outs (out_main d st nx xa) s).
    split; [exact (prints_agrees _ _ _ _ _ _ (agree_main E ext lu pard ev pt db elapsed memory d st nx xa) H eq_refl)|].
    enough (X : List.Forall not_m (outs (out_main d st nx xa) s)).
    { rewrite Forall_forall in X. intro HI. destruct (X _ HI) as [a [A1 A2]]. injection A1 as <-. exact (A2 eq_refl). }
    rewrite outs_main_head. apply Forall_app. split.
    { destruct d; repeat constructor. eexists. split; [reflexivity|discriminate]. }
    rewrite (outs_bind _ _ _ _ (agree_setup E)); [|intro; eexists; agree; [apply agree_solve|apply agrees_print]].
    rewrite main_eq in H. apply Forall_app. split; [apply says_setup|].
    apply bind_err in H. destruct H as [H|[o [s1 [H1 H]]]]; [rewrite H; constructor|]. rewrite H1. destruct o as [b|]; [|constructor].
    rewrite (outs_need_ok (Some b) AttributeError _ s1 b s1 eq_refl).
    rewrite (outs_bind _ _ _ _ (agree_solve E ext lu pard ev pt db elapsed d st b xa true)); [|intro; eexists; apply agrees_print].
    apply Forall_app. split; [apply says_solve|].
    apply bind_err in H. destruct H as [H|[b' [s2 [H2 H]]]]; [discriminate H|]. injection H2 as <- <-. rewrite H. constructor.
  Qed.
End Drivers.

Print Assumptions C93_same.
Print Assumptions C93_session.
Print Assumptions C93_matrix_and_rhs.
Print Assumptions C93_prefix.
Print Assumptions C93_matrix_failure.
Print Assumptions C93_errors.
Print Assumptions C93_no_samples.
Print Assumptions C93_rhs_once.
Print Assumptions C93_matrix_once.
Print Assumptions C93_gmres.
Print Assumptions C93_driver.
Print Assumptions C93_stops.
