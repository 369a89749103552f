(** Props_Modules.v -- C81: PyPardiso as an optional dependency, in any session. *)
From Coq Require Import List Bool Arith Lia.
From Verif Require Import DriverModel DriverConfig ModulesModel.
Import ListNotations.

Lemma driver_eqb_eq a b : driver_eqb a b = true <-> a = b.
Proof. destruct a, b; cbn; split; congruence. Qed.
Lemma name_eqb_eq a b : name_eqb a b = true <-> a = b.
Proof. destruct a, b; cbn; try rewrite driver_eqb_eq; split; congruence. Qed.
Lemma name_eqb_refl a : name_eqb a a = true.
Proof. apply name_eqb_eq; reflexivity. Qed.
Lemma name_eqb_neq a b : a <> b -> name_eqb a b = false.
Proof. intro H. destruct (name_eqb a b) eqn:E; [apply name_eqb_eq in E; contradiction|reflexivity]. Qed.

Section Run.
  Variables (installed : bool) (completes : driver -> bool).
  Notation after := (session_after installed completes).
  (** what is true of every session between two tests *)
  Record sound (s : session) : Prop := {
    so_none : modules s N_pypardiso <> Some IsNone;
    so_inst : forall i, modules s N_pypardiso = Some (Module i) -> installed = true;
    so_mod : forall d e, modules s (N_solve d) = Some e -> exists id, e = Module id /\ id < next_id s /\ completes d = true
      /\ its_solver (spaces s id) = SOLVER_TYPE (has_pypardiso (spaces s id)) /\ (has_pypardiso (spaces s id) = true -> installed = true);
    so_inj : forall d d' id, modules s (N_solve d) = Some (Module id) -> modules s (N_solve d') = Some (Module id) -> d = d' }.

  Lemma sound_new sp : sound (new_session sp).
  Proof. split; cbn; try discriminate. Qed.

  (** importing pypardiso outside a test *)
  Lemma import_pyp s : sound s -> sound (snd (import_pypardiso installed s))
    /\ fst (import_pypardiso installed s) = (if installed then Val tt else Exc ImportError)
    /\ (forall n, n <> N_pypardiso -> modules (snd (import_pypardiso installed s)) n = modules s n)
    /\ spaces (snd (import_pypardiso installed s)) = spaces s /\ next_id s <= next_id (snd (import_pypardiso installed s)).
  Proof.
    intro H. pose proof H as [H1 H2 H3 H4]. unfold import_pypardiso. destruct (modules s N_pypardiso) as [[|i]|] eqn:E.
    - congruence.
    - cbn [fst snd]. split; [exact H|]. rewrite (H2 i eq_refl). auto.
    - destruct installed eqn:Ei; cbn [fst snd].
      + split; [split|split; [reflexivity|split; [|split; [reflexivity|cbn; lia]]]].
        * discriminate.
        * intros j _. exact Ei.
        * intros d e He. cbn in He. destruct (H3 d e He) as [id [-> [A [B [C _]]]]]. exists id. split; [reflexivity|]. split; [cbn; lia|]. auto.
        * intros d d' id. cbn. apply H4.
        * intros n Hn. cbn. rewrite (name_eqb_neq _ _ Hn). reflexivity.
      + auto.
  Qed.
  (** and while sys.modules["pypardiso"] is None *)
  Lemma import_blocked s : modules s N_pypardiso = Some IsNone -> import_pypardiso installed s = (Exc ImportError, s).
  Proof. intro H. unfold import_pypardiso. rewrite H. reflexivity. Qed.
  Lemma exec_blocked d id s : modules s N_pypardiso = Some IsNone ->
    exec_module installed completes d id s = (if completes d then Val tt else Exc OtherExn, set_space id (mkSpc false PetscLU) s).
  Proof. intro H. unfold exec_module, pbind, except_import. rewrite (import_blocked _ H). destruct (completes d); reflexivity. Qed.
  Lemma exec_free d id s : sound s ->
    let s' := set_space id (mkSpc installed (SOLVER_TYPE installed)) (snd (import_pypardiso installed s)) in
    exec_module installed completes d id s = (if completes d then Val tt else Exc OtherExn, s').
  Proof.
    intros H s'. subst s'. destruct (import_pyp s H) as [_ [E _]]. unfold exec_module, pbind, except_import.
    destruct (import_pypardiso installed s) as [r s'] eqn:Q. cbn [fst snd] in *. subst r. destruct installed; cbn; destruct (completes d); reflexivity.
  Qed.

  (** importing a driver outside a test *)
  Lemma import_drv d s : sound s ->
    let o := import_driver installed completes d s in sound (snd o)
    /\ (forall d' id, modules s (N_solve d') = Some (Module id) -> modules (snd o) (N_solve d') = Some (Module id))
    /\ (forall id, id < next_id s -> spaces (snd o) id = spaces s id) /\ next_id s <= next_id (snd o)
    /\ (completes d = true -> exists id, fst o = Val id /\ modules (snd o) (N_solve d) = Some (Module id))
    /\ (completes d = false -> fst o = Exc OtherExn)
    /\ (modules s (N_solve d) = None -> forall id, fst o = Val id -> has_pypardiso (spaces (snd o) id) = installed).
  Proof.
    intros H o. subst o. pose proof H as [H1 H2 H3 H4]. unfold import_driver. destruct (modules s (N_solve d)) as [e|] eqn:E.
    - destruct (H3 d e E) as [id [-> [A [B C]]]]. cbn [fst snd]. split; [exact H|]. split; [auto|]. split; [auto|]. split; [auto|].
      split; [intros _; exists id; split; [reflexivity|exact E]|]. split; [congruence|discriminate].
    - set (id := next_id s). set (s1 := mkSes (modules (set_module (N_solve d) (Some (Module id)) s)) (spaces s) (S id)).
      assert (I : import_pypardiso installed s1 = (if installed then Val tt else Exc ImportError, snd (import_pypardiso installed s1))
        /\ (forall n, n <> N_pypardiso -> modules (snd (import_pypardiso installed s1)) n = modules s1 n)
        /\ spaces (snd (import_pypardiso installed s1)) = spaces s /\ S id <= next_id (snd (import_pypardiso installed s1))
        /\ modules (snd (import_pypardiso installed s1)) N_pypardiso <> Some IsNone
        /\ (forall i, modules (snd (import_pypardiso installed s1)) N_pypardiso = Some (Module i) -> installed = true)).
      { assert (Ep : modules s1 N_pypardiso = modules s N_pypardiso) by reflexivity.
        unfold import_pypardiso. rewrite Ep. destruct (modules s N_pypardiso) as [[|i]|] eqn:Q.
        - congruence.
        - cbn [fst snd]. rewrite (H2 i eq_refl). rewrite Ep. repeat split; auto; congruence.
        - destruct installed eqn:Ei; cbn [fst snd].
          + repeat split; auto; try (cbn; lia); try discriminate.
            intros n Hn. cbn. rewrite (name_eqb_neq _ _ Hn). reflexivity.
          + rewrite Ep. repeat split; auto; discriminate. }
      destruct I as [I1 [I2 [I3 [I4 [I5 I6]]]]]. set (s2 := snd (import_pypardiso installed s1)) in *.
      set (s3 := set_space id (mkSpc installed (SOLVER_TYPE installed)) s2).
      assert (X : exec_module installed completes d id s1 = (if completes d then Val tt else Exc OtherExn, s3)).
      { unfold exec_module, pbind, except_import. rewrite I1. unfold s3. generalize s2. intro. destruct installed; cbn; destruct (completes d); reflexivity. }
      rewrite X. clear X.
      assert (M3 : forall n, n <> N_pypardiso -> modules s3 n = if name_eqb n (N_solve d) then Some (Module id) else modules s n).
      { intros n Hn. cbn. rewrite I2 by exact Hn. reflexivity. }
      assert (S3 : forall i, i <> id -> spaces s3 i = spaces s i).
      { intros i Hi. cbn. rewrite I3. apply Nat.eqb_neq in Hi. rewrite Hi. reflexivity. }
      assert (S3' : spaces s3 id = mkSpc installed (SOLVER_TYPE installed)) by (cbn; rewrite Nat.eqb_refl; reflexivity).
      assert (Fr : forall d' i, modules s (N_solve d') = Some (Module i) -> i < id).
      { intros d' i Hi. destruct (H3 d' _ Hi) as [j [[= ->] [A _]]]. exact A. }
      assert (Nx : S id <= next_id s3) by exact I4.
      destruct (completes d) eqn:Ec; cbn [fst snd pret praise].
      + assert (Md : modules s3 (N_solve d) = Some (Module id)) by (rewrite M3, name_eqb_refl by discriminate; reflexivity).
        split; [split|].
        * exact I5.
        * exact I6.
        * intros d' e He. rewrite M3 in He by discriminate. destruct (name_eqb (N_solve d') (N_solve d)) eqn:Q.
          -- apply name_eqb_eq in Q. injection Q as ->. injection He as <-. exists id. rewrite S3'. cbn [its_solver has_pypardiso].
             repeat split; auto.
          -- destruct (H3 d' e He) as [i [-> [A B]]]. exists i. rewrite S3 by lia. split; [reflexivity|]. split; [lia|exact B].
        * intros d1 d2 i. rewrite !M3 by discriminate. destruct (name_eqb (N_solve d1) (N_solve d)) eqn:Q1, (name_eqb (N_solve d2) (N_solve d)) eqn:Q2.
          -- intros _ _. apply name_eqb_eq in Q1, Q2. congruence.
          -- intros [= <-] X. pose proof (Fr _ _ X). lia.
          -- intros X [= <-]. pose proof (Fr _ _ X). lia.
          -- apply H4.
        * split; [|split; [|split; [|split; [|split]]]].
          -- intros d' i Hi. rewrite M3 by discriminate. destruct (name_eqb (N_solve d') (N_solve d)) eqn:Q; [|exact Hi].
             apply name_eqb_eq in Q. injection Q as ->. congruence.
          -- intros i Hi. apply S3. lia.
          -- lia.
          -- intros _. exists id. split; [reflexivity|exact Md].
          -- discriminate.
          -- intros _ i [= <-]. rewrite S3'. reflexivity.
      + split; [split|].
        * exact I5.
        * exact I6.
        * intros d' e He. cbn [set_module modules] in He. destruct (name_eqb (N_solve d') (N_solve d)) eqn:Q; [discriminate|].
          rewrite M3, Q in He by discriminate. destruct (H3 d' e He) as [i [-> [A B]]]. exists i. cbn [set_module spaces next_id]. rewrite S3 by lia.
          split; [reflexivity|]. split; [lia|exact B].
        * intros d1 d2 i. cbn [set_module modules]. destruct (name_eqb (N_solve d1) (N_solve d)) eqn:Q1; [discriminate|].
          destruct (name_eqb (N_solve d2) (N_solve d)) eqn:Q2; [discriminate|]. rewrite !M3, Q1, Q2 by discriminate. apply H4.
        * split; [|split; [|split; [|split; [|split]]]].
          -- intros d' i Hi. cbn [set_module modules]. destruct (name_eqb (N_solve d') (N_solve d)) eqn:Q.
             ++ apply name_eqb_eq in Q. injection Q as ->. congruence.
             ++ rewrite M3, Q by discriminate. exact Hi.
          -- intros i Hi. apply S3. lia.
          -- cbn [set_module next_id]. lia.
          -- discriminate.
          -- reflexivity.
          -- discriminate.
  Qed.

  Lemma patched_eq m s : patched m s = (fst (m (set_module N_pypardiso (Some IsNone) s)),
    mkSes (modules s) (spaces (snd (m (set_module N_pypardiso (Some IsNone) s)))) (next_id (snd (m (set_module N_pypardiso (Some IsNone) s))))).
  Proof. unfold patched. destruct (m (set_module N_pypardiso (Some IsNone) s)). reflexivity. Qed.
  (** a test with the patch keeps a session sound if it leaves existing namespaces consistent *)
  Lemma sound_patched m s : sound s -> next_id s <= next_id (snd (patched m s)) ->
    (forall id, id < next_id s -> spaces (snd (patched m s)) id = spaces s id \/ spaces (snd (patched m s)) id = mkSpc false PetscLU) ->
    sound (snd (patched m s)).
  Proof.
    intros H Hn Hs. pose proof H as [H1 H2 H3 H4]. rewrite patched_eq in *. cbn [fst snd spaces next_id] in *. split; cbn [modules spaces next_id]; auto.
    intros d e He. destruct (H3 d e He) as [id [-> [A [B [C D]]]]]. exists id. split; [reflexivity|]. split; [lia|]. split; [exact B|].
    destruct (Hs id A) as [->| ->]; [auto|]. cbn. split; [reflexivity|discriminate].
  Qed.

  Definition blocked (s : session) : session := set_module N_pypardiso (Some IsNone) s.
  Lemma blocked_none s : modules (blocked s) N_pypardiso = Some IsNone.
  Proof. reflexivity. Qed.
  Lemma raises_blocked s : modules s N_pypardiso = Some IsNone -> raises_import installed s = (Val tt, s).
  Proof. intro H. unfold raises_import. rewrite (import_blocked _ H). reflexivity. Qed.

  (** what each test does *)
  Lemma mock_result d s : sound s -> let o := test_mock installed completes d s in
    fst o = match modules s (N_solve d) with
            | Some (Module id) => if has_pypardiso (spaces s id) then Exc AssertionError else Val tt
            | _ => if completes d then Val tt else Exc OtherExn end
    /\ modules (snd o) = modules s /\ next_id s <= next_id (snd o) /\ forall id, id < next_id s -> spaces (snd o) id = spaces s id.
  Proof.
    intros H o. subst o. pose proof H as [H1 H2 H3 H4]. unfold test_mock. rewrite patched_eq. cbn [fst snd modules spaces next_id].
    fold (blocked s). unfold pbind at 1 3 5. rewrite (raises_blocked (blocked s) (blocked_none s)). unfold pbind, import_driver.
    change (modules (blocked s) (N_solve d)) with (modules s (N_solve d)). destruct (modules s (N_solve d)) as [[|id]|] eqn:E.
    - destruct (H3 d _ E) as [i [Q _]]. discriminate.
    - unfold check_none. change (spaces (blocked s)) with (spaces s). destruct (has_pypardiso (spaces s id)) eqn:Hp; cbn [fst snd].
      + repeat split; auto.
      + unfold warns_PySolver, pbind, PySolver_warnings. change (spaces (blocked s)) with (spaces s). rewrite Hp. cbn. repeat split; auto.
    - change (next_id (blocked s)) with (next_id s).
      rewrite exec_blocked by reflexivity. destruct (completes d); cbn [fst snd].
      + unfold check_none, warns_PySolver, pbind, PySolver_warnings. cbn [set_space spaces]. rewrite Nat.eqb_refl. cbn.
        repeat split; auto. intros i Hi. apply Nat.lt_neq, Nat.eqb_neq in Hi. rewrite Hi. reflexivity.
      + cbn. repeat split; auto. intros i Hi. apply Nat.lt_neq, Nat.eqb_neq in Hi. rewrite Hi. reflexivity.
  Qed.
  Lemma mock1_result s : sound s -> let o := test_mock_1d installed completes s in
    fst o = match modules s (N_solve Driver1D) with Some _ => Val tt | None => Exc SysKeyError end
    /\ modules (snd o) = modules s /\ next_id s <= next_id (snd o)
    /\ (forall id, id < next_id s -> spaces (snd o) id = if match modules s (N_solve Driver1D) with Some (Module i) => Nat.eqb id i | _ => false end
         then mkSpc false PetscLU else spaces s id).
  Proof.
    intros H o. subst o. pose proof H as [H1 H2 H3 H4]. unfold test_mock_1d. rewrite patched_eq. cbn [fst snd modules spaces next_id].
    fold (blocked s). unfold pbind at 1 4 7. unfold reload_driver. change (modules (blocked s) (N_solve Driver1D)) with (modules s (N_solve Driver1D)).
    destruct (modules s (N_solve Driver1D)) as [[|id]|] eqn:E.
    - destruct (H3 _ _ E) as [i [Q _]]. discriminate.
    - destruct (H3 _ _ E) as [i [[= <-] [A [B C]]]]. rewrite exec_blocked, B by reflexivity.
      unfold pbind at 1 3 5. rewrite raises_blocked by reflexivity. unfold pbind, import_driver.
      change (modules (set_space id (mkSpc false PetscLU) (blocked s)) (N_solve Driver1D)) with (modules s (N_solve Driver1D)). rewrite E.
      unfold check_none, warns_PySolver, pbind, PySolver_warnings. cbn [set_space spaces]. rewrite Nat.eqb_refl. cbn.
      repeat split; auto.
    - cbn. repeat split; auto.
  Qed.
  Lemma pardiso_result s : sound s -> completes Driver1D = true -> fst (test_pardiso installed completes s) = Val tt.
  Proof.
    intros H Hc. destruct (import_drv Driver1D s H) as [S1 [_ [_ [_ [V _]]]]]. destruct (V Hc) as [id [E1 E2]]. unfold test_pardiso, pbind.
    destruct (import_driver installed completes Driver1D s) as [r s']. cbn [fst snd] in *. subst r.
    destruct (has_pypardiso (spaces s' id)) eqn:Hp.
    - destruct (so_mod _ S1 _ _ E2) as [i [[= <-] [_ [_ [_ Q]]]]]. rewrite (proj1 (proj2 (import_pyp s' S1))), (Q Hp). reflexivity.
    - unfold warns_PySolver, pbind, PySolver_warnings. rewrite Hp. reflexivity.
  Qed.
  Lemma pardiso_state s : sound s -> let s' := snd (test_pardiso installed completes s) in sound s'
    /\ (forall d id, modules s (N_solve d) = Some (Module id) -> modules s' (N_solve d) = Some (Module id))
    /\ (forall id, id < next_id s -> spaces s' id = spaces s id) /\ next_id s <= next_id s'.
  Proof.
    intros H s'. subst s'. destruct (import_drv Driver1D s H) as [S1 [M1 [P1 [N1 _]]]]. unfold test_pardiso, pbind.
    destruct (import_driver installed completes Driver1D s) as [[id|e] s'] eqn:Q; cbn [fst snd] in *.
    - destruct (has_pypardiso (spaces s' id)) eqn:Hp.
      + destruct (import_pyp s' S1) as [S2 [_ [M2 [P2 N2]]]]. split; [exact S2|]. split; [|split].
        * intros d i Hi. rewrite M2 by discriminate. apply M1, Hi.
        * intros i Hi. rewrite P2. apply P1, Hi.
        * lia.
      + unfold warns_PySolver, pbind, PySolver_warnings. rewrite Hp. cbn. auto.
    - auto.
  Qed.

  (** one step of a session *)
  Lemma happen_sound e s : sound s -> let s' := happen installed completes e s in sound s' /\ next_id s <= next_id s'
    /\ (forall d id, modules s (N_solve d) = Some (Module id) -> modules s' (N_solve d) = Some (Module id))
    /\ (forall id, id < next_id s -> spaces s' id = spaces s id \/ spaces s' id = mkSpc false PetscLU).
  Proof.
    intros H s'. subst s'. destruct e; cbn [happen].
    - destruct (import_drv d s H) as [S1 [M1 [P1 [N1 _]]]]. split; [exact S1|]. split; [exact N1|]. split; [exact M1|]. intros id Hi; left; apply P1, Hi.
    - destruct (import_pyp s H) as [S1 [_ [M1 [P1 N1]]]]. split; [exact S1|]. split; [exact N1|]. split.
      + intros d id Hi. rewrite M1 by discriminate. exact Hi.
      + intros id _. left. rewrite P1. reflexivity.
    - destruct (pardiso_state s H) as [S1 [M1 [P1 N1]]]. split; [exact S1|]. split; [exact N1|]. split; [exact M1|]. intros id Hi; left; apply P1, Hi.
    - destruct (mock1_result s H) as [_ [M1 [N1 P1]]].
      assert (P : forall id, id < next_id s -> spaces (snd (test_mock_1d installed completes s)) id = spaces s id \/ spaces (snd (test_mock_1d installed completes s)) id = mkSpc false PetscLU).
      { intros id Hi. rewrite P1 by exact Hi. destruct (match modules s (N_solve Driver1D) with Some (Module i) => Nat.eqb id i | _ => false end); auto. }
      split; [apply sound_patched; [exact H|exact N1|exact P]|]. split; [exact N1|]. split; [intros d id Hi; rewrite M1; exact Hi|exact P].
    - destruct (mock_result d s H) as [_ [M1 [N1 P1]]].
      assert (P : forall id, id < next_id s -> spaces (snd (test_mock installed completes d s)) id = spaces s id \/ spaces (snd (test_mock installed completes d s)) id = mkSpc false PetscLU)
        by (intros id Hi; left; apply P1, Hi).
      split; [apply sound_patched; [exact H|exact N1|exact P]|]. split; [exact N1|]. split; [intros d' id Hi; rewrite M1; exact Hi|exact P].
  Qed.
  Lemma sound_after es : forall s, sound s -> sound (after es s).
  Proof. induction es as [|e es IH]; intros s H; [exact H|]. cbn. apply IH, (happen_sound e s H). Qed.
  Lemma stays_lu es : forall s id, sound s -> modules s (N_solve Driver1D) = Some (Module id) -> spaces s id = mkSpc false PetscLU ->
    modules (after es s) (N_solve Driver1D) = Some (Module id) /\ spaces (after es s) id = mkSpc false PetscLU.
  Proof.
    induction es as [|e es IH]; intros s id H Hm Hs; [auto|]. cbn. destruct (happen_sound e s H) as [S1 [N1 [M1 P1]]].
    apply IH; [exact S1|apply M1, Hm|]. destruct (so_mod _ H _ _ Hm) as [i [[= <-] [A _]]]. destruct (P1 id A) as [->| ->]; [exact Hs|reflexivity].
  Qed.
End Run.

(** C81.  In every session the namespace of a driver is consistent: it has chosen PyPardiso
    exactly if the name pypardiso is a module, which only happens if it is installed.  So
    solve_problem never uses None, and the PySolver objects it makes never warn. *)
Theorem C81_consistent : forall installed completes sp es d id,
  let s := session_after installed completes es (new_session sp) in modules s (N_solve d) = Some (Module id) ->
  its_solver (spaces s id) = (if has_pypardiso (spaces s id) then Pypardiso else PetscLU)
  /\ (has_pypardiso (spaces s id) = true -> installed = true)
  /\ (its_solver (spaces s id) = Pypardiso -> PySolver_warnings id s = (Val 0, s)).
Proof.
  intros installed completes sp es d id s Hm. destruct (so_mod _ _ _ (sound_after installed completes es _ (sound_new _ _ sp)) d _ Hm) as [i [[= <-] [_ [_ [A B]]]]].
  fold s in A, B. split; [exact A|]. split; [exact B|]. intro C. unfold PySolver_warnings. unfold SOLVER_TYPE in A. destruct (has_pypardiso (spaces s id)); [reflexivity|congruence].
Qed.
(** A PySolver object warns, once, exactly where the driver has chosen PETSc; and
    pytest.warns fails where nothing is warned. *)
Theorem C81_warns : forall installed completes sp es d id,
  let s := session_after installed completes es (new_session sp) in modules s (N_solve d) = Some (Module id) ->
  PySolver_warnings id s = (Val (match its_solver (spaces s id) with Pypardiso => 0 | _ => 1 end), s)
  /\ warns_PySolver id s = ((match its_solver (spaces s id) with Pypardiso => Exc Failed | _ => Val tt end), s).
Proof.
  intros installed completes sp es d id s Hm. destruct (C81_consistent installed completes sp es d id Hm) as [A _]. fold s in A.
  unfold warns_PySolver, pbind, PySolver_warnings. rewrite A. destruct (has_pypardiso (spaces s id)); split; reflexivity.
Qed.
(** test_pardiso passes in every session, whatever happened before *)
Theorem C81_pardiso : forall installed completes sp es, completes Driver1D = true ->
  fst (test_pardiso installed completes (session_after installed completes es (new_session sp))) = Val tt.
Proof. intros. apply pardiso_result; [apply sound_after, sound_new|assumption]. Qed.
(** the test that reloads solve_1d passes exactly if the module is in sys.modules; otherwise it
    ends with a KeyError *)
Theorem C81_mock_1d : forall installed completes sp es, let s := session_after installed completes es (new_session sp) in
  fst (test_mock_1d installed completes s) = (if modules s (N_solve Driver1D) then Val tt else Exc SysKeyError).
Proof.
  intros installed completes sp es s. rewrite (proj1 (mock1_result installed completes s (sound_after _ _ es _ (sound_new _ _ sp)))).
  destruct (modules s (N_solve Driver1D)); reflexivity.
Qed.
(** the tests of solve_2d and solve_3d pass exactly if the module was not imported with
    PyPardiso before (and can be imported) *)
Theorem C81_mock : forall installed completes sp es d, completes d = true -> let s := session_after installed completes es (new_session sp) in
  fst (test_mock installed completes d s) = Val tt <->
  ~ exists id, modules s (N_solve d) = Some (Module id) /\ has_pypardiso (spaces s id) = true.
Proof.
  intros installed completes sp es d Hc s. pose proof (sound_after installed completes es _ (sound_new installed completes sp)) as H. fold s in H.
  rewrite (proj1 (mock_result installed completes d s H)). destruct (modules s (N_solve d)) as [[|id]|] eqn:E.
  - destruct (so_mod _ _ _ H d _ E) as [i [Q _]]. discriminate.
  - destruct (has_pypardiso (spaces s id)) eqn:Hp; split.
    + discriminate.
    + intro X. exfalso. apply X. exists id. auto.
    + intros _ [i [[= <-] Q]]. congruence.
    + reflexivity.
  - rewrite Hc. split; [intros _ [i [Q _]]; discriminate|reflexivity].
Qed.
(** the reload is not undone: from then on solve_problem of solve_1d uses PETSc's LU, whatever
    is installed and whatever happens later *)
Theorem C81_reload_stays : forall installed completes sp es es' id,
  modules (session_after installed completes es (new_session sp)) (N_solve Driver1D) = Some (Module id) ->
  let s := session_after installed completes (es ++ Test_mock_1d :: es') (new_session sp) in
  modules s (N_solve Driver1D) = Some (Module id) /\ branch_taken id s = PetscLU.
Proof.
  intros installed completes sp es es' id Hm s. subst s. unfold session_after. rewrite fold_left_app. cbn [fold_left]. fold (session_after installed completes es (new_session sp)).
  pose proof (sound_after installed completes es _ (sound_new installed completes sp)) as H. set (s := session_after installed completes es (new_session sp)) in *.
  destruct (mock1_result installed completes s H) as [_ [M1 [N1 P1]]]. destruct (so_mod _ _ _ H _ _ Hm) as [i [[= <-] [A _]]].
  assert (E : modules (happen installed completes Test_mock_1d s) (N_solve Driver1D) = Some (Module id)) by (cbn [happen]; rewrite M1; exact Hm).
  assert (Q : spaces (happen installed completes Test_mock_1d s) id = mkSpc false PetscLU).
  { cbn [happen]. rewrite P1 by exact A. rewrite Hm, Nat.eqb_refl. reflexivity. }
  destruct (stays_lu installed completes es' _ id (proj1 (happen_sound installed completes Test_mock_1d s H)) E Q) as [R1 R2].
  split; [exact R1|]. unfold branch_taken. unfold session_after in R2. rewrite R2. reflexivity.
Qed.
(** pytest's own order: test_solve_1d_smoke.py imports solve_1d while tests are collected, then
    test_dxss.py runs.  All its tests pass; the smoke test, which would run the PyPardiso branch
    on its own if it is installed, then runs the other one. *)
Theorem C81_pytest : forall installed completes sp, (forall d, completes d = true) ->
  let run es := session_after installed completes es (new_session sp) in
  let s0 := run [Import_driver Driver1D] in
  let s1 := run [Import_driver Driver1D; Test_pardiso] in
  let s2 := run [Import_driver Driver1D; Test_pardiso; Test_mock_1d] in
  let s3 := run [Import_driver Driver1D; Test_pardiso; Test_mock_1d; Test_mock Driver2D] in
  let s4 := run [Import_driver Driver1D; Test_pardiso; Test_mock_1d; Test_mock Driver2D; Test_mock Driver3D] in
  exists id, import_driver installed completes Driver1D (new_session sp) = (Val id, s0)
  /\ fst (test_pardiso installed completes s0) = Val tt /\ fst (test_mock_1d installed completes s1) = Val tt
  /\ fst (test_mock installed completes Driver2D s2) = Val tt /\ fst (test_mock installed completes Driver3D s3) = Val tt
  /\ branch_taken id s0 = (if installed then Pypardiso else PetscLU) /\ branch_taken id s4 = PetscLU.
Proof.
  intros installed completes sp Hc run s0 s1 s2 s3 s4. exists 0.
  assert (E0 : import_driver installed completes Driver1D (new_session sp) = (Val 0, s0)).
  { unfold s0, run, session_after. cbn [fold_left happen]. unfold import_driver. cbn [new_session modules next_id].
    unfold exec_module, pbind, except_import, import_pypardiso. rewrite Hc. destruct installed; reflexivity. }
  assert (M0 : modules s0 (N_solve Driver1D) = Some (Module 0)).
  { destruct (import_drv installed completes Driver1D _ (sound_new _ _ sp)) as [_ [_ [_ [_ [V _]]]]]. destruct (V (Hc _)) as [i [V1 V2]].
    rewrite E0 in V1, V2. cbn [fst snd] in *. injection V1 as <-. exact V2. }
  assert (Sn : forall es, sound installed completes (run es)) by (intro; apply sound_after, sound_new).
  assert (Step : forall es e, run (es ++ [e]) = happen installed completes e (run es)) by (intros; unfold run, session_after; rewrite fold_left_app; reflexivity).
  assert (M1 : modules s1 (N_solve Driver1D) = Some (Module 0)).
  { change s1 with (run ([Import_driver Driver1D] ++ [Test_pardiso])). rewrite Step. apply (happen_sound installed completes Test_pardiso _ (Sn _)), M0. }
  assert (F2 : forall d, d <> Driver1D -> modules s2 (N_solve d) = None).
  { intros d Hd. change s2 with (run ([Import_driver Driver1D; Test_pardiso] ++ [Test_mock_1d])). rewrite Step. cbn [happen]. fold s1.
    rewrite (proj1 (proj2 (mock1_result installed completes s1 (Sn _)))). change s1 with (snd (test_pardiso installed completes s0)).
    unfold test_pardiso, pbind. replace (import_driver installed completes Driver1D s0) with (@Val nat 0, s0) by (unfold import_driver; rewrite M0; reflexivity).
    assert (N0 : modules s0 (N_solve d) = None).
    { unfold s0, run, session_after. cbn [fold_left happen]. unfold import_driver, exec_module, pbind, except_import, import_pypardiso. cbn [new_session modules next_id set_module].
      rewrite Hc. destruct d; [congruence| |]; destruct installed; reflexivity. }
    destruct (has_pypardiso (spaces s0 0)).
    - destruct (import_pyp installed completes s0 (Sn _)) as [_ [_ [Q _]]]. rewrite Q by discriminate. exact N0.
    - unfold warns_PySolver, pbind, PySolver_warnings. destruct (has_pypardiso (spaces s0 0)); exact N0. }
  split; [exact E0|]. split; [apply pardiso_result; [apply Sn|apply Hc]|].
  split; [rewrite (proj1 (mock1_result _ _ s1 (Sn _))), M1; reflexivity|].
  split; [rewrite (proj1 (mock_result _ _ _ s2 (Sn _))), F2, Hc by discriminate; reflexivity|].
  split.
  { rewrite (proj1 (mock_result _ _ _ s3 (Sn _))). change s3 with (run ([Import_driver Driver1D; Test_pardiso; Test_mock_1d] ++ [Test_mock Driver2D])).
    rewrite Step. cbn [happen]. fold s2. rewrite (proj1 (proj2 (mock_result _ _ _ s2 (Sn _)))). rewrite F2, Hc by discriminate. reflexivity. }
  split.
  - unfold branch_taken. destruct (import_drv installed completes Driver1D _ (sound_new _ _ sp)) as [_ [_ [_ [_ [_ [_ V]]]]]]. rewrite E0 in V. cbn [fst snd] in V.
    destruct (so_mod _ _ _ (Sn [Import_driver Driver1D]) _ _ M0) as [i [[= <-] [_ [_ [A _]]]]]. fold s0 in A. rewrite A, (V eq_refl 0 eq_refl). reflexivity.
  - apply (C81_reload_stays installed completes sp [Import_driver Driver1D; Test_pardiso] [Test_mock Driver2D; Test_mock Driver3D] 0). exact M1.
Qed.
(** so the outcome of a test depends on what ran before it: the test for solve_1d fails on its
    own, the one for solve_2d fails after an import of that module, and the same smoke test runs
    different code *)
Theorem C81_refuted : exists installed completes sp, (forall d, completes d = true) /\
  let run es := session_after installed completes es (new_session sp) in
  fst (test_mock_1d installed completes (run [])) = Exc SysKeyError
  /\ fst (test_mock_1d installed completes (run [Test_pardiso])) = Val tt
  /\ fst (test_mock installed completes Driver2D (run [])) = Val tt
  /\ fst (test_mock installed completes Driver2D (run [Import_driver Driver2D])) = Exc AssertionError
  /\ branch_taken 0 (run [Import_driver Driver1D]) = Pypardiso
  /\ branch_taken 0 (run [Import_driver Driver1D; Test_mock_1d]) = PetscLU.
Proof. exists true, (fun _ => true), (fun _ => mkSpc false PetscLU). repeat split; reflexivity. Qed.
(** the hypotheses can hold: a loaded driver, both with and without PyPardiso *)
Example C81_nonvacuous : forall installed, let s := session_after installed (fun _ => true) [Import_pypardiso; Import_driver Driver2D] (new_session (fun _ => mkSpc false PetscLU)) in
  exists id, modules s (N_solve Driver2D) = Some (Module id) /\ has_pypardiso (spaces s id) = installed.
Proof. intros [|]; [exists 1|exists 0]; split; reflexivity. Qed.

Print Assumptions C81_consistent. Print Assumptions C81_warns.
Print Assumptions C81_pardiso.
Print Assumptions C81_mock_1d.
Print Assumptions C81_mock.
Print Assumptions C81_reload_stays.
Print Assumptions C81_pytest.
Print Assumptions C81_refuted.

(** The import block with anything that `import pypardiso` can do (a broken installation may raise
    something else): only an ImportError counts as "not installed"; any other exception leaves the
    namespace as it was and ends the import of the driver. *)
Theorem C81_import_block : forall (imp : prog unit) id s,
  except_import (pbind imp (fun _ s => (Val tt, set_space id (mkSpc true Pypardiso) s))) (fun s => (Val tt, set_space id (mkSpc false PetscLU) s)) s
  = match imp s with
    | (Val _, s') => (Val tt, set_space id (mkSpc true Pypardiso) s')
    | (Exc ImportError, s') => (Val tt, set_space id (mkSpc false PetscLU) s')
    | (Exc e, s') => (Exc e, s')
    end.
Proof. intros imp id s. unfold except_import, pbind. destruct (imp s) as [[[]|[]] s']; reflexivity. Qed.
Theorem C81_import_block_used : forall installed completes d id s,
  exec_module installed completes d id s = pbind (fun s => match import_pypardiso installed s with
    | (Val _, s') => (Val tt, set_space id (mkSpc true Pypardiso) s')
    | (Exc ImportError, s') => (Val tt, set_space id (mkSpc false PetscLU) s')
    | (Exc e, s') => (Exc e, s')
    end) (fun _ => if completes d then pret tt else praise OtherExn) s.
Proof. intros installed completes d id s. unfold exec_module, pbind at 1 3. rewrite C81_import_block. reflexivity. Qed.
Print Assumptions C81_import_block.
Print Assumptions C81_import_block_used.
