(** Props_Conftest.v -- property C85: the seeds of the tests. *)
From Coq Require Import Reals List ZArith Lia Bool String.
From Verif Require Import Base ConftestModel.
Import ListNotations.

(** the numbers on the command line: without the option the default, otherwise the words
    after its last occurrence *)
Definition is_option (w : word) : bool := match w with WSeed | WSeedEq _ | WOpt _ => true | _ => false end.
Definition no_seed (l : list word) : Prop := forall w, In w l -> match w with WSeed | WSeedEq _ => False | _ => True end.
Definition ints (l : list Z) : list word := map WInt l.

Lemma parse_skip l : no_seed l -> forall cur l', parse cur (l ++ l') = parse cur l'.
Proof.
  induction l as [|w l IH]; intros H cur l'; [reflexivity|]. pose proof (H w (or_introl eq_refl)) as Hw.
  assert (Hl : no_seed l) by (intros v K; apply H; right; exact K).
  destruct w; try contradiction; cbn; apply IH; exact Hl.
Qed.
Lemma values_ints vs l : match l with [] => True | w :: _ => is_option w = true end -> values (ints vs ++ l) = Some vs.
Proof.
  intro H. induction vs as [|n vs IH]; cbn.
  - destruct l as [|[]]; cbn in H; try discriminate; reflexivity.
  - unfold ints in IH. rewrite IH. reflexivity.
Qed.
Lemma ints_no_seed vs : no_seed (ints vs).
Proof. intros w H. apply in_map_iff in H as (n & <- & _). exact Logic.I. Qed.
Lemma values_app l w r : is_option w = true -> values (l ++ w :: r) = values l.
Proof.
  intro H. induction l as [|v l IH]; [destruct w; cbn in H; try discriminate; reflexivity|]. destruct v; cbn; try reflexivity. rewrite IH. reflexivity.
Qed.
Lemma parse_app w r : is_option w = true -> forall l cur s0, parse cur l = Ok s0 -> parse cur (l ++ w :: r) = parse s0 (w :: r).
Proof.
  intro H. induction l as [|v l IH]; intros cur s0 E; [injection E as ->; reflexivity|].
  destruct v as [n| |[n|]|s|s]; cbn [parse app] in *; try discriminate; try (apply IH; exact E).
  rewrite (values_app l w r H). destruct (values l); [apply IH; exact E|discriminate].
Qed.

(** Without the option the default seed; with it the numbers after its last occurrence,
    however many (also none); other text among them is an error. *)
Theorem C85_option : forall before s0 vs after,
  (no_seed before -> getoption_seed before = Ok [6357141078224089020%Z]) /\
  (getoption_seed before = Ok s0 -> no_seed after -> match after with [] => True | w :: _ => is_option w = true end ->
     getoption_seed (before ++ WSeed :: ints vs ++ after) = Ok vs) /\
  (forall n, getoption_seed before = Ok s0 -> no_seed after -> getoption_seed (before ++ WSeedEq (Some n) :: after) = Ok [n]) /\
  (forall s, getoption_seed before = Ok s0 -> getoption_seed (before ++ WSeed :: ints vs ++ WText s :: after) = Err ValueError) /\
  (getoption_seed before = Ok s0 -> getoption_seed (before ++ WSeedEq None :: after) = Err ValueError).
Proof.
  intros before s0 vs after. unfold getoption_seed. split; [|split; [|split; [|split]]].
  - intro H. rewrite <- (app_nil_r before), parse_skip by exact H. reflexivity.
  - intros E HA HO. rewrite (parse_app WSeed _ eq_refl _ _ _ E). cbn [parse]. rewrite (values_ints vs after HO), parse_skip by apply ints_no_seed.
    rewrite <- (app_nil_r after), parse_skip by exact HA. reflexivity.
  - intros n E HA. rewrite (parse_app (WSeedEq (Some n)) _ eq_refl _ _ _ E). cbn [parse]. rewrite <- (app_nil_r after), parse_skip by exact HA. reflexivity.
  - intros s E. rewrite (parse_app WSeed _ eq_refl _ _ _ E). cbn [parse].
    replace (values (ints vs ++ WText s :: after)) with (@None (list Z)); [reflexivity|].
    clear E. induction vs as [|n vs IH]; [reflexivity|]. cbn. unfold ints in IH. rewrite <- IH. reflexivity.
  - intro E. rewrite (parse_app (WSeedEq None) _ eq_refl _ _ _ E). reflexivity.
Qed.

Definition gmres_test : test :=
  mkTest "test_gmres" "test_get_gmres_solution" ["rng"; "dimension"; "matrix"]%string [("dimension", 4%nat); ("matrix", 2%nat)]%string false FromFixture.
Lemma seeded_tests t : In t suite -> has_seed t = true -> t = gmres_test.
Proof. intros H. repeat (destruct H as [<-|H]; [intro K; try discriminate K; reflexivity|]). destruct H. Qed.

(** What is collected: the test of the GMRES wrapper once for each seed, dimension and
    matrix, the other tests once. *)
Theorem C85_collected : forall argv seeds l, getoption_seed argv = Ok seeds -> collect argv = Ok l ->
  (forall s d m, (exists i, In i l /\ i_test i = gmres_test /\ i_seed i = Some s /\ i_pos i = [d; m] /\ i_skip i = false) <->
                 In s seeds /\ (d < 4)%nat /\ (m < 2)%nat) /\
  (forall i, In i l -> i_skip i = false -> i_test i = gmres_test -> exists s d m, i_seed i = Some s /\ i_pos i = [d; m]) /\
  List.length (filter (fun i => negb (i_skip i) && has_seed (i_test i)) l) = (8 * List.length seeds)%nat /\
  (forall t, In t suite -> t <> gmres_test -> filter (fun i => String.eqb (t_name (i_test i)) (t_name t) && String.eqb (t_file (i_test i)) (t_file t)) l = [mkInst t None [] (t_skip t)]).
Proof.
  intros argv seeds l E HC. unfold collect in HC. rewrite E in HC. cbn [rbind] in HC.
  assert (HL : l = flat_map (generate seeds) suite) by congruence. clear HC. subst l.
  assert (G : generate seeds gmres_test = flat_map (fun p => match seeds with [] => [mkInst gmres_test None p true] | _ => map (fun s => mkInst gmres_test (Some s) p false) seeds end)
              (positions [("dimension", 4%nat); ("matrix", 2%nat)]%string)) by reflexivity.
  assert (HP : forall p, In p (positions [("dimension", 4%nat); ("matrix", 2%nat)]%string) <-> exists d m, p = [d; m] /\ (d < 4)%nat /\ (m < 2)%nat).
  { intro p. split.
    - cbn. intros H. repeat (destruct H as [<-|H]; [eexists _, _; split; [reflexivity|lia]|]). destruct H.
    - intros (d & m & -> & Hd & Hm). cbn. destruct d as [|[|[|[|d]]]]; [| | | |lia]; (destruct m as [|[|m]]; [| |lia]); tauto. }
  assert (HI : forall i, In i (flat_map (generate seeds) suite) -> i_test i = gmres_test -> In i (generate seeds gmres_test)).
  { intros i Hi Ht. apply in_flat_map in Hi as (t & Htin & Hi).
    assert (i_test i = t).
    { unfold generate in Hi. apply in_flat_map in Hi as (p & _ & Hi). destruct (has_seed t); [destruct seeds|].
      - destruct Hi as [<-|[]]. reflexivity.
      - apply in_map_iff in Hi as (s & <- & _). reflexivity.
      - destruct Hi as [<-|[]]. reflexivity. }
    congruence. }
  assert (HG : In gmres_test suite) by (cbn; tauto).
  split; [|split; [|split]].
  - intros s d m. split.
    + intros (i & Hi & Ht & Hs & Hp & Hk). specialize (HI i Hi Ht). rewrite G in HI. apply in_flat_map in HI as (p & Hpp & K).
      apply HP in Hpp as (d' & m' & -> & Hd & Hm). destruct seeds as [|s1 ss]; [destruct K as [<-|[]]; discriminate|].
      apply in_map_iff in K as (s' & <- & Hs'). cbn in Hs, Hp. injection Hs as <-. injection Hp as <- <-. auto.
    + intros (Hs & Hd & Hm). exists (mkInst gmres_test (Some s) [d; m] false). split; [|repeat split; reflexivity].
      apply (proj2 (in_flat_map (generate seeds) suite _)). exists gmres_test. split; [exact HG|]. rewrite G. apply (proj2 (in_flat_map _ (positions [("dimension", 4%nat); ("matrix", 2%nat)]%string) _)). exists [d; m]. split; [apply HP; eauto|].
      destruct seeds as [|s1 ss]; [destruct Hs|]. apply in_map_iff. exists s. split; [reflexivity|exact Hs].
  - intros i Hi Hk Ht. specialize (HI i Hi Ht). rewrite G in HI. apply in_flat_map in HI as (p & Hpp & K).
    apply HP in Hpp as (d' & m' & -> & Hd & Hm). destruct seeds as [|s1 ss]; [destruct K as [<-|[]]; discriminate|].
    apply in_map_iff in K as (s' & <- & Hs'). cbn. eauto.
  - assert (F : forall p, filter (fun i => negb (i_skip i) && has_seed (i_test i)) (map (fun s => mkInst gmres_test (Some s) p false) seeds) = map (fun s => mkInst gmres_test (Some s) p false) seeds).
    { intro p. induction seeds as [|s ss IH]; [reflexivity|]. cbn [map filter]. change (negb (i_skip (mkInst gmres_test (Some s) p false)) && has_seed (i_test (mkInst gmres_test (Some s) p false))) with true.
      cbv iota. f_equal. clear -ss. induction ss as [|a ss IH]; [reflexivity|]. cbn [map filter].
      change (negb (i_skip (mkInst gmres_test (Some a) p false)) && has_seed (i_test (mkInst gmres_test (Some a) p false))) with true. cbv iota. f_equal. exact IH. }
    destruct seeds as [|s1 ss]; [reflexivity|]. set (ss' := s1 :: ss) in *.
    assert (E2 : flat_map (generate ss') suite = flat_map (generate ss') (firstn 5 suite) ++ generate ss' gmres_test ++ flat_map (generate ss') (skipn 6 suite)) by reflexivity.
    rewrite E2, !filter_app, !app_length.
    assert (Z1 : filter (fun i => negb (i_skip i) && has_seed (i_test i)) (flat_map (generate ss') (firstn 5 suite)) = []) by reflexivity.
    assert (Z2 : filter (fun i => negb (i_skip i) && has_seed (i_test i)) (flat_map (generate ss') (skipn 6 suite)) = []) by reflexivity.
    rewrite Z1, Z2, G. cbn [List.length Nat.add]. rewrite Nat.add_0_r.
    change (match ss' with [] => _ | _ => _ end) with 0%nat || idtac.
    cbn [positions flat_map map seq app]. rewrite !filter_app, !F, !app_length, !map_length. cbn [filter List.length]. lia.
  - intros t Ht Hne.
    assert (E2 : flat_map (generate seeds) suite = flat_map (generate seeds) (firstn 5 suite) ++ generate seeds gmres_test ++ flat_map (generate seeds) (skipn 6 suite)) by reflexivity.
    assert (Z : forall i, In i (generate seeds gmres_test) -> i_test i = gmres_test).
    { intros i Hi. rewrite G in Hi. apply in_flat_map in Hi as (p & _ & K). destruct seeds; [destruct K as [<-|[]]; reflexivity|].
      apply in_map_iff in K as (s & <- & _). reflexivity. }
    assert (N : forall f, f gmres_test = false -> filter (fun i => f (i_test i)) (generate seeds gmres_test) = []).
    { intros f Hf. revert Z. generalize (generate seeds gmres_test). intro k. induction k as [|i k IH]; intro Z; [reflexivity|].
      cbn. rewrite (Z i (or_introl eq_refl)), Hf. apply IH. intros j Hj. apply Z. right. exact Hj. }
    rewrite E2, !filter_app.
    do 14 (destruct Ht as [<-|Ht]; [first [exfalso; apply Hne; reflexivity|
      match goal with |- context [filter (fun i => String.eqb (t_name (i_test i)) ?a && String.eqb (t_file (i_test i)) ?b)] =>
        rewrite (N (fun x => String.eqb (t_name x) a && String.eqb (t_file x) b) eq_refl) end; reflexivity]|]).
    destruct Ht.
Qed.

(** The numbers of the instances of test_get_gmres_solution depend on the seed alone; a
    negative seed is refused before the test begins. *)
Theorem C85_partial : forall seeded fresh argv l i e e', collect argv = Ok l -> In i l -> i_test i = gmres_test ->
  draws seeded fresh e i = draws seeded fresh e' i /\
  (forall s, i_seed i = Some s -> (0 <= s)%Z -> draws seeded fresh e i = Some (Ok (Some (seeded s)))) /\
  (forall s, i_seed i = Some s -> (s < 0)%Z -> draws seeded fresh e i = Some (Err ValueError)).
Proof.
  intros seeded fresh argv l i e e' HC Hi Ht. unfold draws. rewrite Ht. cbn [gmres_test t_source]. split; [reflexivity|].
  assert (HS : forall s, i_seed i = Some s -> i_skip i = false).
  { intros s Hs. unfold collect in HC. destruct (getoption_seed argv) as [seeds|]; [|discriminate]; cbn [rbind] in HC;
    assert (HL : l = flat_map (generate seeds) suite) by congruence; clear HC; subst l.
    apply in_flat_map in Hi as (t & Hti & Hi). unfold generate in Hi. apply in_flat_map in Hi as (p & _ & K).
    destruct (has_seed t) eqn:Hh; [|destruct K as [<-|[]]; discriminate]. apply seeded_tests in Hh; [|exact Hti]. subst t.
    destruct seeds; [destruct K as [<-|[]]; discriminate|]. apply in_map_iff in K as (x & <- & _). reflexivity. }
  split; intros s Hs H; rewrite (HS s Hs), Hs; unfold default_rng.
  - destruct (Z.ltb_spec s 0); [lia|reflexivity].
  - destruct (Z.ltb_spec s 0); [reflexivity|lia].
Qed.

(** Not all random numbers come from the seeds: whatever they are, the slab tests of the
    2D and 3D drivers draw from fresh entropy.  Given as an option without values, the
    seeds switch the test of the GMRES wrapper off. *)
Theorem C85_refuted : forall argv l, collect argv = Ok l ->
  (forall file, file = "test_slab_solver_2d"%string \/ file = "test_slab_solver_3d"%string -> exists i, In i l /\ t_file (i_test i) = file /\ i_seed i = None /\
     forall seeded fresh e, draws seeded fresh e i = Some (Ok (Some (fresh e)))) /\
  (getoption_seed argv = Ok [] -> forall i seeded fresh e, In i l -> i_test i = gmres_test -> draws seeded fresh e i = None).
Proof.
  intros argv l HC. unfold collect in HC. destruct (getoption_seed argv) as [seeds|] eqn:E; [|discriminate]; cbn [rbind] in HC;
    assert (HL : l = flat_map (generate seeds) suite) by congruence; clear HC; subst l. split.
  - assert (K : forall t, In t suite -> has_seed t = false -> t_marks t = [] -> In (mkInst t None [] (t_skip t)) (flat_map (generate seeds) suite)).
    { intros t Ht Hh Hm. apply (proj2 (in_flat_map (generate seeds) suite _)). exists t. split; [exact Ht|]. unfold generate. rewrite Hm, Hh. left. reflexivity. }
    intros file [-> | ->].
    + exists (mkInst (mkTest "test_slab_solver_2d" "test_slab_problem" [] [] false FromEntropy) None [] false).
      split; [apply (K (mkTest "test_slab_solver_2d" "test_slab_problem" [] [] false FromEntropy)); [cbn; tauto|reflexivity|reflexivity]|].
      repeat split; reflexivity.
    + exists (mkInst (mkTest "test_slab_solver_3d" "test_slab_problem" [] [] false FromEntropy) None [] false).
      split; [apply (K (mkTest "test_slab_solver_3d" "test_slab_problem" [] [] false FromEntropy)); [cbn; tauto|reflexivity|reflexivity]|].
      repeat split; reflexivity.
  - intros H i seeded fresh e Hi Ht. injection H as ->. apply in_flat_map in Hi as (t & Hti & Hi). unfold generate in Hi. apply in_flat_map in Hi as (p & _ & K).
    destruct (has_seed t) eqn:Hh; [destruct K as [<-|[]]; reflexivity|]. destruct K as [<-|[]]. cbn in Ht. subst t. discriminate Hh.
Qed.

(** With at least one seed exactly the instances of two tests are skipped. *)
Theorem C85_skipped : forall argv s seeds l i, getoption_seed argv = Ok (s :: seeds) -> collect argv = Ok l -> In i l ->
  (i_skip i = true <-> In (t_file (i_test i), t_name (i_test i))
     [("test_slab_solver_2d", "test_spacetime_solve"); ("test_spacetime_parameters", "test_spacetime_defaults")]%string).
Proof.
  intros argv s seeds l i E HC Hi. unfold collect in HC. rewrite E in HC. cbn [rbind] in HC.
  assert (HL : l = flat_map (generate (s :: seeds)) suite) by congruence. clear HC. subst l.
  apply in_flat_map in Hi as (t & Ht & Hi). unfold generate in Hi. apply in_flat_map in Hi as (p & _ & Hi).
  assert (K : i_test i = t /\ i_skip i = t_skip t).
  { destruct (has_seed t); [apply in_map_iff in Hi as (v & <- & _); auto|]. destruct Hi as [<-|[]]; auto. }
  destruct K as [-> ->]. clear -Ht.
  repeat (destruct Ht as [<-|Ht]; [cbn [t_file t_name t_skip]; split; [intro H; try discriminate H; cbn; tauto|intros [H|[H|[]]]; try discriminate H; reflexivity]|]). destruct Ht.
Qed.

Theorem C85_nonvacuous :
  getoption_seed [WOpt "-v"; WSeed; WInt 3; WInt (-1); WOpt "-s"]%string%Z = Ok [3; -1]%Z /\
  getoption_seed [WSeed; WInt 3; WSeed]%Z = Ok [] /\
  (exists l, collect [WSeed; WInt 3; WInt 4]%Z = Ok l /\ List.length l = 29%nat) /\
  (exists l, collect [] = Ok l /\ List.length l = 21%nat).
Proof. split; [reflexivity|]. split; [reflexivity|]. split; eexists; split; reflexivity. Qed.

Print Assumptions C85_option.
Print Assumptions C85_collected.
Print Assumptions C85_partial.
Print Assumptions C85_refuted.
Print Assumptions C85_skipped.
