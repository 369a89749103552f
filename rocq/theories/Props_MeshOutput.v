(** Props_MeshOutput.v -- property C101: what meshes.py prints. *)
From Coq Require Import Reals List ZArith Lia Bool String.
From Verif Require Import Base MarchLoops MeshModel MeshOutput Props_Mesh.
Import ListNotations.
Open Scope list_scope.
Open Scope R_scope.
Open Scope monad_scope.

(** * Printing changes nothing else *)
Definition same {A} (p : M (gstate * list mline) A) (m : M gstate A) : Prop :=
  forall s o, exists l, p (s, o) = (fst (m s), (snd (m s), o ++ l)).
Lemma same_silent {A} (m : M gstate A) : same (silent m) m.
Proof. intros s o. exists []. rewrite app_nil_r. unfold silent. destruct (m s); reflexivity. Qed.
Lemma same_bind {A B} p m (k : A -> M _ B) f : same p m -> (forall a, same (k a) (f a)) -> same (bind p k) (bind m f).
Proof.
  intros H K s o. unfold bind. destruct (H s o) as [l ->]. destruct (m s) as [[a|e] s']; cbn [fst snd].
  - destruct (K a s' (o ++ l)) as [l' ->]. exists (l ++ l'). rewrite app_assoc. reflexivity.
  - exists l. reflexivity.
Qed.
Lemma same_ret {A} (a : A) : same (ret a) (ret a).
Proof. intros s o. exists []. rewrite app_nil_r. reflexivity. Qed.
Lemma same_ext {A} p (m m' : M gstate A) : same p m -> (forall s, m' s = m s) -> same p m'.
Proof. intros H K s o. rewrite K. apply H. Qed.
(** a silent sequence *)
Lemma same_pre {A B C} (a : M gstate A) f (k : B -> M _ C) g :
  (forall x, same (bind (silent (f x)) k) (g x)) -> same (bind (silent (bind a f)) k) (bind a g).
Proof.
  intros H s o. destruct (a s) as [[x|e] s'] eqn:Q.
  - destruct (H x s' o) as [l E]. exists l. replace (bind a g s) with (g x s') by (unfold bind; rewrite Q; reflexivity).
    rewrite <- E. unfold bind, silent. rewrite Q. reflexivity.
  - exists []. rewrite app_nil_r. unfold bind, silent. rewrite Q. reflexivity.
Qed.
Lemma same_say {A} l (k : unit -> M _ A) m : same (k tt) m -> same (bind (say l) k) m.
Proof. intros H s o. destruct (H s (o ++ [l])) as [l' E]. exists (l :: l'). unfold bind, say, modify. rewrite E, <- app_assoc. reflexivity. Qed.
Lemma same_assoc {A B C} p (m : M gstate A) (f : A -> M gstate B) (g : B -> M gstate C) : same p (bind m (fun a => bind (f a) g)) -> same p (bind (bind m f) g).
Proof. intros H. apply (same_ext _ _ _ H). intro s. apply bind_assoc. Qed.
(** a print that may be left out *)
Lemma same_last l : same (say l) (ret tt).
Proof. intros s o. exists [l]. reflexivity. Qed.
Lemma same_emit {A} p (k : unit -> M _ A) m : same p (ret tt) -> same (k tt) m -> same (bind p k) m.
Proof. intros H K. apply (same_ext _ (bind (ret tt) (fun _ => m))); [|reflexivity]. apply same_bind; [exact H|]. intros []. exact K. Qed.
Lemma same_each {A} (l : list A) f : (forall a, same (f a) (ret tt)) -> same (for_each l f) (ret tt).
Proof. intro H. induction l as [|a l IH]; cbn [for_each]; [apply same_ret|]. apply same_emit; [apply H|exact IH]. Qed.

Section Same.
  Variable auto_tag : list geo -> nat -> Z.
  Variable entities : list geo -> nat -> list Z.
  Variable com : list geo -> ent -> list R.
  Variable fragments : list geo -> list ent.
  Variable msh_file : R -> list geo -> list group -> mio.
  Variable nodes : gstate -> list Z * list R.
  Variable elements : gstate -> list (nat * list Z).
  Variable num_nodes : nat -> nat.
  Variable perm : nat -> list nat.
  Variable build : list (list R) -> list (list nat) -> mesh.
  Variable build_z : list (list R) -> list (list Z) -> res mesh.
  Variable model_mesh : gstate -> mesh.
  Variable refine : mesh -> list (nat * nat) -> mesh.
  Variable refine_uniform : mesh -> mesh.
  Variable v07 : bool.
  Variable cut_result : list geo -> list ent * list (list ent).
  Variable relations : list geo -> list (list ent).

  Lemma same_r3 {A} (k : unit -> M _ A) m : same (k tt) m -> same (bind (say_r3 cut_result) k) m.
  Proof.
    intros H s o. unfold say_r3. destruct (H s (o ++ [l_r3 (cut_result (g_geo s))])) as [l E].
    exists (l_r3 (cut_result (g_geo s)) :: l). unfold bind, silent, get, say, modify. rewrite E, <- app_assoc. reflexivity.
  Qed.
  (** the count needs an open session, as what follows *)
  Lemma same_count {A} (k : unit -> M _ A) m : same (k tt) m -> (forall s, g_open s = false -> m s = (Err RuntimeError, s)) -> same (bind (say_count entities) k) m.
  Proof.
    intros H HC s o. destruct (g_open s) eqn:E.
    - set (c := l_count (List.length (map (fun t => (2%nat, t)) (entities (g_geo s) 2)))).
      assert (Q : say_count entities (s, o) = (Ok tt, (s, o ++ [c]))) by (unfold say_count, bind, silent, get_entities, in_session; rewrite E; reflexivity).
      destruct (H s (o ++ [c])) as [l K]. exists (c :: l). unfold bind. rewrite Q, K, <- app_assoc. reflexivity.
    - exists []. rewrite (HC s E), app_nil_r. unfold say_count, bind, silent, get_entities, in_session. rewrite E. reflexivity.
  Qed.
  Lemma shut {B} (f : unit -> M gstate B) s : g_open s = false -> bind (number_surfaces entities com) f s = (Err RuntimeError, s).
  Proof. intro E. unfold number_surfaces, bind, get_entities, in_session. rewrite E. reflexivity. Qed.
  Lemma shut_mark {B} c1 c2 m1 m2 m3 (f : unit -> M gstate B) s : g_open s = false ->
    bind (mark_surfaces entities com c1 c2 m1 m2 m3) f s = (Err RuntimeError, s).
  Proof. intro E. unfold mark_surfaces, bind, get_entities, in_session. rewrite E. reflexivity. Qed.
  Fixpoint say_number_from (its : Z) (l : list ent) : M (gstate * list mline) unit :=
    match l with
    | [] => ret tt
    | e :: l' => do c <- silent (center_of_mass com e); say (l_com c) ;;
                 silent (add_group (mkGroup 2 [snd e] (Some its))) ;; say_number_from (its + 1)%Z l'
    end.
  Lemma same_number_from l : forall its, same (say_number_from its l) (number_from com its l).
  Proof.
    induction l as [|e ss IH]; intro its; [apply same_ret|].
    apply same_bind; [apply same_silent|]. intro c. apply same_say. apply same_bind; [apply same_silent|]. intros _. apply IH.
  Qed.
  Lemma same_number : same (say_number_surfaces entities com) (number_surfaces entities com).
  Proof.
    change (number_surfaces entities com) with (do ss <- get_entities entities 2; number_from com 1 ss).
    change (say_number_surfaces entities com) with (do ss <- silent (get_entities entities 2); say_number_from 1 ss).
    apply same_bind; [apply same_silent|]. intro ss. apply same_number_from.
  Qed.
  Lemma same_mark c1 c2 m1 m2 m3 : same (say_mark_surfaces entities com c1 c2 m1 m2 m3) (mark_surfaces entities com c1 c2 m1 m2 m3).
  Proof.
    unfold say_mark_surfaces, mark_surfaces. apply same_bind; [apply same_silent|]. intro ss.
    induction ss as [|e ss IH]; [apply same_ret|]. cbn [for_each].
    apply same_bind; [|intros _; exact IH]. apply same_bind; [apply same_silent|]. intro c. apply same_say. apply same_silent.
  Qed.
  Lemma same_through rank remote ghost : same (say_through_xdmf build rank remote ghost) (through_xdmf build rank remote).
  Proof.
    unfold say_through_xdmf, through_xdmf. apply same_bind.
    - destruct (Nat.eqb rank 0); [|apply same_ret]. apply same_bind; [apply same_silent|]. intro s. apply same_bind; [apply same_silent|]. intro f. apply same_silent.
    - intros _. apply same_bind; [apply same_silent|]. intro s. apply same_bind; [apply same_silent|]. intro f.
      destruct ghost; [apply same_say; apply same_ret|]. apply (same_emit (ret tt)); apply same_ret.
  Qed.
  Lemma same_refinements shown a n : forall m, same (say_refinements refine v07 shown a n m) (lift (refinements refine v07 a n m)).
  Proof.
    induction n as [|n IH]; intro m; cbn [say_refinements refinements]; [apply same_ret|].
    destruct (compute_incident_edges v07 a m (locate_cells m refine_all)) as [edges|e]; cbn [rbind].
    - apply (same_ext _ (bind (lift (Ok edges)) (fun edges => bind (lift (refinements refine v07 a n (refine m edges))) (fun l => ret (refine m edges :: l))))).
      + apply same_bind; [apply same_silent|]. intro ed. apply same_emit; [destruct shown; [apply same_last|apply same_ret]|].
        apply same_bind; [apply IH|]. intro l. apply same_ret.
      + intro s. unfold bind, lift, ret. destruct (refinements refine v07 a n (refine m edges)); reflexivity.
    - intros s o. exists []. rewrite app_nil_r. reflexivity.
  Qed.
  Lemma same_hierarchy shown a n m : same (say_hierarchy refine v07 shown a n m) (lift (hierarchy refine v07 a n m)).
  Proof.
    unfold say_hierarchy, hierarchy. apply (same_ext _ (bind (lift (refinements refine v07 a n m)) (fun l => ret (m :: l)))).
    - apply same_bind; [apply same_refinements|]. intro l. apply same_ret.
    - intro s. unfold bind, lift, ret. destruct (refinements refine v07 a n m); reflexivity.
  Qed.
  Lemma same_geo_convex : same (say_geo_convex cut_result) geo_convex.
  Proof.
    unfold say_geo_convex, geo_convex. do 3 (apply same_bind; [apply same_silent|]; intros _). apply same_r3. apply same_silent.
  Qed.
  Lemma same_marks_convex : same (say_marks_convex entities com msh_file) (marks_convex entities com msh_file).
  Proof.
    unfold say_marks_convex, marks_convex. apply same_count; [|intros; apply shut_mark; assumption]. apply same_bind; [apply same_mark|]. intros _. apply same_silent.
  Qed.

  Ltac pre := repeat (apply same_pre; intros _); apply same_bind; [apply same_silent|]; intros _.
  Lemma same_initial rank remote h : same (say_initial_mesh_convex entities com msh_file build rank remote cut_result h)
    (create_initial_mesh_convex entities com msh_file build rank remote h).
  Proof.
    unfold say_initial_mesh_convex, create_initial_mesh_convex. pre. apply same_bind; [|intros _; apply same_through].
    destruct (Nat.eqb rank 0); [|apply same_ret]. apply same_bind; [apply same_geo_convex|]. intros _. apply same_bind; [apply same_marks_convex|]. intros _. apply same_silent.
  Qed.

  (** With the lines dropped, every function of meshes.py is that of MeshModel.v: same
      result, same exception, same session and files; and what was printed before is kept. *)
  Theorem C101_same : forall rank remote n h,
    same (say_initial_mesh_convex entities com msh_file build rank remote cut_result h)
         (create_initial_mesh_convex entities com msh_file build rank remote h) /\
    same (say_mesh_hierarchy entities com msh_file build refine v07 rank remote cut_result n h)
         (get_mesh_hierarchy entities com msh_file build refine v07 rank remote n h) /\
    same (say_mesh_hierarchy_nonconvex entities com msh_file build refine v07 rank remote n h)
         (get_mesh_hierarchy_nonconvex entities com msh_file build refine v07 rank remote n h) /\
    (forall eta, same (say_mesh_hierarchy_fitted_disc entities com msh_file build refine v07 rank remote n eta h)
         (get_mesh_hierarchy_fitted_disc entities com msh_file build refine v07 rank remote n eta h)) /\
    same (say_mesh_data_all_around entities com msh_file build refine v07 rank remote cut_result n h)
         (get_mesh_data_all_around entities com msh_file build refine v07 rank remote n h) /\
    same (say_3d_mesh_data_all_around entities com fragments model_mesh refine_uniform relations n h)
         (get_3d_mesh_data_all_around entities com fragments model_mesh refine_uniform n h) /\
    (forall order, same (say_mesh_inclusion auto_tag entities com msh_file nodes elements num_nodes perm build_z rank h order)
         (get_mesh_inclusion auto_tag entities com msh_file nodes elements num_nodes perm build_z rank h order)) /\
    (forall x_l x_r y_l y_r eta, same (say_mesh_inclusion_square auto_tag entities com msh_file nodes elements num_nodes perm build_z rank h x_l x_r y_l y_r eta)
         (get_mesh_inclusion_square auto_tag entities com msh_file nodes elements num_nodes perm build_z rank h x_l x_r y_l y_r eta)) /\
    (forall eta, same (say_mesh_bottom_data entities com msh_file nodes elements num_nodes perm build_z rank h eta)
         (get_mesh_bottom_data entities com msh_file nodes elements num_nodes perm build_z rank h eta)) /\
    (forall remote, same (say_mesh_convex entities com msh_file build rank remote cut_result n h)
         (get_mesh_convex entities com msh_file build rank remote n h)).
  Proof.
    intros rank remote n h. split; [apply same_initial|].
    assert (HT : forall gh sh a, same (bind (say_through_xdmf build rank remote gh) (fun m => say_hierarchy refine v07 sh a n m))
      (bind (through_xdmf build rank remote) (fun m => lift (hierarchy refine v07 a n m)))).
    { intros gh sh a. apply same_bind; [apply same_through|]. intro m. apply same_hierarchy. }
    assert (HF : forall gh sh a, same (bind (silent finalize) (fun _ => bind (say_through_xdmf build rank remote gh) (fun m => say_hierarchy refine v07 sh a n m)))
      (bind finalize (fun _ => bind (through_xdmf build rank remote) (fun m => lift (hierarchy refine v07 a n m))))).
    { intros gh sh a. apply same_bind; [apply same_silent|]. intros _. apply HT. }
    assert (HN : forall (q : M gstate unit), same (bind (say_count entities) (fun _ => bind (say_number_surfaces entities com) (fun _ => silent q)))
      (bind (number_surfaces entities com) (fun _ => q))).
    { intro q. apply same_count; [|intros; apply shut; assumption]. apply same_bind; [apply same_number|]. intros _. apply same_silent. }
    split; [|split; [|split; [|split; [|split; [|split; [|split; [|split]]]]]]].
    - unfold say_mesh_hierarchy, get_mesh_hierarchy. pre. apply same_bind; [|intros _; apply HF].
      destruct (Nat.eqb rank 0); [|apply same_ret]. apply same_bind; [apply same_geo_convex|]. intros _. apply same_marks_convex.
    - unfold say_mesh_hierarchy_nonconvex, get_mesh_hierarchy_nonconvex. pre. apply same_bind; [|intros _; apply HF].
      destruct (Nat.eqb rank 0); [|apply same_ret]. apply same_bind; [apply same_silent|]. intros _. apply same_bind; [apply same_mark|]. intros _. apply same_silent.
    - intro eta. unfold say_mesh_hierarchy_fitted_disc, get_mesh_hierarchy_fitted_disc. pre. apply same_bind; [|intros _; apply HT].
      destruct (Nat.eqb rank 0); [|apply same_ret]. apply same_bind; [apply same_silent|]. intros _. apply HN.
    - unfold say_mesh_data_all_around, get_mesh_data_all_around. pre. apply same_bind; [|intros _; apply HF].
      destruct (Nat.eqb rank 0); [|apply same_ret]. unfold geo_all_around.
      do 3 (apply same_assoc; apply same_bind; [apply same_silent|]; intros _). apply same_r3.
      apply same_bind; [apply same_silent|]. intros _. apply same_bind; [apply same_number|]. intros _. apply same_silent.
    - unfold say_3d_mesh_data_all_around, get_3d_mesh_data_all_around. pre. apply same_bind; [apply same_silent|]. intro s. cbv zeta.
      apply same_say. apply same_emit; [apply same_each; intro; apply same_last|]. apply same_say. apply same_emit; [apply same_each; intro; apply same_last|].
      apply same_bind; [apply same_silent|]. intros _. apply same_bind.
      + induction (fragments (g_geo s)) as [|e l IH]; cbn [for_each]; [apply same_ret|].
        apply same_bind; [|intros _; exact IH].
        apply (same_ext _ (bind (add_group (mkGroup 3 [snd e] None)) (fun _ => ret tt))).
        * apply same_bind; [apply same_silent|]. intros _. apply same_last.
        * intro s0. unfold bind, ret. destruct (add_group _ s0) as [[[]|x] s1]; reflexivity.
      + intros _. apply same_bind; [apply same_number|]. intros _. apply same_silent.
    - intro order. unfold say_mesh_inclusion, get_mesh_inclusion. pre. apply same_bind; [|intros _; apply same_silent].
      destruct (Nat.eqb rank 0); [|apply same_ret]. apply same_bind; [apply same_silent|]. intros _. apply HN.
    - intros x_l x_r y_l y_r eta. unfold say_mesh_inclusion_square, get_mesh_inclusion_square. pre. apply same_bind; [|intros _; apply same_silent].
      destruct (Nat.eqb rank 0); [|apply same_ret]. apply same_bind; [apply same_silent|]. intros _. apply HN.
    - intro eta. unfold say_mesh_bottom_data, get_mesh_bottom_data. pre. apply same_bind; [|intros _; apply same_silent].
      destruct (Nat.eqb rank 0); [|apply same_ret]. apply same_bind; [apply same_silent|]. intros _. apply HN.
    - intro rem. unfold say_mesh_convex, get_mesh_convex. generalize 0%nat. clear HT HF HN. induction n as [|k IH]; intro j; cbn [say_mesh_convex_from mesh_convex_from]; [apply same_ret|].
      apply same_bind; [apply same_initial|]. intro m. apply same_bind; [apply IH|]. intro l. apply same_ret.
  Qed.
End Same.

(** * The lines *)
Definition says {A} (p : M (gstate * list mline) A) s (r : res A) s' l : Prop := forall o, p (s, o) = (r, (s', o ++ l)).
(** all that is printed, whatever the outcome *)
Definition prints {A} (p : M (gstate * list mline) A) s l : Prop := forall o, snd (snd (p (s, o))) = o ++ l.
Lemma says_prints {A} (p : M _ A) s r s' l : says p s r s' l -> prints p s l.
Proof. intros H o. rewrite H. reflexivity. Qed.
Lemma says_silent {A} (m : M gstate A) s r s' : m s = (r, s') -> says (silent m) s r s' [].
Proof. intros H o. unfold silent. rewrite H, app_nil_r. reflexivity. Qed.
Lemma says_bind {A B} p (k : A -> M _ B) s a s1 l1 r s2 l2 : says p s (Ok a) s1 l1 -> says (k a) s1 r s2 l2 -> says (bind p k) s r s2 (l1 ++ l2).
Proof. intros H K o. unfold bind. rewrite H, K, app_assoc. reflexivity. Qed.
Lemma prints_bind {A B} p (k : A -> M _ B) s a s1 l1 l2 : says p s (Ok a) s1 l1 -> prints (k a) s1 l2 -> prints (bind p k) s (l1 ++ l2).
Proof. intros H K o. unfold bind. rewrite H, K, app_assoc. reflexivity. Qed.
Lemma prints_silent {A} (m : M gstate A) s : prints (silent m) s [].
Proof. intro o. unfold silent. destruct (m s). cbn. symmetry. apply app_nil_r. Qed.
Lemma says_say l s : says (say l) s (Ok tt) s [l].
Proof. intro o. reflexivity. Qed.
Lemma says_ret {A} (a : A) s : says (ret a) s (Ok a) s [].
Proof. intro o. rewrite app_nil_r. reflexivity. Qed.
Lemma says_each {A} (f : A -> mline) l s : says (for_each l (fun a => say (f a))) s (Ok tt) s (map f l).
Proof.
  induction l as [|a l IH]; cbn [for_each map]; [apply says_ret|]. change (f a :: map f l) with ([f a] ++ map f l).
  apply (says_bind _ _ _ tt s); [apply says_say|exact IH].
Qed.

Section Lines.
  Variable auto_tag : list geo -> nat -> Z.
  Variable entities : list geo -> nat -> list Z.
  Variable com : list geo -> ent -> list R.
  Variable fragments : list geo -> list ent.
  Variable msh_file : R -> list geo -> list group -> mio.
  Variable nodes : gstate -> list Z * list R.
  Variable elements : gstate -> list (nat * list Z).
  Variable num_nodes : nat -> nat.
  Variable perm : nat -> list nat.
  Variable build : list (list R) -> list (list nat) -> mesh.
  Variable build_z : list (list R) -> list (list Z) -> res mesh.
  Variable model_mesh : gstate -> mesh.
  Variable refine : mesh -> list (nat * nat) -> mesh.
  Variable refine_uniform : mesh -> mesh.
  Variable v07 : bool.
  Variable cut_result : list geo -> list ent * list (list ent).
  Variable relations : list geo -> list (list ent).

  (** the centres of the surfaces of a geometry, in gmsh's order; their number *)
  Definition centres (g : list geo) : list mline := map (fun t => [MPoint (com g (2%nat, t))]) (entities g 2).
  Definition number (g : list geo) : mline := [MInt (List.length (entities g 2))].
  (** the line about the third rectangle: what the first three commands gave *)
  Definition third (g : list geo) : mline := [MText "r3 = "; MText " "; MCut (cut_result (firstn 3 g))].
  Definition ghost : mline := [MText "ghost_mode = GhostMode.shared_facet"].

  Lemma says_number h g gr me o msh x :
    says (say_number_surfaces entities com) (st h g gr me o msh x) (Ok tt) (st h g (gr ++ numbered 1 (entities g 2)) me o msh x) (centres g).
  Proof.
    change (say_number_surfaces entities com) with (do ss <- silent (get_entities entities 2); say_number_from com 1 ss).
    change (centres g) with ([] ++ centres g). eapply says_bind; [apply says_silent; reflexivity|]. cbn [g_geo].
    unfold centres. generalize 1%Z. revert gr. induction (entities g 2) as [|t l IH]; intros gr its; cbn [map say_number_from numbered].
    - rewrite app_nil_r. apply says_ret.
    - match goal with |- says _ _ _ _ (?c :: ?m) => change (c :: m) with ([] ++ [c] ++ [] ++ m) end.
      eapply says_bind; [apply says_silent; reflexivity|]. eapply says_bind; [apply says_say|]. eapply says_bind; [apply says_silent; reflexivity|].
      cbn [g_open g_factor g_geo g_groups g_meshed g_order g_msh g_xdmf snd].
      change (mkGroup 2 [t] (Some its) :: numbered (its + 1) l) with ([mkGroup 2 [t] (Some its)] ++ numbered (its + 1) l). rewrite app_assoc. apply IH.
  Qed.
  Lemma says_mark c1 c2 m1 m2 m3 h g gr me o msh x :
    says (say_mark_surfaces entities com c1 c2 m1 m2 m3) (st h g gr me o msh x) (Ok tt) (st h g (gr ++ centred entities com g c1 c2 m1 m2 m3) me o msh x) (centres g).
  Proof.
    unfold say_mark_surfaces. change (centres g) with ([] ++ centres g). eapply says_bind; [apply says_silent; reflexivity|]. cbn [g_geo].
    unfold centres, centred. revert gr. induction (entities g 2) as [|t l IH]; intro gr; cbn [map for_each].
    - rewrite app_nil_r. apply says_ret.
    - match goal with |- says _ _ _ _ (?c :: ?m) => change (c :: m) with (([] ++ [c] ++ []) ++ m) end.
      match goal with |- context [gr ++ ?k :: ?ks] => change (k :: ks) with ([k] ++ ks); rewrite app_assoc; set (k0 := k) end.
      apply (says_bind _ _ _ tt (st h g (gr ++ [k0]) me o msh x)); [|apply IH].
      eapply says_bind; [apply says_silent; reflexivity|]. eapply says_bind; [apply says_say|]. apply says_silent.
      cbn [g_geo snd]. unfold k0. cbv zeta. destruct (allclose _ c1); [reflexivity|]. destruct (allclose _ c2); reflexivity.
  Qed.
  Lemma says_count h g gr me o msh x : says (say_count entities) (st h g gr me o msh x) (Ok tt) (st h g gr me o msh x) [number g].
  Proof.
    unfold say_count. change [number g] with ([] ++ [number g]). eapply says_bind; [apply says_silent; reflexivity|].
    unfold number. cbn [g_geo]. rewrite <- (map_length (fun t => (2%nat, t)) (entities g 2)). apply says_say.
  Qed.
  Lemma says_r3 h g gr me o msh x : says (say_r3 cut_result) (st h g gr me o msh x) (Ok tt) (st h g gr me o msh x) [l_r3 (cut_result g)].
  Proof. intro out. reflexivity. Qed.
  Lemma says_geo_convex h msh x : says (say_geo_convex cut_result) (st h [] [] false 1 msh x) (Ok tt) (st h cmds_convex [] false 1 msh x) [third cmds_convex].
  Proof.
    unfold say_geo_convex. change [third cmds_convex] with ([] ++ [] ++ [] ++ [third cmds_convex] ++ []).
    eapply says_bind; [apply says_silent; apply occ_run|]. eapply says_bind; [apply says_silent; apply occ_run|].
    eapply says_bind; [apply says_silent; apply occ_run|]. eapply says_bind; [apply says_r3|]. apply says_silent.
    rewrite !bind_occ. cbn [app]. reflexivity.
  Qed.
  Lemma tail_run h g gr me o msh x : (boundary_group entities com ;; generate ;; write_msh msh_file) (st h g gr me o msh x) =
    (Ok tt, st h g (gr ++ [outline entities com g]) true o (Some (msh_file h g (gr ++ [outline entities com g]))) x).
  Proof. erewrite bind_ok by apply boundary_group_run. reflexivity. Qed.
  Lemma says_marks_convex h msh x : says (say_marks_convex entities com msh_file) (st h cmds_convex [] false 1 msh x) (Ok tt)
    (st h cmds_convex (groups_convex entities com) true 1 (Some (file_convex entities com msh_file h)) x) (number cmds_convex :: centres cmds_convex).
  Proof.
    unfold say_marks_convex. replace (number cmds_convex :: centres cmds_convex) with ([number cmds_convex] ++ centres cmds_convex ++ []) by (rewrite app_nil_r; reflexivity).
    eapply says_bind; [apply says_count|]. eapply says_bind; [apply says_mark|]. apply says_silent. apply tail_run.
  Qed.
  Lemma says_through rank remote F gh s : (rank = 0%nat -> g_msh s = Some F) -> (rank <> 0%nat -> remote = Some (prune_z F)) ->
    exists s', says (say_through_xdmf build rank remote gh) s (Ok (mesh_of build F)) s' (if gh then [ghost] else []) /\ g_open s' = g_open s.
  Proof.
    intros H0 H1. destruct rank as [|r].
    - specialize (H0 eq_refl). destruct s as [op fa ge gr me od ms xd]. cbn in H0. subst. exists (mkG op fa ge gr me od (Some F) (Some (prune_z F))).
      split; [|reflexivity]. intro out. destruct gh; cbn; rewrite ?app_nil_r; reflexivity.
    - rewrite (H1 ltac:(discriminate)). exists s. split; [|reflexivity]. intro out. destruct gh; cbn; rewrite ?app_nil_r; reflexivity.
  Qed.
  (** print(edges): nothing with dolfinx 0.7, else the edges of each mesh that is refined *)
  Definition printed_edges (n : nat) (ms : list mesh) : list mline := if v07 then [] else map (fun m => [MEdges (right_edges m)]) (firstn n ms).
  Lemma prints_hierarchy n m ms s : refined refine n m ms -> prints (say_hierarchy refine v07 true AMesh n m) s (printed_edges n ms).
  Proof.
    intros HR. unfold say_hierarchy, printed_edges. destruct v07.
    - destruct n as [|n]; intro out; cbn; rewrite app_nil_r; reflexivity.
    - cut (exists l, says (say_refinements refine false true AMesh n m) s (Ok l) s (map (fun m => [MEdges (right_edges m)]) (firstn n ms))).
      { intros [l E]. rewrite <- (app_nil_r (map _ _)). eapply prints_bind; [exact E|]. intro out. cbn. rewrite app_nil_r. reflexivity. }
      revert m ms HR. induction n as [|n IH]; intros m ms [EL [E0 EI]].
      + exists []. apply says_ret.
      + destruct ms as [|m0 ms]; [discriminate|]. cbn [nth] in E0. subst m0.
        destruct (IH (refine m (right_edges m)) ms) as [l E].
        { split; [cbn in EL; lia|]. split; [apply (EI 0%nat); lia|]. intros i Hi. apply (EI (S i)). lia. }
        exists (refine m (right_edges m) :: l). cbn [firstn map say_refinements].
        match goal with |- says _ _ _ _ (?c :: ?q) => replace (c :: q) with ([] ++ [c] ++ q ++ []) by (cbn [app]; rewrite app_nil_r; reflexivity) end.
        eapply says_bind; [apply says_silent; unfold lift; reflexivity|].
        cbn [compute_incident_edges]. rewrite located_edges. eapply says_bind; [apply says_say|]. eapply says_bind; [exact E|]. apply says_ret.
  Qed.
  Lemma prints_quiet a n m s : prints (say_hierarchy refine v07 false a n m) s [].
  Proof.
    unfold say_hierarchy. cut (prints (say_refinements refine v07 false a n m) s []).
    { intros H o. specialize (H o). unfold bind. destruct (say_refinements _ _ _ _ _ _ (s, o)) as [[l|e] [s' o']]; exact H. }
    revert m. induction n as [|n IH]; intro m; [intro o; cbn; rewrite app_nil_r; reflexivity|]. cbn [say_refinements].
    destruct (compute_incident_edges v07 a m _) as [edges|e].
    - change (@nil mline) with (@nil mline ++ [] ++ []). eapply prints_bind; [apply says_silent; unfold lift; reflexivity|]. eapply prints_bind; [apply says_ret|].
      intro o. specialize (IH (refine m edges) o). unfold bind. destruct (say_refinements _ _ _ _ _ _ (s, o)) as [[l|e] [s' o']]; exact IH.
    - intro o. cbn. rewrite app_nil_r. reflexivity.
  Qed.

  (** rank 0 alone prints the geometry *)
  Definition on_zero (rank : nat) (l : list mline) : list mline := if Nat.eqb rank 0 then l else [].
  Lemma start_run h s : g_open s = false -> (initialize ;; set_factor h) s = (Ok tt, st h [] [] false 1 (g_msh s) (g_xdmf s)).
  Proof. intro H. rewrite (bind_init _ s H). reflexivity. Qed.
  Lemma start_model h s : g_open s = false -> (initialize ;; model_add ;; set_factor h) s = (Ok tt, st h [] [] false 1 (g_msh s) (g_xdmf s)).
  Proof. intro H. rewrite (bind_init _ s H). reflexivity. Qed.

  (** get_mesh_hierarchy: what the cut gave, the number of surfaces, their centres; then, on
      every rank, the line about the ghost mode.  No edges are printed. *)
  Theorem C101_hierarchy : forall rank remote n h s, g_open s = false ->
    (rank <> 0%nat -> remote = Some (prune_z (file_convex entities com msh_file h))) ->
    prints (say_mesh_hierarchy entities com msh_file build refine v07 rank remote cut_result n h) s
      (on_zero rank (third cmds_convex :: number cmds_convex :: centres cmds_convex) ++ [ghost]).
  Proof.
    intros rank remote n h s HO HR. unfold say_mesh_hierarchy, on_zero.
    match goal with |- prints _ _ (?l ++ [ghost]) => replace (l ++ [ghost]) with ([] ++ l ++ [] ++ [ghost] ++ []) by (cbn [app]; reflexivity) end.
    eapply prints_bind; [apply says_silent; apply start_run; exact HO|]. destruct rank as [|r]; cbn [Nat.eqb].
    - change (third cmds_convex :: number cmds_convex :: centres cmds_convex) with ([third cmds_convex] ++ (number cmds_convex :: centres cmds_convex)).
      eapply prints_bind; [eapply says_bind; [apply says_geo_convex|apply says_marks_convex]|].
      eapply prints_bind; [apply says_silent; reflexivity|].
      edestruct (says_through 0 remote (file_convex entities com msh_file h) true) as [s' [E _]]; [| |eapply prints_bind; [exact E|apply prints_quiet]]; [reflexivity|exact HR].
    - eapply prints_bind; [apply says_ret|]. eapply prints_bind; [apply says_silent; reflexivity|].
      edestruct (says_through (S r) remote (file_convex entities com msh_file h) true) as [s' [E _]]; [| |eapply prints_bind; [exact E|apply prints_quiet]]; [discriminate|exact HR].
  Qed.
  (** get_mesh_hierarchy_nonconvex: the centres, not their number; the edges refined *)
  Theorem C101_nonconvex : forall rank remote n h s ms, g_open s = false ->
    (rank <> 0%nat -> remote = Some (prune_z (file_nonconvex entities com msh_file h))) ->
    refined refine n (mesh_of build (file_nonconvex entities com msh_file h)) ms ->
    prints (say_mesh_hierarchy_nonconvex entities com msh_file build refine v07 rank remote n h) s
      (on_zero rank (centres cmds_nonconvex) ++ printed_edges n ms).
  Proof.
    intros rank remote n h s ms HO HR HM. unfold say_mesh_hierarchy_nonconvex, on_zero.
    match goal with |- prints _ _ (?l ++ ?e) => change (l ++ e) with ([] ++ l ++ [] ++ [] ++ e) end.
    eapply prints_bind; [apply says_silent; apply start_run; exact HO|]. destruct rank as [|r]; cbn [Nat.eqb].
    - replace (centres cmds_nonconvex) with ([] ++ centres cmds_nonconvex ++ []) by (rewrite app_nil_r; reflexivity).
      eapply prints_bind; [eapply says_bind; [apply says_silent; apply geo_nonconvex_run|]; eapply says_bind; [apply says_mark|apply says_silent; apply tail_run]|].
      eapply prints_bind; [apply says_silent; reflexivity|].
      edestruct (says_through 0 remote (file_nonconvex entities com msh_file h) false) as [s' [E _]]; [| |eapply prints_bind; [exact E|apply prints_hierarchy; exact HM]]; [reflexivity|exact HR].
    - eapply prints_bind; [apply says_ret|]. eapply prints_bind; [apply says_silent; reflexivity|].
      edestruct (says_through (S r) remote (file_nonconvex entities com msh_file h) false) as [s' [E _]]; [| |eapply prints_bind; [exact E|apply prints_hierarchy; exact HM]]; [discriminate|exact HR].
  Qed.
  (** get_mesh_hierarchy_fitted_disc: number, centres, edges *)
  Theorem C101_disc : forall rank remote n eta h s ms, g_open s = false ->
    (rank <> 0%nat -> remote = Some (prune_z (file_disc entities com msh_file eta h))) ->
    refined refine n (mesh_of build (file_disc entities com msh_file eta h)) ms ->
    prints (say_mesh_hierarchy_fitted_disc entities com msh_file build refine v07 rank remote n eta h) s
      (on_zero rank (number (cmds_disc eta) :: centres (cmds_disc eta)) ++ printed_edges n ms).
  Proof.
    intros rank remote n eta h s ms HO HR HM. unfold say_mesh_hierarchy_fitted_disc, on_zero.
    match goal with |- prints _ _ (?l ++ ?e) => change (l ++ e) with ([] ++ l ++ [] ++ e) end.
    eapply prints_bind; [apply says_silent; apply start_run; exact HO|]. destruct rank as [|r]; cbn [Nat.eqb].
    - replace (number (cmds_disc eta) :: centres (cmds_disc eta)) with ([] ++ [number (cmds_disc eta)] ++ centres (cmds_disc eta) ++ []) by (rewrite app_nil_r; reflexivity).
      eapply prints_bind; [eapply says_bind; [apply says_silent; apply geo_disc_run|]; eapply says_bind; [apply says_count|]; eapply says_bind; [apply says_number|]; apply says_silent|].
      + erewrite bind_ok by apply boundary_group_run. reflexivity.
      + edestruct (says_through 0 remote (file_disc entities com msh_file eta h) false) as [s' [E _]]; [| |eapply prints_bind; [exact E|apply prints_hierarchy; exact HM]]; [reflexivity|exact HR].
    - eapply prints_bind; [apply says_ret|].
      edestruct (says_through (S r) remote (file_disc entities com msh_file eta h) false) as [s' [E _]]; [| |eapply prints_bind; [exact E|apply prints_hierarchy; exact HM]]; [discriminate|exact HR].
  Qed.
  (** get_mesh_data_all_around: what the cut gave, the centres; the ghost mode *)
  Theorem C101_around : forall rank remote n h s, g_open s = false ->
    (rank <> 0%nat -> remote = Some (prune_z (file_around entities com msh_file h))) ->
    prints (say_mesh_data_all_around entities com msh_file build refine v07 rank remote cut_result n h) s
      (on_zero rank (third cmds_around :: centres cmds_around) ++ [ghost]).
  Proof.
    intros rank remote n h s HO HR. unfold say_mesh_data_all_around, on_zero.
    match goal with |- prints _ _ (?l ++ [ghost]) => replace (l ++ [ghost]) with ([] ++ l ++ [] ++ [ghost] ++ []) by (cbn [app]; reflexivity) end.
    eapply prints_bind; [apply says_silent; apply start_run; exact HO|]. destruct rank as [|r]; cbn [Nat.eqb].
    - replace (third cmds_around :: centres cmds_around) with ([] ++ [] ++ [] ++ [third cmds_around] ++ [] ++ centres cmds_around ++ []) by (cbn [app]; rewrite app_nil_r; reflexivity).
      eapply prints_bind.
      + eapply says_bind; [apply says_silent; apply occ_run|]. eapply says_bind; [apply says_silent; apply occ_run|].
        eapply says_bind; [apply says_silent; apply occ_run|]. eapply says_bind; [apply says_r3|].
        eapply says_bind; [apply says_silent; rewrite !bind_occ; cbn [app]; reflexivity|].
        eapply says_bind; [apply (says_number _ cmds_around)|]. apply says_silent. apply tail_run.
      + eapply prints_bind; [apply says_silent; reflexivity|].
        edestruct (says_through 0 remote (file_around entities com msh_file h) true) as [s' [E _]]; [| |eapply prints_bind; [exact E|apply prints_quiet]]; [reflexivity|exact HR].
    - eapply prints_bind; [apply says_ret|]. eapply prints_bind; [apply says_silent; reflexivity|].
      edestruct (says_through (S r) remote (file_around entities com msh_file h) true) as [s' [E _]]; [| |eapply prints_bind; [exact E|apply prints_quiet]]; [discriminate|exact HR].
  Qed.
  (** get_mesh_convex: the geometry once per mesh, always the same commands; nothing on the
      other ranks *)
  Theorem C101_convex : forall rank remote n h s, (rank = 0%nat -> g_open s = false) ->
    (rank <> 0%nat -> forall j, (j < n)%nat -> remote j = Some (prune_z (file_convex entities com msh_file (h / 2 ^ j)))) ->
    prints (say_mesh_convex entities com msh_file build rank remote cut_result n h) s
      (on_zero rank (flat_map (fun _ => third cmds_convex :: number cmds_convex :: centres cmds_convex) (seq 0 n))).
  Proof.
    intros rank remote n h s HO HR. unfold say_mesh_convex.
    assert (I : forall rem h s, (rank = 0%nat -> g_open s = false) -> (rank <> 0%nat -> rem = Some (prune_z (file_convex entities com msh_file h))) ->
      exists m s', says (say_initial_mesh_convex entities com msh_file build rank rem cut_result h) s (Ok m) s' (on_zero rank (third cmds_convex :: number cmds_convex :: centres cmds_convex)) /\ g_open s' = negb (Nat.eqb rank 0)).
    { clear. intros rem h s HO HR. unfold say_initial_mesh_convex, on_zero. destruct rank as [|r]; cbn [Nat.eqb negb].
      - edestruct (says_through 0 rem (file_convex entities com msh_file h) false (mkG false 1 [] [] false 1 (Some (file_convex entities com msh_file h)) (g_xdmf s))) as [s' [E E1]]; [reflexivity|exact HR|].
        eexists. exists s'. split; [|exact E1].
        replace (third cmds_convex :: number cmds_convex :: centres cmds_convex) with ([] ++ ([third cmds_convex] ++ (number cmds_convex :: centres cmds_convex) ++ []) ++ []) by (cbn [app]; rewrite !app_nil_r; reflexivity).
        eapply says_bind; [apply says_silent; apply start_run; apply HO; reflexivity|].
        eapply says_bind; [eapply says_bind; [apply says_geo_convex|]; eapply says_bind; [apply says_marks_convex|]; apply says_silent; reflexivity|]. exact E.
      - assert (exists s0, (initialize ;; set_factor h) s = (Ok tt, s0) /\ g_open s0 = true) as [s0 [E0 E1]].
        { destruct s as [[|] ? ? ? ? ? ? ?]; eexists; split; reflexivity. }
        edestruct (says_through (S r) rem (file_convex entities com msh_file h) false s0) as [s' [E E2]]; [discriminate|exact HR|].
        eexists. exists s'. split; [|rewrite E2; exact E1]. change (@nil mline) with (@nil mline ++ [] ++ []).
        eapply says_bind; [apply says_silent; exact E0|]. eapply says_bind; [apply says_ret|]. exact E. }
    cut (exists ms s', says (say_mesh_convex_from entities com msh_file build rank remote cut_result 0 n h) s (Ok ms) s' (on_zero rank (flat_map (fun _ => third cmds_convex :: number cmds_convex :: centres cmds_convex) (seq 0 n)))).
    { intros (ms & s' & E). exact (says_prints _ _ _ _ _ E). }
    assert (G : forall n j s, (rank = 0%nat -> g_open s = false) -> (rank <> 0%nat -> forall i, (j <= i < j + n)%nat -> remote i = Some (prune_z (file_convex entities com msh_file (h / 2 ^ i)))) ->
      exists ms s', says (say_mesh_convex_from entities com msh_file build rank remote cut_result j n h) s (Ok ms) s'
        (on_zero rank (flat_map (fun _ => third cmds_convex :: number cmds_convex :: centres cmds_convex) (seq j n)))).
    { clear n s HO HR. induction n as [|n IH]; intros j s HO HR; cbn [say_mesh_convex_from seq].
      - exists [], s. unfold on_zero. destruct (Nat.eqb rank 0); apply says_ret.
      - destruct (I (remote j) (h / 2 ^ j) s HO) as (m & s1 & E1 & O1); [intro K; apply HR; [exact K|lia]|].
        destruct (IH (S j) s1) as (ms & s2 & E2); [intros ->; exact O1|intros K i Hi; apply HR; [exact K|lia]|].
        exists (m :: ms), s2. cbn [flat_map].
        match goal with |- says _ _ _ _ (on_zero rank (?a ++ ?b)) => replace (on_zero rank (a ++ b)) with (on_zero rank a ++ on_zero rank b ++ []) by (unfold on_zero; destruct (Nat.eqb rank 0); rewrite app_nil_r; reflexivity) end.
        eapply says_bind; [exact E1|]. eapply says_bind; [exact E2|]. apply says_ret. }
    apply (G n 0%nat s HO). intros K j Hj. apply HR; [exact K|lia].
  Qed.
  (** the three functions that read gmsh's nodes: number and centres on rank 0, nothing
      elsewhere, whether or not they end in an exception *)
  Theorem C101_nodes : forall rank h s, g_open s = false ->
    (forall order, prints (say_mesh_inclusion auto_tag entities com msh_file nodes elements num_nodes perm build_z rank h order) s
       (on_zero rank (number (cmds_inclusion auto_tag) :: centres (cmds_inclusion auto_tag)))) /\
    (forall x_l x_r y_l y_r eta, let g := cmds_square auto_tag x_l x_r y_l y_r eta in
       prints (say_mesh_inclusion_square auto_tag entities com msh_file nodes elements num_nodes perm build_z rank h x_l x_r y_l y_r eta) s
       (on_zero rank (number g :: centres g))) /\
    (forall eta, prints (say_mesh_bottom_data entities com msh_file nodes elements num_nodes perm build_z rank h eta) s
       (on_zero rank (number (cmds_bottom eta) :: centres (cmds_bottom eta)))).
  Proof.
    intros rank h s HO.
    assert (G : forall g geom (q r : M gstate unit) (fin : M gstate mesh), (geom (st h [] [] false 1 (g_msh s) (g_xdmf s)) = (Ok tt, st h g [] false 1 (g_msh s) (g_xdmf s))) ->
      (forall gr, exists s', q (st h g gr false 1 (g_msh s) (g_xdmf s)) = (Ok tt, s')) ->
      prints (silent (initialize ;; model_add ;; set_factor h) ;;
        (if Nat.eqb rank 0 then silent geom ;; say_count entities ;; say_number_surfaces entities com ;; silent q else ret tt) ;; silent fin) s
        (on_zero rank (number g :: centres g))).
    { intros g geom q _ fin Hg Hq. unfold on_zero.
      match goal with |- prints _ _ ?l => replace l with ([] ++ l ++ []) by apply app_nil_r end.
      eapply prints_bind; [apply says_silent; apply start_model; exact HO|]. destruct (Nat.eqb rank 0).
      - destruct (Hq ([] ++ numbered 1 (entities g 2))) as [s' E].
        replace (number g :: centres g) with ([] ++ [number g] ++ centres g ++ []) by (rewrite app_nil_r; reflexivity).
        eapply prints_bind; [|apply prints_silent]. eapply says_bind; [apply says_silent; exact Hg|]. eapply says_bind; [apply says_count|].
        eapply says_bind; [apply says_number|]. apply says_silent. exact E.
      - eapply prints_bind; [apply says_ret|apply prints_silent]. }
    split; [|split].
    - intro order. apply (G _ _ _ (ret tt) _ (geo_inclusion_run auto_tag h (g_msh s) (g_xdmf s))). intro gr. eexists. apply tail_run.
    - intros x_l x_r y_l y_r eta g. apply (G _ _ _ (ret tt) _ (geo_square_run auto_tag x_l x_r y_l y_r eta h (g_msh s) (g_xdmf s))). intro gr. eexists. apply tail_run.
    - intro eta. apply (G _ _ _ (ret tt) _ (geo_bottom_run eta h (g_msh s) (g_xdmf s))). intro gr. eexists. reflexivity.
  Qed.
  (** get_3d_mesh_data_all_around: on every rank; the volumes of the last fragment twice *)
  Theorem C101_3d : forall n h s,
    let g := (if g_open s then g_geo s else []) ++ cmds_3d in
    prints (say_3d_mesh_data_all_around entities com fragments model_mesh refine_uniform relations n h) s
      ([[MText "fragment produced volumes:"]] ++ map (fun e => [MEnt e]) (fragments g) ++
       [[MText "before/after fragment relations:"]] ++ map (fun l => [MEnts l]) (relations g) ++
       map (fun e => [MEnt e]) (fragments g) ++ centres g).
  Proof.
    intros n h s g. unfold say_3d_mesh_data_all_around.
    assert (exists me o msh x gr, (initialize ;; set_factor h ;; occ (Box 0 0 0 1 1 1 1) ;; occ (Box 0.2 0.2 0.2 0.6 0.6 0.6 2) ;;
      occ (Cut [(3%nat, 1%Z)] [(3%nat, 2%Z)] 3) ;; occ (Box 0.2 0.2 0.2 0.6 0.6 0.6 4) ;;
      occ (Fragment [(3%nat, 3%Z)] [(3%nat, 4%Z)]) ;; occ (Fragment [(2%nat, 3%Z)] [(2%nat, 4%Z)])) s = (Ok tt, st h g gr me o msh x)) as (me & o & msh & x & gr & E0).
    { unfold bind at 1. unfold initialize. subst g. destruct s as [[|] ? g0 gr0 me0 o0 ms0 x0]; cbn [g_open g_geo g_msh g_xdmf]; rewrite bind_factor, !bind_occ, occ_run.
      - exists me0, o0, ms0, x0, gr0. rewrite <- !app_assoc. reflexivity.
      - exists false, 1%nat, ms0, x0, []. rewrite <- !app_assoc. reflexivity. }
    match goal with |- prints _ _ ([?a] ++ ?b ++ [?c] ++ ?d ++ ?e ++ ?f) =>
      replace ([a] ++ b ++ [c] ++ d ++ e ++ f) with ([] ++ [] ++ [a] ++ b ++ [c] ++ d ++ [] ++ e ++ f ++ []) by (rewrite app_nil_r; reflexivity) end.
    eapply prints_bind; [apply says_silent; exact E0|]. eapply prints_bind; [apply says_silent; reflexivity|]. cbv zeta. cbn [g_geo].
    eapply prints_bind; [apply says_say|]. eapply prints_bind; [apply says_each|]. eapply prints_bind; [apply says_say|]. eapply prints_bind; [apply says_each|].
    eapply prints_bind; [apply says_silent; reflexivity|].
    assert (G : forall ov gr, exists gr', says (for_each ov (fun e => silent (add_group (mkGroup 3 [snd e] None)) ;; say [MEnt e])) (st h g gr me o msh x) (Ok tt) (st h g gr' me o msh x) (map (fun e => [MEnt e]) ov)).
    { clear. induction ov as [|e ov IH]; intro gr; cbn [for_each map]; [eexists; apply says_ret|]. destruct (IH (gr ++ [mkGroup 3 [snd e] None])) as [gr' E]. exists gr'.
      match goal with |- says _ _ _ _ (?c :: ?q) => change (c :: q) with (([] ++ [c]) ++ q) end.
      eapply says_bind; [eapply says_bind; [apply says_silent; reflexivity|apply says_say]|]. exact E. }
    edestruct G as [gr' E]. eapply prints_bind; [exact E|]. eapply prints_bind; [apply says_number|]. apply prints_silent.
  Qed.
  (** A rank that finds no file prints no line. *)
  Theorem C101_no_file : forall rank n h s, rank <> 0%nat -> g_open s = false ->
    let p := say_mesh_hierarchy entities com msh_file build refine v07 rank None cut_result n h in
    forall o, fst (p (s, o)) = Err RuntimeError /\ snd (snd (p (s, o))) = o.
  Proof.
    intros rank n h s HN HO p o. subst p. destruct rank as [|r]; [contradiction|]. unfold say_mesh_hierarchy. cbn [Nat.eqb].
    match goal with |- fst ?x = _ /\ _ => assert (E : exists s', x = (Err RuntimeError, (s', o))); [|destruct E as [s' ->]; split; reflexivity] end.
    eexists. unfold bind at 1. rewrite (says_silent _ _ _ _ (start_run h s HO)), app_nil_r. reflexivity.
  Qed.
  (** The number printed is that of the physical groups of dimension two in mesh.msh. *)
  Theorem C101_number : forall g c1 c2 m1 m2 m3, number g = [MInt (List.length (centres g))] /\
    number g = [MInt (List.length (filter (fun k => Nat.eqb (gr_dim k) 2) (groups_plain entities com g)))] /\
    number g = [MInt (List.length (filter (fun k => Nat.eqb (gr_dim k) 2) (centred entities com g c1 c2 m1 m2 m3 ++ [outline entities com g])))].
  Proof.
    intros g c1 c2 m1 m2 m3. unfold number, centres. rewrite map_length. split; [reflexivity|]. split; do 2 f_equal.
    - unfold groups_plain. rewrite filter_app, app_length. cbn. rewrite Nat.add_0_r. generalize 1%Z.
      induction (entities g 2) as [|t l IH]; intro z; [reflexivity|]. cbn. f_equal. apply IH.
    - rewrite filter_app, app_length. cbn. rewrite Nat.add_0_r. unfold centred.
      induction (entities g 2) as [|t l IH]; [reflexivity|]. cbn. f_equal. apply IH.
  Qed.
End Lines.

(** * A concrete run: two surfaces, two refinements of one triangle *)
Definition ex_ent (g : list geo) (d : nat) : list Z := if Nat.eqb d 2 then [1; 2]%Z else [].
Definition ex_com (g : list geo) (e : ent) : list R := [IZR (snd e); 0; 0].
Definition ex_msh (h : R) (g : list geo) (gr : list group) : mio :=
  mkMio [[0; 0; 0]; [1; 0; 0]; [0; 1; 0]] (fun _ => [[0; 1; 2]%nat]) (fun _ => [1%Z]).
Definition ex_refine (m : mesh) (e : list (nat * nat)) : mesh := m.
Theorem C101_nonvacuous : let s := mkG false 1 [] [] false 1 None None in let m := mkMesh [[0; 0]; [1; 0]; [0; 1]] [[0; 1; 2]%nat] in
  refined ex_refine 2 (mesh_of mkMesh (file_disc ex_ent ex_com ex_msh 0.6 1)) [m; m; m] /\
  prints (say_mesh_hierarchy_fitted_disc ex_ent ex_com ex_msh mkMesh ex_refine false 0 None 2 0.6 1) s
    [[MInt 2]; [MPoint [1; 0; 0]]; [MPoint [2; 0; 0]]; [MEdges [(0, 1); (0, 2); (1, 2)]%nat]; [MEdges [(0, 1); (0, 2); (1, 2)]%nat]].
Proof.
  intros s m.
  assert (R : refined ex_refine 2 (mesh_of mkMesh (file_disc ex_ent ex_com ex_msh 0.6 1)) [m; m; m]).
  { split; [reflexivity|]. split; [reflexivity|]. intros [|[|i]] Hi; [reflexivity|reflexivity|lia]. }
  split; [exact R|]. pose proof (C101_disc ex_ent ex_com ex_msh mkMesh ex_refine false 0 None 2 0.6 1 s [m; m; m] eq_refl ltac:(contradiction) R) as H.
  assert (E : right_edges m = [(0, 1); (0, 2); (1, 2)]%nat).
  { unfold right_edges, m, refine_all. cbn [m_cells m_pts filter forallb nth]. destruct (Rle_dec 0 0) as [|N]; [|exfalso; apply N; apply Rle_refl].
    destruct (Rle_dec 0 1) as [|N]; [|exfalso; apply N; apply Rle_0_1]. reflexivity. }
  unfold printed_edges in H. cbn [firstn map] in H. rewrite E in H. exact H.
Qed.

Print Assumptions C101_same.
Print Assumptions C101_hierarchy.
Print Assumptions C101_nonconvex.
Print Assumptions C101_disc.
Print Assumptions C101_around.
Print Assumptions C101_convex.
Print Assumptions C101_nodes.
Print Assumptions C101_3d.
Print Assumptions C101_no_file.
Print Assumptions C101_number.
Print Assumptions C101_nonvacuous.
