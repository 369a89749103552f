(** Props_Tags.v -- C95: what gmsh refuses. *)
From Coq Require Import Reals List ZArith Lra Lia Bool String.
From Verif Require Import Base MarchLoops QuadProofs MeshModel Props_Mesh MeshTags.
Import ListNotations.
Open Scope R_scope.
Open Scope monad_scope.

(** * General lemmas *)
(** the same result and state, unless gmsh refuses something *)
Definition agrees {A} (m' m : M gstate A) : Prop := forall s, fst (m' s) = Err GmshError \/ m' s = m s.
Lemma agrees_refl {A} (m : M gstate A) : agrees m m.
Proof. intro s. right. reflexivity. Qed.
Lemma agrees_bind {A B} (m' m : M gstate A) (f' f : A -> M gstate B) :
  agrees m' m -> (forall a, agrees (f' a) (f a)) -> agrees (bind m' f') (bind m f).
Proof.
  intros H K s. unfold bind. destruct (H s) as [E|E].
  - left. destruct (m' s) as [[a|e] s1]; [discriminate E|]. cbn in *. injection E as ->. reflexivity.
  - rewrite <- E. destruct (m' s) as [[a|e] s1]; [apply K|right; reflexivity].
Qed.
Lemma agrees_each {A} (f' f : A -> M gstate unit) (l : list A) : (forall a, agrees (f' a) (f a)) -> agrees (for_each l f') (for_each l f).
Proof. intro H. induction l as [|a l IH]; cbn [for_each]; [apply agrees_refl|]. apply agrees_bind; [apply H|intro; apply IH]. Qed.
Lemma agrees_group gr : agrees (k_add_group gr) (add_group gr).
Proof.
  intro s. unfold k_add_group, in_session. destruct (g_open s) eqn:E.
  - destruct (gr_marker gr); [|right; reflexivity]. destruct (marked _ _ _); [left; reflexivity|right; reflexivity].
  - right. unfold add_group, in_session. rewrite E. reflexivity.
Qed.
Lemma bind_same2 {A B} (m' m : M gstate A) (f' f : A -> M gstate B) s a s1 :
  m' s = (Ok a, s1) -> m s = (Ok a, s1) -> f' a s1 = f a s1 -> bind m' f' s = bind m f s.
Proof. intros H K L. unfold bind. rewrite H, K. exact L. Qed.
Lemma bind_inv {A B} (m : M gstate A) (f : A -> M gstate B) s b s' : bind m f s = (Ok b, s') -> exists a s1, m s = (Ok a, s1) /\ f a s1 = (Ok b, s').
Proof. unfold bind. destruct (m s) as [[a|e] s1]; [|discriminate]. intro H. exists a, s1. split; [reflexivity|exact H]. Qed.
Lemma bind_fail {A B} (m : M gstate A) (f : A -> M gstate B) s e s1 : m s = (Err e, s1) -> bind m f s = (Err e, s1).
Proof. intro H. unfold bind. rewrite H. reflexivity. Qed.

Lemma zero_no x : x <> 0 -> zero x = false.
Proof. intro H. unfold zero. destruct (Req_EM_T x 0); [contradiction|reflexivity]. Qed.
Lemma zero_yes x : x = 0 -> zero x = true.
Proof. intro H. unfold zero. destruct (Req_EM_T x 0); [reflexivity|contradiction]. Qed.

(** * Groups *)
(** no group of dimension d has tag m *)
Definition free (d : nat) (m : Z) (gs : list group) : Prop := forall g, In g gs -> gr_dim g = d -> gr_marker g <> Some m.
Lemma marked_iff d m gs : marked d m gs = true <-> exists g, In g gs /\ gr_dim g = d /\ gr_marker g = Some m.
Proof.
  unfold marked. rewrite existsb_exists. split; intros [g [H K]]; exists g; (split; [exact H|]).
  - apply andb_true_iff in K. destruct K as [K1 K2]. apply Nat.eqb_eq in K1. split; [exact K1|].
    destruct (gr_marker g); [|discriminate]. apply Z.eqb_eq in K2. rewrite K2. reflexivity.
  - destruct K as [-> ->]. rewrite Nat.eqb_refl, Z.eqb_refl. reflexivity.
Qed.
Lemma marked_free d m gs : free d m gs -> marked d m gs = false.
Proof.
  intro H. destruct (marked d m gs) eqn:E; [|reflexivity]. apply marked_iff in E. destruct E as [g [H1 [H2 H3]]].
  exfalso. exact (H g H1 H2 H3).
Qed.
Lemma free_app d m a b : free d m a -> free d m b -> free d m (a ++ b).
Proof. intros H K g Hg. apply in_app_iff in Hg. destruct Hg; [apply H|apply K]; assumption. Qed.
Lemma marked_app d m a b : marked d m (a ++ b) = marked d m a || marked d m b.
Proof. unfold marked. apply existsb_app. Qed.

Lemma k_group_ok gr m h g gs me o msh x : gr_marker gr = Some m -> marked (gr_dim gr) m gs = false ->
  k_add_group gr (st h g gs me o msh x) = (Ok tt, st h g (gs ++ [gr]) me o msh x).
Proof. intros H K. unfold k_add_group, in_session. cbn [g_open g_groups]. rewrite H, K. reflexivity. Qed.
Lemma k_group_no gr m h g gs me o msh x : gr_marker gr = Some m -> marked (gr_dim gr) m gs = true ->
  k_add_group gr (st h g gs me o msh x) = (Err GmshError, st h g gs me o msh x).
Proof. intros H K. unfold k_add_group, in_session. cbn [g_open g_groups]. rewrite H, K. reflexivity. Qed.

Section Tags.
  Variable auto_tag : list geo -> nat -> Z.
  Variable entities : list geo -> nat -> list Z.
  Variable com : list geo -> ent -> list R.
  Variable fragments : list geo -> list ent.
  Variable msh_file : R -> list geo -> list group -> mio.
  Variable nodes : gstate -> list Z * list R.
  Variable elements : gstate -> list (nat * list Z).
  Variable num_nodes : nat -> nat.
  Variable perm : nat -> list nat.
  Variable build : list (list R) -> list (list nat) -> mesh.
  Variable build_z : list (list R) -> list (list Z) -> res mesh.
  Variable model_mesh : gstate -> mesh.
  Variable refine : mesh -> list (nat * nat) -> mesh.
  Variable refine_uniform : mesh -> mesh.
  Variable faces : list geo -> list Z.
  Variable pieces : list geo -> list ent.

  Notation known := (known faces pieces).
  Notation refused := (refused faces pieces).
  Notation kocc := (k_occ faces pieces).
  Notation kauto := (k_add_rectangle_auto auto_tag).

  (** the functions as in [MeshModel.v] and with gmsh's refusals *)
  Notation initial := (create_initial_mesh_convex entities com msh_file build).
  Notation k_initial rank remote := (k_create_initial_mesh_convex entities com msh_file build rank remote faces pieces).
  Notation conv := (get_mesh_hierarchy entities com msh_file build refine).
  Notation k_conv v07 rank remote := (k_get_mesh_hierarchy entities com msh_file build refine v07 rank remote faces pieces).
  Notation nonconv := (get_mesh_hierarchy_nonconvex entities com msh_file build refine).
  Notation k_nonconv v07 rank remote := (k_get_mesh_hierarchy_nonconvex entities com msh_file build refine v07 rank remote faces pieces).
  Notation disc := (get_mesh_hierarchy_fitted_disc entities com msh_file build refine).
  Notation k_disc v07 rank remote := (k_get_mesh_hierarchy_fitted_disc entities com msh_file build refine v07 rank remote faces pieces).
  Notation around := (get_mesh_data_all_around entities com msh_file build refine).
  Notation k_around v07 rank remote := (k_get_mesh_data_all_around entities com msh_file build refine v07 rank remote faces pieces).
  Notation three := (get_3d_mesh_data_all_around entities com fragments model_mesh refine_uniform).
  Notation k_three := (k_get_3d_mesh_data_all_around entities com fragments model_mesh refine_uniform faces pieces).
  Notation incl := (get_mesh_inclusion auto_tag entities com msh_file nodes elements num_nodes perm build_z).
  Notation k_incl rank := (k_get_mesh_inclusion auto_tag entities com msh_file nodes elements num_nodes perm build_z rank faces pieces).
  Notation square := (get_mesh_inclusion_square auto_tag entities com msh_file nodes elements num_nodes perm build_z).
  Notation k_square rank := (k_get_mesh_inclusion_square auto_tag entities com msh_file nodes elements num_nodes perm build_z rank faces pieces).
  Notation bottom := (get_mesh_bottom_data entities com msh_file nodes elements num_nodes perm build_z).
  Notation k_bottom rank := (k_get_mesh_bottom_data entities com msh_file nodes elements num_nodes perm build_z rank faces pieces).
  Notation k_number := (k_number_surfaces entities com).
  Notation k_outline := (k_boundary_group entities com).
  Notation k_mark := (k_mark_surfaces entities com).

  (** * Agreement *)
  Lemma agrees_kocc c : agrees (kocc c) (occ c).
  Proof.
    intro s. unfold k_occ, in_session. destruct (g_open s) eqn:E.
    - destruct (MeshTags.refused _ _ _ _); [left; reflexivity|right; reflexivity].
    - right. unfold occ, in_session. rewrite E. reflexivity.
  Qed.
  Lemma agrees_kauto a b c d e : agrees (kauto a b c d e) (add_rectangle_auto auto_tag a b c d e).
  Proof.
    intro s. unfold k_add_rectangle_auto, in_session. destruct (g_open s) eqn:E.
    - destruct (zero d || zero e); [left; reflexivity|right; reflexivity].
    - right. unfold add_rectangle_auto, bind, get, occ, in_session. rewrite E. reflexivity.
  Qed.
  Fixpoint k_number_from (its : Z) (l : list ent) : M gstate unit :=
    match l with
    | [] => ret tt
    | e :: l' => do _ <- center_of_mass com e; k_add_group (mkGroup 2 [snd e] (Some its)) ;; k_number_from (its + 1)%Z l'
    end.
  Lemma k_number_eq : k_number = (do ss <- get_entities entities 2; k_number_from 1 ss).
  Proof. reflexivity. Qed.
  Lemma agrees_number : agrees k_number (number_surfaces entities com).
  Proof.
    rewrite k_number_eq. change (number_surfaces entities com) with (do ss <- get_entities entities 2; number_from com 1 ss).
    apply agrees_bind; [apply agrees_refl|]. intro l. generalize 1%Z. induction l as [|e l IH]; intro its; cbn [k_number_from number_from]; [apply agrees_refl|].
    apply agrees_bind; [apply agrees_refl|intros _]. apply agrees_bind; [apply agrees_group|intros _]. apply IH.
  Qed.
  Lemma agrees_outline : agrees k_outline (boundary_group entities com).
  Proof. apply agrees_bind; [apply agrees_refl|intro]. apply agrees_bind; [apply agrees_refl|intro]. apply agrees_group. Qed.
  Lemma agrees_mark c1 c2 m1 m2 m3 : agrees (k_mark c1 c2 m1 m2 m3) (mark_surfaces entities com c1 c2 m1 m2 m3).
  Proof.
    apply agrees_bind; [apply agrees_refl|intro]. apply agrees_each. intro e. apply agrees_bind; [apply agrees_refl|intro c].
    destruct (allclose c c1); [apply agrees_group|]. destruct (allclose c c2); apply agrees_group.
  Qed.
  Ltac agree := repeat (first
    [apply agrees_kocc | apply agrees_kauto | apply agrees_group | apply agrees_number | apply agrees_outline | apply agrees_mark
    | apply agrees_each; intro | apply agrees_bind; [|intro]
    | match goal with |- agrees (if ?b then _ else _) _ => destruct b end | apply agrees_refl]).
  (** what gmsh refuses apart, the functions are those of [MeshModel.v] *)
  Theorem C95_agree : forall rank remote v07 n h eta order a b c d,
    agrees (k_initial rank remote h) (initial rank remote h) /\
    agrees (k_conv v07 rank remote n h) (conv v07 rank remote n h) /\
    agrees (k_nonconv v07 rank remote n h) (nonconv v07 rank remote n h) /\
    agrees (k_disc v07 rank remote n eta h) (disc v07 rank remote n eta h) /\
    agrees (k_around v07 rank remote n h) (around v07 rank remote n h) /\
    agrees (k_three n h) (three n h) /\
    agrees (k_incl rank h order) (incl rank h order) /\
    agrees (k_square rank h a b c d eta) (square rank h a b c d eta) /\
    agrees (k_bottom rank h eta) (bottom rank h eta).
  Proof.
    intros. refine (conj _ (conj _ (conj _ (conj _ (conj _ (conj _ (conj _ (conj _ _)))))))).
    - unfold k_create_initial_mesh_convex, create_initial_mesh_convex, k_geo_convex, geo_convex, k_marks_convex, marks_convex. agree.
    - unfold k_get_mesh_hierarchy, get_mesh_hierarchy, k_geo_convex, geo_convex, k_marks_convex, marks_convex. agree.
    - unfold k_get_mesh_hierarchy_nonconvex, get_mesh_hierarchy_nonconvex, k_geo_nonconvex, geo_nonconvex. agree.
    - unfold k_get_mesh_hierarchy_fitted_disc, get_mesh_hierarchy_fitted_disc, k_geo_fitted_disc, geo_fitted_disc. cbv zeta. agree.
    - unfold k_get_mesh_data_all_around, get_mesh_data_all_around, k_geo_all_around, geo_all_around. agree.
    - unfold k_get_3d_mesh_data_all_around, get_3d_mesh_data_all_around. cbv zeta. agree.
    - unfold k_get_mesh_inclusion, get_mesh_inclusion, k_geo_inclusion, geo_inclusion. agree.
    - unfold k_get_mesh_inclusion_square, get_mesh_inclusion_square, k_geo_inclusion_square, geo_inclusion_square. agree.
    - unfold k_get_mesh_bottom_data, get_mesh_bottom_data, k_geo_bottom, geo_bottom. agree.
  Qed.

  (** * The groups *)
  Lemma k_number_from_run l : forall its gs h g me o msh x, (forall m, (its <= m)%Z -> free 2 m gs) ->
    k_number_from its (map (fun t => (2%nat, t)) l) (st h g gs me o msh x) = (Ok tt, st h g (gs ++ numbered its l) me o msh x).
  Proof.
    induction l as [|t l IH]; intros its gs h g me o msh x HF; cbn [map k_number_from numbered].
    - unfold ret. rewrite app_nil_r. reflexivity.
    - erewrite bind_ok by reflexivity. erewrite bind_ok.
      2: { apply (k_group_ok _ its); [reflexivity|]. apply marked_free, HF. lia. }
      rewrite IH, <- app_assoc; [reflexivity|]. intros m Hm. apply free_app; [apply HF; lia|].
      intros k [<-|[]] _. cbn. intro E. injection E as E. lia.
  Qed.
  Lemma k_number_run gs h g me o msh x : (forall m, free 2 m gs) ->
    k_number (st h g gs me o msh x) = (Ok tt, st h g (gs ++ numbered 1 (entities g 2)) me o msh x).
  Proof. intro H. rewrite k_number_eq. erewrite bind_ok by reflexivity. cbn [g_geo]. apply k_number_from_run. intros m _. apply H. Qed.
  Lemma k_number_no gs h g me o msh x : marked 2 1 gs = true -> entities g 2 <> [] ->
    k_number (st h g gs me o msh x) = (Err GmshError, st h g gs me o msh x).
  Proof.
    intros H K. rewrite k_number_eq. erewrite bind_ok by reflexivity. cbn [g_geo]. destruct (entities g 2) as [|t l]; [contradiction|].
    cbn [map k_number_from]. erewrite bind_ok by reflexivity. apply bind_fail. apply (k_group_no _ 1%Z); [reflexivity|exact H].
  Qed.
  Lemma k_outline_eq : k_outline = (do ls <- get_entities entities 1; do bnd <- collect com ls; k_add_group (mkGroup 1 bnd (Some 1%Z))).
  Proof. reflexivity. Qed.
  Lemma k_outline_run gs h g me o msh x : marked 1 1 gs = false ->
    k_outline (st h g gs me o msh x) = (Ok tt, st h g (gs ++ [outline entities com g]) me o msh x).
  Proof.
    intro H. rewrite k_outline_eq. erewrite bind_ok by reflexivity. erewrite bind_ok by apply collect_run.
    apply (k_group_ok _ 1%Z); [reflexivity|exact H].
  Qed.
  Lemma k_outline_no gs h g me o msh x : marked 1 1 gs = true ->
    k_outline (st h g gs me o msh x) = (Err GmshError, st h g gs me o msh x).
  Proof.
    intro H. rewrite k_outline_eq. erewrite bind_ok by reflexivity. erewrite bind_ok by apply collect_run.
    apply (k_group_no _ 1%Z); [reflexivity|exact H].
  Qed.
  (** the marker given to a surface by the loop *)
  Definition class (g : list geo) (c1 c2 : list R) (m1 m2 m3 : Z) (t : Z) : Z :=
    let c := com g (2%nat, t) in if allclose c c1 then m1 else if allclose c c2 then m2 else m3.
  Definition one_mark (c1 c2 : list R) (m1 m2 m3 : Z) (e : ent) : M gstate unit :=
    do c <- center_of_mass com e;
    if allclose c c1 then k_add_group (mkGroup 2 [snd e] (Some m1))
    else if allclose c c2 then k_add_group (mkGroup 2 [snd e] (Some m2))
    else k_add_group (mkGroup 2 [snd e] (Some m3)).
  Lemma one_mark_eq c1 c2 m1 m2 m3 t gs h g me o msh x :
    one_mark c1 c2 m1 m2 m3 (2%nat, t) (st h g gs me o msh x) =
    k_add_group (mkGroup 2 [t] (Some (class g c1 c2 m1 m2 m3 t))) (st h g gs me o msh x).
  Proof.
    unfold one_mark. erewrite bind_ok by reflexivity. cbn [g_geo snd]. unfold class. cbv zeta.
    destruct (allclose _ c1); [reflexivity|]. destruct (allclose _ c2); reflexivity.
  Qed.
  Lemma k_mark_run c1 c2 m1 m2 m3 gs h g me o msh x : (forall m, free 2 m gs) -> NoDup (map (class g c1 c2 m1 m2 m3) (entities g 2)) ->
    k_mark c1 c2 m1 m2 m3 (st h g gs me o msh x) = (Ok tt, st h g (gs ++ centred entities com g c1 c2 m1 m2 m3) me o msh x).
  Proof.
    intros HF HN. unfold k_mark_surfaces. erewrite bind_ok by reflexivity. cbn [g_geo]. fold (one_mark c1 c2 m1 m2 m3). unfold centred.
    assert (HF' : forall t, In t (entities g 2) -> marked 2 (class g c1 c2 m1 m2 m3 t) gs = false) by (intros; apply marked_free, HF).
    clear HF. revert gs HF' HN. induction (entities g 2) as [|t l IH]; intros gs HF HN; cbn [map for_each].
    - rewrite app_nil_r. reflexivity.
    - erewrite bind_ok.
      2: { rewrite one_mark_eq. apply (k_group_ok _ (class g c1 c2 m1 m2 m3 t)); [reflexivity|]. apply HF. left. reflexivity. }
      cbn [map] in HN. apply NoDup_cons_iff in HN. destruct HN as [HN1 HN2]. rewrite IH; [|intros t' Ht'|exact HN2].
      + rewrite <- app_assoc. reflexivity.
      + rewrite marked_app, (HF t' (or_intror Ht')). cbn. rewrite orb_false_r. apply Z.eqb_neq. intro E. apply HN1. rewrite <- E.
        apply in_map, Ht'.
  Qed.
  Lemma k_mark_no c1 c2 m1 m2 m3 gs h g me o msh x :
    (~ NoDup (map (class g c1 c2 m1 m2 m3) (entities g 2)) \/ exists t, In t (entities g 2) /\ marked 2 (class g c1 c2 m1 m2 m3 t) gs = true) ->
    exists gs', k_mark c1 c2 m1 m2 m3 (st h g gs me o msh x) = (Err GmshError, st h g (gs ++ gs') me o msh x).
  Proof.
    intro HD. unfold k_mark_surfaces. erewrite bind_ok by reflexivity. cbn [g_geo]. fold (one_mark c1 c2 m1 m2 m3).
    revert gs HD. induction (entities g 2) as [|t l IH]; intros gs HD; cbn [map for_each].
    - exfalso. destruct HD as [K|[t [[] _]]]. apply K. constructor.
    - set (f := class g c1 c2 m1 m2 m3) in *. destruct (marked 2 (f t) gs) eqn:E.
      + exists []. rewrite app_nil_r. apply bind_fail. rewrite one_mark_eq. apply (k_group_no _ (f t)); [reflexivity|exact E].
      + erewrite bind_ok. 2: { rewrite one_mark_eq. apply (k_group_ok _ (f t)); [reflexivity|exact E]. }
        edestruct (IH (gs ++ [mkGroup 2 [t] (Some (f t))])) as [gs' EQ].
        2: { fold f. rewrite EQ, <- app_assoc. eexists. reflexivity. }
        destruct HD as [HD|[t' [[<-|Ht'] M]]].
        * cbn [map] in HD. destruct (in_dec Z.eq_dec (f t) (map f l)) as [Hin|Hout].
          -- right. apply in_map_iff in Hin. destruct Hin as [t' [E' Ht']]. exists t'. split; [exact Ht'|].
             rewrite marked_app. apply orb_true_intro. right. cbn. rewrite E', Z.eqb_refl. reflexivity.
          -- left. intro N. apply HD. constructor; assumption.
        * congruence.
        * right. exists t'. split; [exact Ht'|]. rewrite marked_app, M. reflexivity.
  Qed.
  Lemma free_nil d m : free d m [].
  Proof. intros g []. Qed.
  Lemma numbered_line l : forall its, marked 1 1 (numbered its l) = false.
  Proof. induction l as [|t l IH]; intro its; cbn; [reflexivity|]. apply IH. Qed.
  Lemma centred_line g c1 c2 m1 m2 m3 : marked 1 1 (centred entities com g c1 c2 m1 m2 m3) = false.
  Proof. unfold centred. induction (entities g 2) as [|t l IH]; cbn; [reflexivity|]. exact IH. Qed.

  (** * The geometries in an empty model *)
  Lemma bind_kocc {B} c (f : unit -> M gstate B) h g gr me o msh x : refused g c = false ->
    bind (kocc c) f (st h g gr me o msh x) = f tt (st h (g ++ [c]) gr me o msh x).
  Proof. intro H. unfold bind, k_occ, in_session. cbn [g_open g_geo]. rewrite H. reflexivity. Qed.
  Lemma bind_kocc_no {B} c (f : unit -> M gstate B) h g gr me o msh x : refused g c = true ->
    bind (kocc c) f (st h g gr me o msh x) = (Err GmshError, st h g gr me o msh x).
  Proof. intro H. unfold bind, k_occ, in_session. cbn [g_open g_geo]. rewrite H. reflexivity. Qed.
  Lemma bind_kauto {B} a b c d e (f : Z -> M gstate B) h g gr me o msh x : d <> 0 -> e <> 0 ->
    bind (kauto a b c d e) f (st h g gr me o msh x) =
    f (auto_tag g 2) (st h (g ++ [Rect a b c d e (auto_tag g 2)]) gr me o msh x).
  Proof. intros H K. unfold bind, k_add_rectangle_auto, in_session. cbn [g_open]. rewrite (zero_no d H), (zero_no e K). reflexivity. Qed.
  Lemma bind_kauto_no {B} a b c d e (f : Z -> M gstate B) h g gr me o msh x : d = 0 \/ e = 0 ->
    bind (kauto a b c d e) f (st h g gr me o msh x) = (Err GmshError, st h g gr me o msh x).
  Proof.
    intros H. unfold bind, k_add_rectangle_auto, in_session. cbn [g_open].
    assert (zero d || zero e = true) as -> by (destruct H as [H|H]; rewrite (zero_yes _ H), ?orb_true_r; reflexivity). reflexivity.
  Qed.
  Lemma refused_rect a b c d e t g : d <> 0 -> e <> 0 -> among (2%nat, t) (known g) = false -> refused g (Rect a b c d e t) = false.
  Proof. intros H K L. cbn. rewrite (zero_no d H), (zero_no e K), L. reflexivity. Qed.
  Lemma refused_flat a b c d e t g : d = 0 \/ e = 0 -> refused g (Rect a b c d e t) = true.
  Proof. intros [H|H]; cbn; rewrite (zero_yes _ H), ?orb_true_r; reflexivity. Qed.
  Ltac nonzero := decimals; lra.
  Ltac accept := first [apply refused_rect; [nonzero|nonzero|reflexivity] | reflexivity].
  Ltac give := rewrite bind_kocc by accept; cbn [app].
  Lemma k_around_run h msh x : k_geo_all_around faces pieces (st h [] [] false 1 msh x) = (Ok tt, st h cmds_around [] false 1 msh x).
  Proof. unfold k_geo_all_around. do 5 give. reflexivity. Qed.
  Lemma k_nonconvex_run h msh x : k_geo_nonconvex faces pieces (st h [] [] false 1 msh x) = (Ok tt, st h cmds_nonconvex [] false 1 msh x).
  Proof. unfold k_geo_nonconvex. do 4 give. reflexivity. Qed.
  Lemma k_disc_run eta h msh x : eta <> 0 -> eta <> 1/4 -> eta <> 6/5 -> eta <> 5/4 ->
    k_geo_fitted_disc faces pieces eta (st h [] [] false 1 msh x) = (Ok tt, st h (cmds_disc eta) [] false 1 msh x).
  Proof. intros. unfold k_geo_fitted_disc. cbv zeta. do 7 give. reflexivity. Qed.
  Lemma k_bottom_run eta h msh x : eta <> 1/4 -> eta <> 9/10 -> eta <> 1 ->
    k_geo_bottom faces pieces eta (st h [] [] false 1 msh x) = (Ok tt, st h (cmds_bottom eta) [] false 1 msh x).
  Proof. intros. unfold k_geo_bottom. do 8 give. rewrite bind_sync. give. reflexivity. Qed.

  (** gmsh takes tags above all those of the model *)
  Definition above : Prop := forall l d t, In (d, t) (known l) -> (t < auto_tag l d)%Z.
  Lemma among_iff e l : among e l = true <-> In e l.
  Proof.
    unfold among. rewrite existsb_exists. split.
    - intros [f [H K]]. unfold ent_eqb in K. apply andb_true_iff in K. destruct K as [K1 K2]. apply Nat.eqb_eq in K1. apply Z.eqb_eq in K2.
      destruct e, f. cbn in *. subst. exact H.
    - intro H. exists e. split; [exact H|]. unfold ent_eqb. rewrite Nat.eqb_refl, Z.eqb_refl. reflexivity.
  Qed.
  Lemma among_no e l : ~ In e l -> among e l = false.
  Proof. intro H. destruct (among e l) eqn:E; [|reflexivity]. apply among_iff in E. contradiction. Qed.
  Lemma in_or_not (e : ent) l : In e l \/ ~ In e l.
  Proof. destruct (among e l) eqn:E; [left; apply among_iff, E|right; intro K; apply among_iff in K; congruence]. Qed.
  Lemma refused_fragment obj tool g : (forall e, In e (obj ++ tool) -> In e (known g)) -> refused g (Fragment obj tool) = false.
  Proof. intro H. cbn. apply negb_false_iff. apply forallb_forall. intros e He. apply among_iff, H, He. Qed.
  (** an existing rectangle stays in the model until a cut or a fragment takes it *)
  Lemma k_inclusion_run h msh x : above ->
    k_geo_inclusion auto_tag faces pieces (st h [] [] false 1 msh x) = (Ok tt, st h (cmds_inclusion auto_tag) [] false 1 msh x).
  Proof.
    intro HA. unfold k_geo_inclusion. do 3 give. rewrite bind_kauto by nonzero. cbn [app].
    match goal with |- context [auto_tag ?g 2] => pose proof (HA g 2%nat 3%Z (or_introl eq_refl)) as H3; set (t1 := auto_tag g 2) in * end.
    rewrite bind_kocc. 2: { apply (among_no (2%nat, 2%Z)). intro K. cbn in K. destruct K as [K|[K|[]]]; injection K as K; lia. }
    cbn [app]. rewrite bind_sync. rewrite bind_kauto by nonzero. cbn [app].
    rewrite bind_kocc. 2: { apply refused_fragment. intros e He. cbn in He |- *. tauto. }
    unfold cmds_inclusion. cbv zeta. cbn [app]. reflexivity.
  Qed.
  Definition flat_square (x_l x_r y_l y_r eta : R) : Prop :=
    eta = - (3/2) \/ eta = - (23/20) \/ x_r = x_l \/ (eta < 3/2 /\ (eta = y_l \/ y_r = eta)) \/ (3/2 <= eta /\ y_r = y_l).
  Lemma k_square_run a b c d eta h msh x : above -> ~ flat_square a b c d eta ->
    k_geo_inclusion_square auto_tag faces pieces a b c d eta (st h [] [] false 1 msh x) = (Ok tt, st h (cmds_square auto_tag a b c d eta) [] false 1 msh x).
  Proof.
    intros HA HD. unfold flat_square in HD.
    assert (N1 : eta <> - (3/2)) by tauto. assert (N2 : eta <> - (23/20)) by tauto. assert (N3 : b <> a) by tauto.
    unfold k_geo_inclusion_square, cmds_square. do 3 give. destruct (Rlt_dec eta 1.5) as [L|L].
    - assert (L' : eta < 3/2) by (clear -L; decimals; lra). assert (N4 : eta <> c) by tauto. assert (N5 : d <> eta) by tauto. clear HD.
      rewrite bind_assoc, bind_kauto, bind_assoc, bind_kauto, bind_assoc, bind_kauto, bind_assoc, bind_kauto, bind_assoc, bind_sync, bind_assoc by nonzero.
      cbn [app]. rewrite bind_kocc. 2: { apply refused_fragment. intros e He. cbn in He |- *. tauto. }
      rewrite bind_sync, sync_run. cbn [app]. reflexivity.
    - assert (L' : 3/2 <= eta) by (clear -L; decimals; lra). assert (N4 : d <> c) by tauto. clear HD.
      rewrite bind_assoc, bind_kauto, bind_assoc, bind_kauto, bind_assoc, bind_kauto, bind_assoc, bind_sync by nonzero.
      cbn [app]. rewrite bind_kocc. 2: { apply refused_fragment. intros e He. cbn in He |- *. tauto. }
      rewrite sync_run. cbn [app]. reflexivity.
  Qed.
  Lemma k_square_no a b c d eta h msh x : flat_square a b c d eta -> exists g,
    k_geo_inclusion_square auto_tag faces pieces a b c d eta (st h [] [] false 1 msh x) = (Err GmshError, st h g [] false 1 msh x).
  Proof.
    intro HD. unfold flat_square in HD. unfold k_geo_inclusion_square.
    destruct (Req_dec eta (- (3/2))) as [N1|N1].
    { eexists. apply bind_kocc_no. apply refused_flat. right. decimals. lra. }
    give. destruct (Req_dec eta (- (23/20))) as [N2|N2].
    { eexists. apply bind_kocc_no. apply refused_flat. right. decimals. lra. }
    give. give. destruct (Rlt_dec eta 1.5) as [L|L].
    - assert (L' : eta < 3/2) by (clear -L; decimals; lra). rewrite bind_assoc.
      destruct (Req_dec b a) as [N3|N3]; [eexists; apply bind_kauto_no; left; lra|].
      destruct (Req_dec eta c) as [N4|N4]; [eexists; apply bind_kauto_no; right; lra|].
      rewrite bind_kauto by lra. rewrite bind_assoc. destruct (Req_dec d eta) as [N5|N5]; [eexists; apply bind_kauto_no; right; lra|].
      exfalso. destruct HD as [K|[K|[K|[[_ [K|K]]|[K _]]]]]; lra.
    - assert (L' : 3/2 <= eta) by (clear -L; decimals; lra). rewrite bind_assoc.
      destruct (Req_dec b a) as [N3|N3]; [eexists; apply bind_kauto_no; left; lra|].
      destruct (Req_dec d c) as [N4|N4]; [eexists; apply bind_kauto_no; right; lra|].
      exfalso. destruct HD as [K|[K|[K|[[K _]|[_ K]]]]]; lra.
  Qed.
  (** the first fragment of the convex geometry leaves surfaces 3 and 4 and none with tag 6 *)
  Definition first_fragment : list geo := firstn 5 cmds_convex.
  Definition convex_tags : Prop :=
    In (2%nat, 3%Z) (pieces first_fragment) /\ In (2%nat, 4%Z) (pieces first_fragment) /\ ~ In (2%nat, 6%Z) (pieces first_fragment).
  Lemma k_convex_run h msh x : convex_tags ->
    k_geo_convex faces pieces (st h [] [] false 1 msh x) = (Ok tt, st h cmds_convex [] false 1 msh x).
  Proof.
    intros [H3 [H4 H6]]. unfold k_geo_convex. do 5 give.
    rewrite bind_kocc. 2: { apply refused_rect; [nonzero|nonzero|]. apply among_no. exact H6. }
    cbn [app]. rewrite bind_kocc. 2: { apply refused_fragment. intros e He. cbn in He. destruct He as [<-|[<-|[<-|[]]]]; [right; exact H3|right; exact H4|left; reflexivity]. }
    reflexivity.
  Qed.
  Lemma k_convex_no h msh x : ~ convex_tags -> exists g,
    k_geo_convex faces pieces (st h [] [] false 1 msh x) = (Err GmshError, st h g [] false 1 msh x).
  Proof.
    intros HD. unfold k_geo_convex. do 5 give.
    destruct (among (2%nat, 6%Z) (pieces first_fragment)) eqn:E6.
    { eexists. apply bind_kocc_no. cbn [MeshTags.refused]. apply orb_true_intro. right. exact E6. }
    rewrite bind_kocc. 2: { apply refused_rect; [nonzero|nonzero|]. exact E6. }
    cbn [app]. eexists. apply bind_kocc_no. cbn [MeshTags.refused]. apply negb_true_iff.
    destruct (forallb _ _) eqn:EF; [|reflexivity]. exfalso. apply HD. rewrite forallb_forall in EF.
    assert (HK : forall t, (t = 3 \/ t = 4)%Z -> In (2%nat, t) (pieces first_fragment)).
    { intros t Ht. assert (A : among (2%nat, t) ((2%nat, 6%Z) :: pieces first_fragment) = true) by (apply EF; cbn; destruct Ht as [-> | ->]; auto).
      apply among_iff in A. destruct A as [A|A]; [injection A as A; lia|exact A]. }
    split; [apply HK; auto|]. split; [apply HK; auto|]. intro K. apply among_iff in K. congruence.
  Qed.
  (** in three dimensions the second fragment is one of surfaces 3 and 4 *)
  Definition fragment_3d : list geo := firstn 5 cmds_3d.
  Definition solid_tags : Prop := In (2%nat, 3%Z) (pieces fragment_3d) /\ In (2%nat, 4%Z) (pieces fragment_3d).

  (** * First calls *)
  Notation marks_convex_of := (class cmds_convex [0.5; 0.6; 0] [0.5; 0.975; 0] 2 3 1).
  Notation marks_nonconvex_of := (class cmds_nonconvex [0.5; 0.275; 0] [0.5; 0.5; 0] 1 2 3).
  Lemma model_start {B} k (f : unit -> M gstate B) s :
    bind initialize (fun _ => bind model_add (fun _ => bind (set_factor k) f)) s = f tt (st k [] [] false 1 (g_msh s) (g_xdmf s)).
  Proof. unfold bind at 1. unfold initialize. destruct s as [[|] ? ? ? ? ? ? ?]; reflexivity. Qed.
  Lemma bind2 {A B C} (m' m : M gstate A) (f' f : A -> M gstate B) (k' k : B -> M gstate C) s :
    bind m' (fun a => bind (f' a) k') s = bind m (fun a => bind (f a) k) s -> bind (bind m' f') k' s = bind (bind m f) k s.
  Proof. intro H. rewrite !bind_assoc. exact H. Qed.
  Ltac both k p := eapply bind_same2; [apply k|apply p|].

  (** gmsh accepts everything [get_mesh_data_all_around] gives it, and everything
      [get_mesh_inclusion] gives it, in whatever state gmsh is found *)
  Theorem C95_accepted : forall rank remote v07 n h s,
    (g_open s = false -> k_around v07 rank remote n h s = around v07 rank remote n h s) /\
    (above -> forall order, k_incl rank h order s = incl rank h order s).
  Proof.
    intros rank remote v07 n h s. split.
    - intro HO. unfold k_get_mesh_data_all_around, get_mesh_data_all_around. rewrite !(bind_init _ s HO), !bind_factor. destruct rank as [|r]; [|reflexivity].
      cbn [Nat.eqb]. apply bind2. both k_around_run geo_around_run. apply bind2.
      both (k_number_run _ h cmds_around false 1%nat (g_msh s) (g_xdmf s) (fun m => free_nil 2 m)) number_surfaces_run. cbn [app]. apply bind2.
      eapply bind_same2; [apply k_outline_run, numbered_line|apply boundary_group_run|]. reflexivity.
    - intros HA order. unfold k_get_mesh_inclusion, get_mesh_inclusion. rewrite !model_start. destruct rank as [|r]; [|reflexivity].
      cbn [Nat.eqb]. apply bind2. eapply bind_same2; [apply k_inclusion_run, HA|apply geo_inclusion_run|]. apply bind2.
      both (k_number_run _ h (cmds_inclusion auto_tag) false 1%nat (g_msh s) (g_xdmf s) (fun m => free_nil 2 m)) number_surfaces_run. cbn [app]. apply bind2.
      eapply bind_same2; [apply k_outline_run, numbered_line|apply boundary_group_run|]. reflexivity.
  Qed.

  (** the geometry with two marked surfaces: accepted exactly when no two surfaces fall
      into the same class (and, for the convex one, when gmsh numbers the pieces so) *)
  Theorem C95_classes : forall remote v07 n h s, g_open s = false ->
    (NoDup (map marks_nonconvex_of (entities cmds_nonconvex 2)) ->
       k_nonconv v07 0%nat remote n h s = nonconv v07 0%nat remote n h s) /\
    (~ NoDup (map marks_nonconvex_of (entities cmds_nonconvex 2)) ->
       exists s', k_nonconv v07 0%nat remote n h s = (Err GmshError, s') /\ g_open s' = true) /\
    (convex_tags -> NoDup (map marks_convex_of (entities cmds_convex 2)) ->
       k_conv v07 0%nat remote n h s = conv v07 0%nat remote n h s /\ k_initial 0%nat remote h s = initial 0%nat remote h s) /\
    (~ convex_tags \/ ~ NoDup (map marks_convex_of (entities cmds_convex 2)) ->
       (exists s', k_conv v07 0%nat remote n h s = (Err GmshError, s') /\ g_open s' = true) /\
       (exists s', k_initial 0%nat remote h s = (Err GmshError, s') /\ g_open s' = true)).
  Proof.
    intros remote v07 n h s HO. split; [|split; [|split]].
    - intro HN. unfold k_get_mesh_hierarchy_nonconvex, get_mesh_hierarchy_nonconvex. rewrite !(bind_init _ s HO), !bind_factor. cbn [Nat.eqb].
      apply bind2. both k_nonconvex_run geo_nonconvex_run. apply bind2.
      eapply bind_same2; [apply k_mark_run; [intro; apply free_nil|exact HN]|apply mark_surfaces_run|]. cbn [app]. apply bind2.
      eapply bind_same2; [apply k_outline_run, centred_line|apply boundary_group_run|]. reflexivity.
    - intro HN. unfold k_get_mesh_hierarchy_nonconvex. rewrite !(bind_init _ s HO), !bind_factor. cbn [Nat.eqb].
      rewrite bind_assoc. erewrite bind_ok by apply k_nonconvex_run. rewrite bind_assoc.
      edestruct k_mark_no as [gs' E]; [left; exact HN|]. erewrite bind_fail by exact E. eexists. split; reflexivity.
    - intros HC HN. split; [unfold k_get_mesh_hierarchy, get_mesh_hierarchy|unfold k_create_initial_mesh_convex, create_initial_mesh_convex];
        rewrite !(bind_init _ s HO), !bind_factor; cbn [Nat.eqb]; apply bind2; (eapply bind_same2; [apply k_convex_run, HC|apply geo_convex_run|]);
        unfold k_marks_convex, marks_convex; [|rewrite !bind_assoc]; rewrite ?bind_assoc;
        (eapply bind_same2; [apply k_mark_run; [intro; apply free_nil|exact HN]|apply mark_surfaces_run|]); cbn [app]; rewrite ?bind_assoc;
        (eapply bind_same2; [apply k_outline_run, centred_line|apply boundary_group_run|]); reflexivity.
    - intro HN. assert (HC : convex_tags \/ ~ convex_tags).
      { unfold convex_tags. pose proof (fun t => in_or_not (2%nat, t) (pieces first_fragment)) as D. destruct (D 3%Z), (D 4%Z), (D 6%Z); tauto. }
      split; [unfold k_get_mesh_hierarchy|unfold k_create_initial_mesh_convex]; rewrite !(bind_init _ s HO), !bind_factor; cbn [Nat.eqb]; rewrite bind_assoc;
        (destruct HC as [HC|HC]; [|destruct (k_convex_no h (g_msh s) (g_xdmf s) HC) as [g E]; erewrite bind_fail by exact E; eexists; split; reflexivity]);
        (destruct HN as [HN|HN]; [contradiction|]); erewrite bind_ok by apply k_convex_run, HC; unfold k_marks_convex; rewrite ?bind_assoc;
        (edestruct k_mark_no as [gs' E]; [left; exact HN|]; erewrite bind_fail by exact E; eexists; split; reflexivity).
  Qed.

  (** the geometries with parameters: refused exactly for the values listed *)
  Theorem C95_parameters : forall remote v07 n h s eta,
    (g_open s = false ->
      (eta <> 0 -> eta <> 1/4 -> eta <> 6/5 -> eta <> 5/4 -> k_disc v07 0%nat remote n eta h s = disc v07 0%nat remote n eta h s) /\
      (eta = 0 \/ eta = 1/4 \/ eta = 6/5 \/ eta = 5/4 -> exists s', k_disc v07 0%nat remote n eta h s = (Err GmshError, s') /\ g_open s' = true)) /\
    (eta <> 1/4 -> eta <> 9/10 -> eta <> 1 -> k_bottom 0%nat h eta s = bottom 0%nat h eta s) /\
    (eta = 1/4 \/ eta = 9/10 \/ eta = 1 -> exists s', k_bottom 0%nat h eta s = (Err GmshError, s') /\ g_open s' = true) /\
    (forall a b c d, (above -> ~ flat_square a b c d eta -> k_square 0%nat h a b c d eta s = square 0%nat h a b c d eta s) /\
      (flat_square a b c d eta -> exists s', k_square 0%nat h a b c d eta s = (Err GmshError, s') /\ g_open s' = true)).
  Proof.
    intros remote v07 n h s eta. split; [|split; [|split]].
    - intro HO. unfold k_get_mesh_hierarchy_fitted_disc, get_mesh_hierarchy_fitted_disc. rewrite !(bind_init _ s HO), !bind_factor. cbn [Nat.eqb]. split.
      + intros. apply bind2. eapply bind_same2; [apply k_disc_run; assumption|apply geo_disc_run|]. apply bind2.
        eapply bind_same2; [apply k_number_run; intro; apply free_nil|apply number_surfaces_run|]. cbn [app]. apply bind2.
        eapply bind_same2; [apply k_outline_run, numbered_line|apply boundary_group_run|]. reflexivity.
      + intro H. rewrite bind_assoc. unfold k_geo_fitted_disc. cbv zeta. rewrite bind_assoc.
        destruct (Req_dec eta 0) as [N|N]; [erewrite bind_kocc_no by (apply refused_flat; right; lra); eexists; split; reflexivity|].
        give. rewrite bind_assoc.
        destruct (Req_dec eta (1/4)) as [N1|N1]; [erewrite bind_kocc_no by (apply refused_flat; right; decimals; lra); eexists; split; reflexivity|].
        give. rewrite bind_assoc. give. rewrite bind_assoc. give. rewrite bind_assoc.
        destruct (Req_dec eta (6/5)) as [N2|N2]; [erewrite bind_kocc_no by (apply refused_flat; right; decimals; lra); eexists; split; reflexivity|].
        give. rewrite bind_assoc.
        destruct (Req_dec eta (5/4)) as [N3|N3]; [erewrite bind_kocc_no by (apply refused_flat; right; decimals; lra); eexists; split; reflexivity|]. tauto.
    - intros. unfold k_get_mesh_bottom_data, get_mesh_bottom_data. rewrite !model_start. cbn [Nat.eqb].
      apply bind2. eapply bind_same2; [apply k_bottom_run; assumption|apply geo_bottom_run|]. apply bind2.
      eapply bind_same2; [apply k_number_run; intro; apply free_nil|apply number_surfaces_run|]. reflexivity.
    - intro H. unfold k_get_mesh_bottom_data. rewrite !model_start. cbn [Nat.eqb]. rewrite bind_assoc. unfold k_geo_bottom. rewrite bind_assoc. give. rewrite bind_assoc.
      destruct (Req_dec eta (1/4)) as [N|N]; [erewrite bind_kocc_no by (apply refused_flat; right; decimals; lra); eexists; split; reflexivity|].
      do 3 (give; rewrite bind_assoc).
      destruct (Req_dec eta (9/10)) as [N1|N1]; [erewrite bind_kocc_no by (apply refused_flat; right; decimals; lra); eexists; split; reflexivity|].
      give. rewrite bind_assoc.
      destruct (Req_dec eta 1) as [N2|N2]; [erewrite bind_kocc_no by (apply refused_flat; right; lra); eexists; split; reflexivity|]. tauto.
    - intros a b c d. unfold k_get_mesh_inclusion_square, get_mesh_inclusion_square. rewrite !model_start. cbn [Nat.eqb]. split.
      + intros HA HF. apply bind2. eapply bind_same2; [apply k_square_run; assumption|apply geo_square_run|]. apply bind2.
        eapply bind_same2; [apply k_number_run; intro; apply free_nil|apply number_surfaces_run|]. cbn [app]. apply bind2.
        eapply bind_same2; [apply k_outline_run, numbered_line|apply boundary_group_run|]. reflexivity.
      + intro HF. rewrite bind_assoc. destruct (k_square_no a b c d eta h (g_msh s) (g_xdmf s) HF) as [g E]. erewrite bind_fail by exact E.
        eexists. split; reflexivity.
  Qed.
  (** get_mesh_inclusion_square() with its default arguments is always refused: y_r = eta
      makes the rectangle above the line y = eta flat *)
  Theorem C95_defaults_refuted : forall s, exists s', k_square 0%nat 1.25 (-1.25) 1.25 (-1.25) 1.25 1.25 s = (Err GmshError, s') /\ g_open s' = true.
  Proof.
    intro s. apply (proj2 (proj2 (proj2 (proj2 (C95_parameters None false 0%nat 1.25 s 1.25))) (-1.25) 1.25 (-1.25) 1.25)).
    unfold flat_square. right. right. right. left. split; [decimals; lra|right; reflexivity].
  Qed.
  (** the default eta of the other functions with that parameter is accepted *)
  Theorem C95_bottom_default : forall h s, k_bottom 0%nat h 0.6 s = bottom 0%nat h 0.6 s.
  Proof. intros h s. apply (C95_parameters None false 0%nat h s 0.6); decimals; lra. Qed.
  (** the functions that add a new model do the same in an open and in a closed session *)
  Theorem C95_new_model : forall rank h s, let s0 := mkG false 1 [] [] false 1 (g_msh s) (g_xdmf s) in
    (forall order, k_incl rank h order s = k_incl rank h order s0) /\
    (forall a b c d eta, k_square rank h a b c d eta s = k_square rank h a b c d eta s0) /\
    (forall eta, k_bottom rank h eta s = k_bottom rank h eta s0).
  Proof.
    intros rank h s s0. split; [|split]; intros; [unfold k_get_mesh_inclusion|unfold k_get_mesh_inclusion_square|unfold k_get_mesh_bottom_data];
      rewrite !model_start; reflexivity.
  Qed.

  (** * Sessions left open *)
  (** gmsh open, and a physical group 1 of dimension d in the current model *)
  Definition stuck (d : nat) (s : gstate) : Prop := g_open s = true /\ marked d 1 (g_groups s) = true.
  Definition keeps (d : nat) {A} (m : M gstate A) : Prop := forall s, stuck d s ->
    stuck d (snd (m s)) /\ (fst (m s) = Err GmshError \/ exists a, fst (m s) = Ok a).
  Definition fails (d : nat) {A} (m : M gstate A) : Prop := forall s, stuck d s -> exists s', m s = (Err GmshError, s') /\ stuck d s'.
  Lemma fails_first d {A B} (m : M gstate A) (f : A -> M gstate B) : fails d m -> fails d (bind m f).
  Proof. intros H s Hs. destruct (H s Hs) as [s' [E K]]. exists s'. split; [apply bind_fail, E|exact K]. Qed.
  Lemma fails_then d {A B} (m : M gstate A) (f : A -> M gstate B) : keeps d m -> (forall a, fails d (f a)) -> fails d (bind m f).
  Proof.
    intros H K s Hs. destruct (H s Hs) as [S R]. unfold bind. destruct (m s) as [r s1]. cbn [fst snd] in *. destruct R as [-> |[a ->]].
    - exists s1. split; [reflexivity|exact S].
    - exact (K a s1 S).
  Qed.
  Lemma keeps_bind d {A B} (m : M gstate A) (f : A -> M gstate B) : keeps d m -> (forall a, keeps d (f a)) -> keeps d (bind m f).
  Proof.
    intros H K s Hs. destruct (H s Hs) as [S R]. unfold bind. destruct (m s) as [r s1]. cbn [fst snd] in *. destruct R as [-> |[a ->]].
    - split; [exact S|left; reflexivity].
    - exact (K a s1 S).
  Qed.
  Lemma keeps_each d {A} (f : A -> M gstate unit) (l : list A) : (forall a, keeps d (f a)) -> keeps d (for_each l f).
  Proof.
    intro H. induction l as [|a l IH]; cbn [for_each]; [intros s Hs; split; [exact Hs|right; eexists; reflexivity]|].
    apply keeps_bind; [apply H|intro; apply IH].
  Qed.
  Lemma keeps_state d {A} (a : gstate -> A) : keeps d (in_session (do s <- get; ret (a s))).
  Proof. intros s Hs. unfold in_session. rewrite (proj1 Hs). split; [exact Hs|right; eexists; reflexivity]. Qed.
  Lemma keeps_init d : keeps d initialize.
  Proof. intros s Hs. unfold initialize. rewrite (proj1 Hs). split; [exact Hs|right; eexists; reflexivity]. Qed.
  Lemma keeps_ret d {A} (a : A) : keeps d (ret a).
  Proof. intros s Hs. split; [exact Hs|right; eexists; reflexivity]. Qed.
  Lemma keeps_get d : keeps d get.
  Proof. intros s Hs. split; [exact Hs|right; eexists; reflexivity]. Qed.
  Lemma keeps_factor d h : keeps d (set_factor h).
  Proof. intros s Hs. unfold set_factor, in_session. rewrite (proj1 Hs). split; [split; [exact (proj1 Hs)|exact (proj2 Hs)]|right; eexists; reflexivity]. Qed.
  Lemma keeps_sync d : keeps d synchronize.
  Proof. intros s Hs. unfold synchronize, in_session. rewrite (proj1 Hs). split; [exact Hs|right; eexists; reflexivity]. Qed.
  Lemma keeps_generate d : keeps d generate.
  Proof. intros s Hs. unfold generate, in_session. rewrite (proj1 Hs). split; [split; [exact (proj1 Hs)|exact (proj2 Hs)]|right; eexists; reflexivity]. Qed.
  Lemma keeps_kocc d c : keeps d (kocc c).
  Proof.
    intros s Hs. unfold k_occ, occ, in_session, modify. rewrite (proj1 Hs). destruct (MeshTags.refused _ _ _ _); [split; [exact Hs|left; reflexivity]|].
    split; [split; [first [exact (proj1 Hs)|reflexivity]|exact (proj2 Hs)]|right; eexists; reflexivity].
  Qed.
  Lemma keeps_group d gr : keeps d (k_add_group gr).
  Proof.
    intros s Hs. unfold k_add_group, add_group, in_session, modify. rewrite (proj1 Hs).
    assert (S' : stuck d (mkG true (g_factor s) (g_geo s) (g_groups s ++ [gr]) (g_meshed s) (g_order s) (g_msh s) (g_xdmf s))).
    { split; [reflexivity|]. cbn [g_groups]. rewrite marked_app, (proj2 Hs). reflexivity. }
    destruct (gr_marker gr); [destruct (marked _ _ _); [split; [exact Hs|left; reflexivity]|]|]; (split; [exact S'|right; eexists; reflexivity]).
  Qed.
  Lemma keeps_number d : keeps d k_number.
  Proof.
    rewrite k_number_eq. apply keeps_bind; [apply keeps_state|]. intro l. generalize 1%Z. induction l as [|e l IH]; intro its; cbn [k_number_from]; [apply keeps_ret|].
    apply keeps_bind; [apply keeps_state|intros _]. apply keeps_bind; [apply keeps_group|intros _]. apply IH.
  Qed.
  Lemma keeps_mark d c1 c2 m1 m2 m3 : keeps d (k_mark c1 c2 m1 m2 m3).
  Proof.
    apply keeps_bind; [apply keeps_state|intro]. apply keeps_each. intro e. apply keeps_bind; [apply keeps_state|intro c].
    destruct (allclose c c1); [apply keeps_group|]. destruct (allclose c c2); apply keeps_group.
  Qed.
  Lemma fails_outline : fails 1 k_outline.
  Proof. intros [op h g gs me o msh x] [HO HM]. cbn in HO, HM. subst. eexists. split; [apply k_outline_no, HM|]. split; [reflexivity|exact HM]. Qed.
  Lemma fails_number : (forall g, entities g 2 <> []) -> fails 2 k_number.
  Proof. intros HE [op h g gs me o msh x] [HO HM]. cbn in HO, HM. subst. eexists. split; [apply k_number_no; [exact HM|apply HE]|]. split; [reflexivity|exact HM]. Qed.
  Ltac keep := repeat (first [apply keeps_kocc | apply keeps_group | apply keeps_number | apply keeps_mark | apply keeps_init | apply keeps_factor
    | apply keeps_sync | apply keeps_generate | apply keeps_get | apply keeps_ret | apply keeps_each; intro | apply keeps_bind; [|intro]]).
  Ltac fail_at l := repeat (first [solve [apply l] | apply fails_first; solve [apply l] | apply fails_then; [solve [keep]|intro] | apply fails_first]).
  (** with a boundary group in an open session every function that needs one fails, and
      the session stays as it is: so do all later calls *)
  Theorem C95_stuck : forall remote v07 n h eta,
    fails 1 (k_initial 0%nat remote h) /\ fails 1 (k_conv v07 0%nat remote n h) /\ fails 1 (k_nonconv v07 0%nat remote n h) /\
    fails 1 (k_disc v07 0%nat remote n eta h) /\ fails 1 (k_around v07 0%nat remote n h).
  Proof.
    intros. refine (conj _ (conj _ (conj _ (conj _ _)))).
    - unfold k_create_initial_mesh_convex, k_geo_convex, k_marks_convex. cbn [Nat.eqb]. fail_at fails_outline.
    - unfold k_get_mesh_hierarchy, k_geo_convex, k_marks_convex. cbn [Nat.eqb]. fail_at fails_outline.
    - unfold k_get_mesh_hierarchy_nonconvex, k_geo_nonconvex. cbn [Nat.eqb]. fail_at fails_outline.
    - unfold k_get_mesh_hierarchy_fitted_disc, k_geo_fitted_disc. cbv zeta. cbn [Nat.eqb]. fail_at fails_outline.
    - unfold k_get_mesh_data_all_around, k_geo_all_around. cbn [Nat.eqb]. fail_at fails_outline.
  Qed.
  (** the same for a surface group, as the three-dimensional function leaves it *)
  Theorem C95_stuck_surfaces : (forall g, entities g 2 <> []) -> forall remote v07 n h eta,
    fails 2 (k_three n h) /\ fails 2 (k_disc v07 0%nat remote n eta h) /\ fails 2 (k_around v07 0%nat remote n h).
  Proof.
    intros HE remote v07 n h eta. pose proof (fails_number HE) as FN. refine (conj _ (conj _ _)).
    - unfold k_get_3d_mesh_data_all_around. cbv zeta. fail_at FN.
    - unfold k_get_mesh_hierarchy_fitted_disc, k_geo_fitted_disc. cbv zeta. cbn [Nat.eqb]. fail_at FN.
    - unfold k_get_mesh_data_all_around, k_geo_all_around. cbn [Nat.eqb]. fail_at FN.
  Qed.

  (** the three-dimensional function in a closed session: accepted exactly when surfaces 3
      and 4, of which it takes the second fragment, exist after the first one *)
  Lemma refused_box a b c d e f t g : d <> 0 -> e <> 0 -> f <> 0 -> among (3%nat, t) (known g) = false -> refused g (Box a b c d e f t) = false.
  Proof. intros H K L M. cbn. rewrite (zero_no d H), (zero_no e K), (zero_no f L), M. reflexivity. Qed.
  Lemma no_volume l t : among (3%nat, t) (map (fun f : Z => (2%nat, f)) l) = false.
  Proof. apply among_no. intro K. apply in_map_iff in K. destruct K as [f [K _]]. discriminate K. Qed.
  Lemma among_app e a b : among e (a ++ b) = among e a || among e b.
  Proof. unfold among. apply existsb_app. Qed.
  Lemma solids_run {B} (k : unit -> M gstate B) h msh x :
    (kocc (Box 0 0 0 1 1 1 1) ;; kocc (Box 0.2 0.2 0.2 0.6 0.6 0.6 2) ;; kocc (Cut [(3%nat, 1%Z)] [(3%nat, 2%Z)] 3) ;;
     kocc (Box 0.2 0.2 0.2 0.6 0.6 0.6 4) ;; bind (kocc (Fragment [(3%nat, 3%Z)] [(3%nat, 4%Z)])) k) (st h [] [] false 1 msh x) =
    k tt (st h fragment_3d [] false 1 msh x).
  Proof.
    rewrite bind_kocc by (apply refused_box; [nonzero|nonzero|nonzero|reflexivity]). cbn [app].
    rewrite bind_kocc.
    2: { apply refused_box; [nonzero|nonzero|nonzero|]. unfold MeshTags.known. cbn [known_from after]. rewrite app_nil_r.
         apply among_no. intros [K|K]; [discriminate K|]. apply in_map_iff in K. destruct K as [f [K _]]. discriminate K. }
    cbn [app]. rewrite bind_kocc.
    2: { cbn [MeshTags.refused]. unfold MeshTags.known. cbn [known_from after app]. rewrite !app_nil_r.
         match goal with |- among _ ?l || negb (forallb _ _) = false => assert (E3 : among (3%nat, 3%Z) l = false) end.
         { apply among_no. intro K. cbn [In] in K. rewrite in_app_iff in K. cbn [In] in K.
           destruct K as [K|[K|[K|K]]]; try discriminate K; apply in_map_iff in K; destruct K as [f [K _]]; discriminate K. }
         rewrite E3. cbn [orb]. apply negb_false_iff. apply forallb_forall. intros e He. apply among_iff. cbn [In]. rewrite in_app_iff. cbn [In].
         cbn in He. destruct He as [<-|[<-|[]]]; tauto. }
    cbn [app].
    rewrite bind_kocc.
    2: { apply refused_box; [nonzero|nonzero|nonzero|]. unfold MeshTags.known. cbn [known_from after app Nat.eqb]. rewrite !app_nil_r.
         apply among_no. intro K. cbn [In] in K. rewrite in_app_iff in K. destruct K as [K|[K|K]]; [discriminate K| |].
         - apply in_map_iff in K. destruct K as [f [K _]]. discriminate K.
         - apply filter_In in K. destruct K as [K _]. apply filter_In in K. destruct K as [K _]. cbn [In] in K. rewrite in_app_iff in K. cbn [In] in K.
           destruct K as [K|[K|[K|K]]]; try discriminate K; apply in_map_iff in K; destruct K as [f [K _]]; discriminate K. }
    cbn [app].
    rewrite bind_kocc. 2: { apply refused_fragment. intros e He. cbn in He. destruct He as [<-|[<-|[]]]; unfold MeshTags.known; cbn [known_from after app Nat.eqb In].
         - right. rewrite in_app_iff. right. left. reflexivity.
         - left. reflexivity. }
    reflexivity.
  Qed.
  Theorem C95_solid : forall n h s, g_open s = false ->
    (solid_tags -> k_three n h s = three n h s) /\
    (~ solid_tags -> exists s', k_three n h s = (Err GmshError, s') /\ g_open s' = true).
  Proof.
    intros n h s HO. unfold k_get_3d_mesh_data_all_around, get_3d_mesh_data_all_around. rewrite !(bind_init _ s HO), !bind_factor. rewrite solids_run. split.
    - intros [H3 H4]. rewrite !bind_occ. rewrite bind_kocc.
      2: { apply refused_fragment. intros e He. cbn in He. destruct He as [<-|[<-|[]]]; [exact H3|exact H4]. }
      cbn [app]. cbv zeta. rewrite !bind_get, !bind_sync. cbn [g_geo].
      assert (G : forall (ov : list ent) gs g, (forall m, free 2 m gs) -> exists gs', (forall m, free 2 m gs') /\
        for_each ov (fun e => k_add_group (mkGroup 3 [snd e] None)) (st h g gs false 1 (g_msh s) (g_xdmf s)) = (Ok tt, st h g gs' false 1 (g_msh s) (g_xdmf s)) /\
        for_each ov (fun e => add_group (mkGroup 3 [snd e] None)) (st h g gs false 1 (g_msh s) (g_xdmf s)) = (Ok tt, st h g gs' false 1 (g_msh s) (g_xdmf s))).
      { induction ov as [|e ov IH]; intros gs g HF; cbn [for_each]; [exists gs; repeat split; exact HF|].
        destruct (IH (gs ++ [mkGroup 3 [snd e] None]) g) as [gs' [F [E1 E2]]].
        { intro m. apply free_app; [apply HF|]. intros k [<-|[]] K. discriminate K. }
        exists gs'. split; [exact F|]. split; [erewrite bind_ok by reflexivity; exact E1|erewrite bind_ok by reflexivity; exact E2]. }
      destruct (G (fragments cmds_3d) [] cmds_3d (free_nil 2)) as [gs' [F [E1 E2]]].
      eapply bind_same2; [exact E1|exact E2|]. eapply bind_same2; [apply k_number_run, F|apply number_surfaces_run|]. reflexivity.
    - intro HN. eexists. rewrite bind_kocc_no; [split; reflexivity|]. cbn [MeshTags.refused]. apply negb_true_iff.
      destruct (forallb _ _) eqn:EF; [|reflexivity]. exfalso. apply HN. rewrite forallb_forall in EF.
      split; apply among_iff, EF; cbn; auto.
  Qed.
  (** After the three-dimensional function has returned, every further call of it, and of the
      two functions that number the surfaces, fails: the group 1 is still there. *)
  Theorem C95_again_refuted : (forall g, entities g 2 <> []) -> forall n h s l s1, g_open s = false -> k_three n h s = (Ok l, s1) ->
    stuck 2 s1 /\
    (forall n' h', exists s', k_three n' h' s1 = (Err GmshError, s') /\ stuck 2 s') /\
    (forall remote v07 n' h', exists s', k_around v07 0%nat remote n' h' s1 = (Err GmshError, s') /\ stuck 2 s').
  Proof.
    intros HE n h s l s1 HO E.
    assert (S1 : stuck 2 s1).
    { unfold k_get_3d_mesh_data_all_around in E. rewrite (bind_init _ s HO), bind_factor, solids_run in E.
      revert E. generalize (st h fragment_3d [] false 1 (g_msh s) (g_xdmf s)). intros a E.
      apply bind_inv in E. destruct E as [[] [a1 [_ E]]]. cbv zeta in E. rewrite bind_get in E. apply bind_inv in E. destruct E as [[] [a2 [_ E]]].
      apply bind_inv in E. destruct E as [[] [a3 [_ E]]]. apply bind_inv in E. destruct E as [[] [a4 [E4 E]]].
      assert (S4 : stuck 2 a4).
      { rewrite k_number_eq in E4. apply bind_inv in E4. destruct E4 as [es [a5 [E5 E4]]].
        unfold get_entities, in_session in E5. destruct (g_open a3) eqn:EO; [|discriminate E5]. injection E5 as <- <-.
        destruct (entities (g_geo a3) 2) as [|t ts] eqn:EE; [exfalso; exact (HE _ EE)|]. cbn [map k_number_from] in E4.
        apply bind_inv in E4. destruct E4 as [c [a6 [E6 E4]]]. unfold center_of_mass, in_session in E6. rewrite EO in E6. injection E6 as _ <-.
        apply bind_inv in E4. destruct E4 as [[] [a7 [E7 E4]]].
        assert (S7 : stuck 2 a7).
        { unfold k_add_group, add_group, in_session, modify in E7. rewrite EO in E7. cbn [gr_marker gr_dim] in E7.
          destruct (marked 2 1 (g_groups a3)); [discriminate E7|]. injection E7 as <-. split; [reflexivity|]. cbn [g_groups]. rewrite marked_app. apply orb_true_intro. right. reflexivity. }
        assert (K : keeps 2 (k_number_from (1 + 1) (map (fun t => (2%nat, t)) ts))).
        { generalize (1 + 1)%Z. clear. induction ts as [|t ts IH]; intro its; cbn [map k_number_from]; [apply keeps_ret|].
          apply keeps_bind; [apply keeps_state|intros _]. apply keeps_bind; [apply keeps_group|intros _]. apply IH. }
        destruct (K a7 S7) as [K' _]. rewrite E4 in K'. exact K'. }
      apply bind_inv in E. destruct E as [[] [a8 [E8 E]]]. rewrite bind_get in E. injection E as _ <-.
      destruct (keeps_generate 2 a4 S4) as [K _]. rewrite E8 in K. exact K. }
    split; [exact S1|]. split.
    - intros n' h'. exact (proj1 (C95_stuck_surfaces HE None false n' h' 0) s1 S1).
    - intros remote v07 n' h'. exact (proj2 (proj2 (C95_stuck_surfaces HE remote v07 n' h' 0)) s1 S1).
  Qed.
  (** gmsh numbers the nodes 1 .. n: [get_mesh_inclusion] fails its own check, leaves gmsh
      open with a boundary group, and from then on the hierarchies cannot be made *)
  Theorem C95_after_inclusion_refuted : above ->
    (forall s1, g_open s1 = true -> exists l, nodes s1 = (tags l, flat l) /\ sequential (tags l)) ->
    forall h order s, exists s1, k_incl 0%nat h order s = (Err RuntimeError, s1) /\ stuck 1 s1 /\
      forall remote v07 n h' k,
        fst (k_conv v07 0%nat remote n h' (Nat.iter k (fun s => snd (k_conv v07 0%nat remote n h' s)) s1)) = Err GmshError /\
        fst (k_around v07 0%nat remote n h' (Nat.iter k (fun s => snd (k_around v07 0%nat remote n h' s)) s1)) = Err GmshError.
  Proof.
    intros HA HN h order s. rewrite (proj1 (C95_new_model 0%nat h s) order). cbv zeta.
    rewrite (proj2 (C95_accepted 0%nat None false 0%nat h _) HA order). rewrite run_inclusion by reflexivity.
    match goal with |- context [finish _ _ _ _ _ _ ?a] => assert (K : g_open a = true) by apply asked_open; destruct (HN a K) as [l [E HS]]; exists a;
        rewrite (finish_bad _ _ _ _ _ _ a l E HS); split; [reflexivity|]; assert (S1 : stuck 1 a) end.
    { split; [exact K|]. unfold asked. cbn [Nat.eqb g_groups]. unfold groups_plain. rewrite marked_app. apply orb_true_intro. right. reflexivity. }
    split; [exact S1|]. intros remote v07 n h' k.
    assert (G : forall (f : M gstate (list mesh)) s1, fails 1 f -> stuck 1 s1 -> fst (f (Nat.iter k (fun s => snd (f s)) s1)) = Err GmshError).
    { intros f s1 HF HS1. assert (S2 : stuck 1 (Nat.iter k (fun s => snd (f s)) s1)).
      { induction k as [|k IH]; [exact HS1|]. cbn [Nat.iter nat_rect] in *. destruct (HF _ IH) as [s' [E' S']]. unfold Nat.iter in *. rewrite E'. exact S'. }
      destruct (HF _ S2) as [s' [E' _]]. rewrite E'. reflexivity. }
    split; apply G; try exact S1; apply (C95_stuck remote v07 n h' 0).
  Qed.
End Tags.

(** * What exists after a command *)
Lemma known_snoc faces pieces l c : known faces pieces (l ++ [c]) = after faces pieces l (known faces pieces l) c.
Proof.
  unfold known. assert (G : forall l pre b, known_from faces pieces pre b (l ++ [c]) = after faces pieces (pre ++ l) (known_from faces pieces pre b l) c).
  { clear l. induction l as [|a l IH]; intros pre b; cbn [known_from app]; [rewrite app_nil_r; reflexivity|]. rewrite IH, <- app_assoc. reflexivity. }
  apply (G l [] []).
Qed.
(** boxes and rectangles add to what exists, a cut replaces its arguments and leaves everything else
    of the same dimension, a fragment starts anew *)
Theorem C95_entities : forall faces pieces l,
  let K := known faces pieces in
  (forall x y z dx dy t e, In e (K (l ++ [Rect x y z dx dy t])) <-> e = (2%nat, t) \/ In e (K l)) /\
  (forall x y z rx ry t e, In e (K (l ++ [Disk x y z rx ry t])) <-> e = (2%nat, t) \/ In e (K l)) /\
  (forall x y z dx dy dz t e, In e (K (l ++ [Box x y z dx dy dz t])) <->
     e = (3%nat, t) \/ (exists f, In f (faces (l ++ [Box x y z dx dy dz t])) /\ e = (2%nat, f)) \/ In e (K l)) /\
  (forall o obj tool t e, In e (K (l ++ [Cut ((2%nat, o) :: obj) tool t])) <->
     e = (2%nat, t) \/ (In e (K l) /\ ~ In e ((2%nat, o) :: obj ++ tool))) /\
  (forall o obj tool t t', In (3%nat, t') (K (l ++ [Cut ((3%nat, o) :: obj) tool t])) <->
     t' = t \/ (In (3%nat, t') (K l) /\ ~ In (3%nat, t') ((3%nat, o) :: obj ++ tool))) /\
  (forall o obj tool t f, In (2%nat, f) (K (l ++ [Cut ((3%nat, o) :: obj) tool t])) <-> In f (faces (l ++ [Cut ((3%nat, o) :: obj) tool t]))) /\
  (forall obj tool, K (l ++ [Fragment obj tool]) = pieces (l ++ [Fragment obj tool])).
Proof.
  intros faces pieces l K. unfold K.
  assert (Q : forall e L, negb (among e L) = true <-> ~ In e L).
  { intros e L. rewrite negb_true_iff. split; intro H; [intro A; apply among_iff in A; congruence|apply among_no, H]. }
  split; [|split; [|split; [|split; [|split; [|split]]]]]; intros; rewrite known_snoc; cbn [after In Nat.eqb].
  - split; intros [H|H]; auto.
  - split; intros [H|H]; auto.
  - rewrite in_app_iff, in_map_iff. split.
    + intros [H|[[f [H1 H2]]|H]]; [left; auto|right; left; exists f; auto|right; right; exact H].
    + intros [H|[[f [H1 H2]]|H]]; [left; auto|right; left; exists f; auto|right; right; exact H].
  - rewrite filter_In, Q. cbn [app In]. split; intros [H|H]; auto.
  - rewrite in_app_iff, in_map_iff, !filter_In, Q. cbn [fst Nat.eqb negb app In]. split.
    + intros [H|[[f [H _]]|[[H1 H2] _]]]; [left; congruence|discriminate H|right; split; assumption].
    + intros [H|[H1 H2]]; [left; congruence|right; right; split; [split; assumption|reflexivity]].
  - rewrite in_app_iff, in_map_iff, !filter_In. cbn [fst Nat.eqb negb]. split.
    + intros [H|[[f' [H H']]|[_ H]]]; [discriminate H|injection H as ->; exact H'|discriminate H].
    + intro H. right. left. exists f. split; [reflexivity|exact H].
  - reflexivity.
Qed.

(** which commands are refused, for every list of commands before: a side of length zero, a tag in
    use in the dimension of the result, an operand that does not exist.  A refused command
    raises and leaves gmsh as it was; any other is recorded. *)
Theorem C95_refused : forall faces pieces c s, g_open s = true ->
  let K := known faces pieces (g_geo s) in
  let bad := match c with
    | Rect _ _ _ dx dy t => dx = 0 \/ dy = 0 \/ In (2%nat, t) K
    | Disk _ _ _ _ _ t => In (2%nat, t) K
    | Box _ _ _ dx dy dz t => dx = 0 \/ dy = 0 \/ dz = 0 \/ In (3%nat, t) K
    | Cut obj tool t => In (fst (hd (2%nat, 0%Z) obj), t) K \/ exists e, In e (obj ++ tool) /\ ~ In e K
    | Fragment obj tool => exists e, In e (obj ++ tool) /\ ~ In e K
    end in
  (bad -> k_occ faces pieces c s = (Err GmshError, s)) /\
  (~ bad -> exists s', k_occ faces pieces c s = (Ok tt, s') /\ g_geo s' = g_geo s ++ [c] /\ g_open s' = true).
Proof.
  intros faces pieces c s O K bad.
  assert (Z0 : forall x, zero x = true <-> x = 0).
  { intro x. split; intro H; [destruct (Req_dec x 0) as [E|E]; [exact E|rewrite (zero_no x E) in H; discriminate H]|apply zero_yes, H]. }
  assert (F : forall l, negb (forallb (fun e => among e K) l) = true <-> exists e, In e l /\ ~ In e K).
  { induction l as [|a l IH]; cbn [forallb In].
    - split; [discriminate|intros [e [[] _]]].
    - rewrite negb_andb, orb_true_iff, IH, negb_true_iff. split.
      + intros [H|[e [H1 H2]]]; [exists a; split; [left; reflexivity|intro A; apply among_iff in A; congruence]|exists e; auto].
      + intros [e [[<-|H1] H2]]; [left; apply among_no, H2|right; exists e; auto]. }
  assert (B : refused faces pieces (g_geo s) c = true <-> bad).
  { unfold bad. destruct c as [x y z dx dy t|x y z rx ry t|x y z dx dy dz t|obj tool t|obj tool]; cbn [refused]; fold K;
      rewrite ?orb_true_iff, ?Z0, ?F, ?among_iff; try tauto.
    destruct obj as [|[d o] obj]; cbn [hd fst]; tauto. }
  unfold k_occ, in_session. rewrite O. split; intro H.
  - apply B in H. rewrite H. reflexivity.
  - destruct (refused faces pieces (g_geo s) c) eqn:E; [destruct (H (proj1 B eq_refl))|].
    unfold occ, in_session. rewrite O. eexists. split; [reflexivity|]. split; [reflexivity|]. exact O.
Qed.

(** * A concrete gmsh *)
Definition ex_faces (_ : list geo) : list Z := [1; 2; 3; 4; 5; 6]%Z.
Definition ex_pieces (_ : list geo) : list ent := [(2%nat, 3%Z); (2%nat, 4%Z)].
Definition ex_auto (l : list geo) (d : nat) : Z :=
  (1 + fold_right Z.max 0 (map snd (filter (fun e => Nat.eqb (fst e) d) (known ex_faces ex_pieces l))))%Z.
Definition ex_surfaces (k : nat) (_ : list geo) (_ : nat) : list Z := map Z.of_nat (seq 1 k).
Definition ex_centre (_ : list geo) (_ : ent) : list R := [0.5; 0.6; 0].
Definition ex_file (_ : R) (_ : list geo) (_ : list group) : mio := mkMio [] (fun _ => []) (fun _ => []).
Definition ex_answer (_ : gstate) : list Z * list R := ([1; 2]%Z, [0; 0; 0; 1; 0; 0]).
Definition ex_none (_ : gstate) : list (nat * list Z) := [].
Definition ex_mesh : mesh := mkMesh [] [].
Definition ex_closed : gstate := mkG false 1 [] [] false 1 None None.
Lemma ex_above : above ex_auto ex_faces ex_pieces.
Proof.
  intros l d t H. unfold ex_auto.
  assert (G : forall L : list ent, In (d, t) L -> (t <= fold_right Z.max 0 (map snd (filter (fun e => Nat.eqb (fst e) d) L)))%Z).
  { induction L as [|e L IH]; intro K; [contradiction|]. cbn [filter]. destruct K as [-> |K].
    - cbn [fst]. rewrite Nat.eqb_refl. cbn. lia.
    - destruct (Nat.eqb (fst e) d); cbn; specialize (IH K); lia. }
  specialize (G _ H). lia.
Qed.
(** a gmsh that numbers as assumed: one surface, all functions are accepted once; then the
    second call of the three-dimensional one fails, and nothing works after an inclusion
    mesh.  With two surfaces in one class the marking loop is refused. *)
Theorem C95_nonvacuous :
  above ex_auto ex_faces ex_pieces /\ convex_tags ex_pieces /\ solid_tags ex_pieces /\
  (forall g, ex_surfaces 1 g 2 <> []) /\
  NoDup (map (class ex_centre cmds_convex [0.5; 0.6; 0] [0.5; 0.975; 0] 2 3 1) (ex_surfaces 1 cmds_convex 2)) /\
  ~ NoDup (map (class ex_centre cmds_convex [0.5; 0.6; 0] [0.5; 0.975; 0] 2 3 1) (ex_surfaces 2 cmds_convex 2)) /\
  ~ flat_square (-1) 1 (-1) 1.25 1 /\
  (exists l s1, k_get_3d_mesh_data_all_around (ex_surfaces 1) ex_centre ex_pieces (fun _ => ex_mesh) (fun m => m) ex_faces ex_pieces 1 1 ex_closed = (Ok l, s1) /\
     exists s2, k_get_3d_mesh_data_all_around (ex_surfaces 1) ex_centre ex_pieces (fun _ => ex_mesh) (fun m => m) ex_faces ex_pieces 1 1 s1 = (Err GmshError, s2)) /\
  (forall s, g_open s = true -> exists l, ex_answer s = (tags l, flat l) /\ sequential (tags l)) /\
  (exists s1, k_get_mesh_inclusion ex_auto (ex_surfaces 1) ex_centre ex_file ex_answer ex_none (fun _ => 3%nat) (fun _ => [0; 1; 2]%nat) (fun _ _ => Ok ex_mesh) 0
                ex_faces ex_pieces 1 2 ex_closed = (Err RuntimeError, s1) /\ stuck 1 s1).
Proof.
  assert (HS : forall g, ex_surfaces 1 g 2 <> []) by (intros g H; discriminate H).
  assert (HN : forall s, g_open s = true -> exists l, ex_answer s = (tags l, flat l) /\ sequential (tags l)).
  { intros s _. exists [(1%Z, (0, 0, 0)); (2%Z, (1, 0, 0))]. split; [reflexivity|]. unfold sequential. cbn. reflexivity. }
  assert (HC : convex_tags ex_pieces).
  { unfold convex_tags, ex_pieces. cbn [In]. split; [left; reflexivity|]. split; [right; left; reflexivity|]. intros [K|[K|[]]]; discriminate K. }
  assert (HT : solid_tags ex_pieces) by (split; [left; reflexivity|right; left; reflexivity]).
  split; [exact ex_above|]. split; [exact HC|]. split; [exact HT|]. split; [exact HS|]. split; [|split; [|split; [|split; [|split; [exact HN|]]]]].
  - cbn [map ex_surfaces seq]. constructor; [intros []|constructor].
  - intro H. cbn [map ex_surfaces seq] in H. apply NoDup_cons_iff in H. apply (proj1 H). left. reflexivity.
  - unfold flat_square. decimals. intros [K|[K|[K|[[_ [K|K]]|[K _]]]]]; lra.
  - destruct (C56_3d (ex_surfaces 1) ex_centre ex_pieces (fun _ => ex_mesh) (fun m => m) 1 1 ex_closed) as [s1 [E _]].
    rewrite <- (proj1 (C95_solid (ex_surfaces 1) ex_centre ex_pieces ex_file (fun _ => ex_mesh) (fun m => m) ex_faces ex_pieces 1 1 ex_closed eq_refl) HT) in E.
    eexists. exists s1. split; [exact E|].
    edestruct (C95_again_refuted (ex_surfaces 1) ex_centre ex_pieces ex_file (fun _ _ => ex_mesh) (fun _ => ex_mesh) (fun m _ => m) (fun m => m) ex_faces ex_pieces HS 1%nat 1 ex_closed _ s1 eq_refl E) as [_ [A _]].
    destruct (A 1%nat 1) as [s2 [E2 _]]. exists s2. exact E2.
  - edestruct (C95_after_inclusion_refuted ex_auto (ex_surfaces 1) ex_centre ex_file ex_answer ex_none (fun _ => 3%nat) (fun _ => [0; 1; 2]%nat) (fun _ _ => ex_mesh) (fun _ _ => Ok ex_mesh) (fun m _ => m) ex_faces ex_pieces ex_above HN 1 2%nat ex_closed)
      as [s1 [E [S1 _]]]. exists s1. split; assumption.
Qed.
(** boxes in an open session: one is recorded, a flat one and a second one under the same tag are refused *)
Theorem C95_refused_nonvacuous :
  let s := mkG true 1 [] [] false 1 None None in
  exists s1, k_occ ex_faces ex_pieces (Box 0 0 0 1 1 1 1) s = (Ok tt, s1) /\ g_geo s1 = [Box 0 0 0 1 1 1 1] /\
    k_occ ex_faces ex_pieces (Box 0 0 0 1 0 1 2) s1 = (Err GmshError, s1) /\
    k_occ ex_faces ex_pieces (Box 0 0 0 2 2 2 1) s1 = (Err GmshError, s1) /\
    k_occ ex_faces ex_pieces (Cut [(3%nat, 1%Z)] [(3%nat, 2%Z)] 3) s1 = (Err GmshError, s1).
Proof.
  intro s. destruct (C95_refused ex_faces ex_pieces (Box 0 0 0 1 1 1 1) s eq_refl) as [_ A].
  destruct A as [s1 [A [G O]]]. { intros [H|[H|[H|[]]]]; lra. }
  cbn in G. exists s1. split; [exact A|]. split; [exact G|]. split; [|split].
  - apply (C95_refused ex_faces ex_pieces (Box 0 0 0 1 0 1 2) s1 O). right. left. reflexivity.
  - apply (C95_refused ex_faces ex_pieces (Box 0 0 0 2 2 2 1) s1 O). right. right. right. rewrite G. left. reflexivity.
  - apply (C95_refused ex_faces ex_pieces (Cut [(3%nat, 1%Z)] [(3%nat, 2%Z)] 3) s1 O). right. exists (3%nat, 2%Z).
    split; [right; left; reflexivity|]. rewrite G. cbn. intuition discriminate.
Qed.

Print Assumptions C95_refused. Print Assumptions C95_refused_nonvacuous.
Print Assumptions C95_agree. Print Assumptions C95_accepted. Print Assumptions C95_classes. Print Assumptions C95_parameters.
Print Assumptions C95_defaults_refuted. Print Assumptions C95_new_model. Print Assumptions C95_stuck. Print Assumptions C95_stuck_surfaces.
Print Assumptions C95_solid. Print Assumptions C95_again_refuted. Print Assumptions C95_after_inclusion_refuted. Print Assumptions C95_nonvacuous.
Print Assumptions C95_entities.
