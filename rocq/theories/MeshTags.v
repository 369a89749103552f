(** MeshTags.v -- what gmsh refuses (meshes.py).

    [MeshModel.v] records the commands given to gmsh as if gmsh took all of them.  gmsh
    raises an exception (python class Exception, here [GmshError]) for
      - a rectangle or box with an edge of length zero,
      - a tag asked for (tag=..., or the third argument of addPhysicalGroup) that is in use
        in this dimension of the current model,
      - an operand of cut or fragment that is not an entity of the current model.
    The functions below are those of [MeshModel.v] with these refusals.  Which entities
    there are after a fragment, and the tags of the faces of a box, are arbitrary; cut
    removes its operands (removeObject, removeTool are True) and binds its tag. *)
From Coq Require Import Reals List ZArith Lra Lia Bool String.
From Verif Require Import Base MeshModel.
Import ListNotations.
Open Scope R_scope.
Open Scope monad_scope.

Definition zero (x : R) : bool := if Req_EM_T x 0 then true else false.
Definition ent_eqb (a b : ent) : bool := Nat.eqb (fst a) (fst b) && Z.eqb (snd a) (snd b).
Definition among (e : ent) (l : list ent) : bool := existsb (ent_eqb e) l.
(** a physical group with this dimension and tag *)
Definition marked (d : nat) (m : Z) (gs : list group) : bool :=
  existsb (fun g => Nat.eqb (gr_dim g) d && match gr_marker g with Some m' => Z.eqb m m' | None => false end) gs.
(** gmsh.model.addPhysicalGroup(dim, tags, tag) *)
Definition k_add_group (gr : group) : M gstate unit := in_session (fun s =>
  match gr_marker gr with
  | Some m => if marked (gr_dim gr) m (g_groups s) then (Err GmshError, s) else add_group gr s
  | None => add_group gr s
  end).

Section Tags.
  (** the external parts, as in [MeshModel.v] *)
  Variable auto_tag : list geo -> nat -> Z.                  (* tag chosen by gmsh *)
  Variable entities : list geo -> nat -> list Z.             (* getEntities(dim) *)
  Variable com : list geo -> ent -> list R.                  (* getCenterOfMass *)
  Variable fragments : list geo -> list ent.                 (* result of the last fragment *)
  Variable msh_file : R -> list geo -> list group -> mio.    (* generated mesh as written to mesh.msh *)
  Variable nodes : gstate -> list Z * list R.                (* getNodes: node numbers, flat coordinates *)
  Variable elements : gstate -> list (nat * list Z).         (* getElements(dim=2): type and node numbers *)
  Variable num_nodes : nat -> nat.                           (* of an element type *)
  Variable perm : nat -> list nat.                           (* perm_gmsh *)
  Variable build : list (list R) -> list (list nat) -> mesh. (* read_mesh / create_mesh *)
  Variable build_z : list (list R) -> list (list Z) -> res mesh. (* create_mesh from node numbers *)
  Variable model_mesh : gstate -> mesh.                      (* gmshio.model_to_mesh *)
  Variable refine : mesh -> list (nat * nat) -> mesh.
  Variable refine_uniform : mesh -> mesh.
  Variable v07 : bool.                                       (* dolfinx 0.7 or later *)
  Variable rank : nat.
  Variable remote : option mio.
  Variable faces : list geo -> list Z.                       (* faces of boxes and of their cuts *)
  Variable pieces : list geo -> list ent.                    (* all entities after a fragment *)

  (** the entities of the current model, of dimension 2 and 3, after the commands *)
  Definition after (pre : list geo) (b : list ent) (c : geo) : list ent :=
    match c with
    | Rect _ _ _ _ _ t | Disk _ _ _ _ _ t => (2%nat, t) :: b
    | Box _ _ _ _ _ _ t => (3%nat, t) :: map (fun f => (2%nat, f)) (faces (pre ++ [c])) ++ b
    | Cut obj tool t =>
        let d := match obj with (d, _) :: _ => d | [] => 2%nat end in
        let keep := filter (fun e => negb (among e (obj ++ tool))) b in
        (d, t) :: (if Nat.eqb d 3 then map (fun f => (2%nat, f)) (faces (pre ++ [c])) ++ filter (fun e => negb (Nat.eqb (fst e) 2)) keep else keep)
    | Fragment _ _ => pieces (pre ++ [c])
    end.
  Fixpoint known_from (pre : list geo) (b : list ent) (l : list geo) : list ent :=
    match l with [] => b | c :: l' => known_from (pre ++ [c]) (after pre b c) l' end.
  Definition known (l : list geo) : list ent := known_from [] [] l.
  Definition refused (l : list geo) (c : geo) : bool :=
    match c with
    | Rect _ _ _ dx dy t => zero dx || zero dy || among (2%nat, t) (known l)
    | Disk _ _ _ _ _ t => among (2%nat, t) (known l)
    | Box _ _ _ dx dy dz t => zero dx || zero dy || zero dz || among (3%nat, t) (known l)
    | Cut obj tool t => among (match obj with (d, _) :: _ => d | [] => 2%nat end, t) (known l) ||
                        negb (forallb (fun e => among e (known l)) (obj ++ tool))
    | Fragment obj tool => negb (forallb (fun e => among e (known l)) (obj ++ tool))
    end.
  Definition k_occ (c : geo) : M gstate unit := in_session (fun s =>
    if refused (g_geo s) c then (Err GmshError, s) else occ c s).
  (** addRectangle without tag: gmsh takes one that is free *)
  Definition k_add_rectangle_auto (x y z dx dy : R) : M gstate Z := in_session (fun s =>
    if zero dx || zero dy then (Err GmshError, s) else add_rectangle_auto auto_tag x y z dx dy s).

  (** the loop "its = 1; for surface in getEntities(dim=2)" (meshes.py:364-369 and
      repeated in 463-468, 594-599, 708-713, 792-797, 900-905) *)
  Definition k_number_surfaces : M gstate unit :=
    do ss <- get_entities entities 2;
    (fix go (its : Z) (l : list ent) : M gstate unit :=
       match l with
       | [] => ret tt
       | e :: l' => do _ <- center_of_mass com e; k_add_group (mkGroup 2 [snd e] (Some its)) ;; go (its + 1)%Z l'
       end) 1%Z ss.
  (** the loop collecting bnd_square (meshes.py:68-78 and repeated in 170-180,
      263-273, 372-382, 471-481, 602-612, 800-810) *)
  Definition k_boundary_group : M gstate unit :=
    do ls <- get_entities entities 1;
    do bnd <- (fix go (l : list ent) : M gstate (list Z) :=
       match l with
       | [] => ret []
       | e :: l' => do c <- center_of_mass com e; do r <- go l'; ret (if on_square c then snd e :: r else r)
       end) ls;
    k_add_group (mkGroup 1 bnd (Some 1%Z)).
  (** the loop marking surfaces by their centre (meshes.py:57-65, 159-167, 251-259):
      centre close to c1: m1, to c2: m2, otherwise m3 *)
  Definition k_mark_surfaces (c1 c2 : list R) (m1 m2 m3 : Z) : M gstate unit :=
    do ss <- get_entities entities 2;
    for_each ss (fun e => do c <- center_of_mass com e;
      if allclose c c1 then k_add_group (mkGroup 2 [snd e] (Some m1))
      else if allclose c c2 then k_add_group (mkGroup 2 [snd e] (Some m2))
      else k_add_group (mkGroup 2 [snd e] (Some m3))).

  (** ** the geometries *)
  (** meshes.py:38-51 and 140-153 *)
  Definition k_geo_convex : M gstate unit :=
    k_occ (Rect 0 0 0 1 1 1) ;; k_occ (Rect 0.1 0.25 0 0.8 0.75 2) ;;
    k_occ (Cut [(2%nat, 1%Z)] [(2%nat, 2%Z)] 3) ;;
    k_occ (Rect 0.1 0.25 0 0.8 0.7 4) ;;
    k_occ (Fragment [(2%nat, 3%Z)] [(2%nat, 4%Z)]) ;;
    k_occ (Rect 0.1 0.95 0 0.8 0.05 6) ;;
    k_occ (Fragment [(2%nat, 3%Z)] [(2%nat, 4%Z); (2%nat, 6%Z)]) ;;
    synchronize.
  Definition k_marks_convex : M gstate unit :=
    k_mark_surfaces [0.5; 0.6; 0] [0.5; 0.975; 0] 2 3 1 ;; k_boundary_group ;; generate ;; write_msh msh_file.
  (** create_initial_mesh_convex (meshes.py:22-113) *)
  Definition k_create_initial_mesh_convex (h : R) : M gstate mesh :=
    initialize ;; set_factor h ;;
    (if Nat.eqb rank 0 then k_geo_convex ;; k_marks_convex ;; finalize else ret tt) ;;
    through_xdmf build rank remote.
  (** get_mesh_hierarchy (meshes.py:124-229) *)
  Definition k_get_mesh_hierarchy (n_ref : nat) (h : R) : M gstate (list mesh) :=
    initialize ;; set_factor h ;;
    (if Nat.eqb rank 0 then k_geo_convex ;; k_marks_convex else ret tt) ;;
    finalize ;;
    do m <- through_xdmf build rank remote; lift (hierarchy refine v07 AMesh n_ref m).
  (** get_mesh_hierarchy_nonconvex (meshes.py:232-321) *)
  Definition k_geo_nonconvex : M gstate unit :=
    k_occ (Rect 0.25 0.05 0 0.5 0.45 1) ;; k_occ (Rect 0.125 0.05 0 0.75 0.9 2) ;; k_occ (Rect 0 0 0 1 1 3) ;;
    k_occ (Fragment [(2%nat, 3%Z)] [(2%nat, 1%Z); (2%nat, 2%Z)]) ;; synchronize.
  Definition k_get_mesh_hierarchy_nonconvex (n_ref : nat) (h : R) : M gstate (list mesh) :=
    initialize ;; set_factor h ;;
    (if Nat.eqb rank 0 then
       k_geo_nonconvex ;; k_mark_surfaces [0.5; 0.275; 0] [0.5; 0.5; 0] 1 2 3 ;; k_boundary_group ;; generate ;; write_msh msh_file
     else ret tt) ;;
    finalize ;;
    do m <- through_xdmf build rank remote; lift (hierarchy refine v07 AMesh n_ref m).
  (** get_mesh_hierarchy_fitted_disc (meshes.py:324-431) *)
  Definition k_geo_fitted_disc (eta : R) : M gstate unit :=
    let y_eta := eta - 0.25 in
    k_occ (Rect 0 0 0 1 eta 1) ;; k_occ (Rect 0.1 0.25 0 0.8 y_eta 2) ;; k_occ (Cut [(2%nat, 1%Z)] [(2%nat, 2%Z)] 3) ;;
    k_occ (Rect 0.1 0.25 0 0.8 y_eta 4) ;; k_occ (Rect 0.1 y_eta 0 0.8 (0.95 - y_eta) 5) ;; k_occ (Rect 0 y_eta 0 1 (1 - y_eta) 6) ;;
    k_occ (Fragment [(2%nat, 3%Z)] [(2%nat, 4%Z); (2%nat, 5%Z); (2%nat, 6%Z)]) ;; synchronize.
  Definition k_get_mesh_hierarchy_fitted_disc (n_ref : nat) (eta h : R) : M gstate (list mesh) :=
    initialize ;; set_factor h ;;
    (if Nat.eqb rank 0 then k_geo_fitted_disc eta ;; k_number_surfaces ;; k_boundary_group ;; generate ;; write_msh msh_file ;; finalize else ret tt) ;;
    do m <- through_xdmf build rank remote; lift (hierarchy refine v07 AMesh n_ref m).
  (** get_mesh_data_all_around (meshes.py:766-866) *)
  Definition k_geo_all_around : M gstate unit :=
    k_occ (Rect 0 0 0 1 1 1) ;; k_occ (Rect 0.2 0.2 0 0.6 0.6 2) ;; k_occ (Cut [(2%nat, 1%Z)] [(2%nat, 2%Z)] 3) ;;
    k_occ (Rect 0.2 0.2 0 0.6 0.6 4) ;; k_occ (Fragment [(2%nat, 3%Z)] [(2%nat, 4%Z)]) ;; synchronize.
  Definition k_get_mesh_data_all_around (n_ref : nat) (h : R) : M gstate (list mesh) :=
    initialize ;; set_factor h ;;
    (if Nat.eqb rank 0 then k_geo_all_around ;; k_number_surfaces ;; k_boundary_group ;; generate ;; write_msh msh_file else ret tt) ;;
    finalize ;;
    do m <- through_xdmf build rank remote; lift (hierarchy refine v07 (if v07 then ATopology else AMesh) n_ref m).
  (** get_3d_mesh_data_all_around (meshes.py:869-932); issued on every rank *)
  Definition k_get_3d_mesh_data_all_around (n_ref : nat) (h : R) : M gstate (list mesh) :=
    initialize ;; set_factor h ;;
    k_occ (Box 0 0 0 1 1 1 1) ;; k_occ (Box 0.2 0.2 0.2 0.6 0.6 0.6 2) ;; k_occ (Cut [(3%nat, 1%Z)] [(3%nat, 2%Z)] 3) ;;
    k_occ (Box 0.2 0.2 0.2 0.6 0.6 0.6 4) ;;
    k_occ (Fragment [(3%nat, 3%Z)] [(3%nat, 4%Z)]) ;;
    k_occ (Fragment [(2%nat, 3%Z)] [(2%nat, 4%Z)]) ;;
    do s <- get; let ov := fragments (g_geo s) in
    synchronize ;;
    for_each ov (fun e => k_add_group (mkGroup 3 [snd e] None)) ;;
    k_number_surfaces ;; generate ;;
    do s <- get; let m := model_mesh s in
    ret (m :: (fix go n m := match n with 0%nat => [] | S n' => let m' := refine_uniform m in m' :: go n' m' end) n_ref m).

  (** the common tail (meshes.py:484-526, 617-660, 721-763) gives gmsh no such command *)
  Notation k_from_nodes := (from_nodes nodes elements num_nodes perm build_z).
  (** get_mesh_inclusion (meshes.py:434-526) *)
  Definition k_geo_inclusion : M gstate unit :=
    k_occ (Rect (-1.5) (-1.5) 0 3 3 1) ;; k_occ (Rect (-1.25) (-1.25) 0 2.5 2.75 2) ;; k_occ (Cut [(2%nat, 1%Z)] [(2%nat, 2%Z)] 3) ;;
    do target <- k_add_rectangle_auto (-0.5) (-0.5) 0 1 1;
    k_occ (Disk 0 0 0 1 1 2) ;; synchronize ;;
    do rem <- k_add_rectangle_auto (-1.25) (-1.25) 0 2.5 2.75;
    k_occ (Fragment [(2%nat, 3%Z)] [(2%nat, target); (2%nat, 2%Z); (2%nat, rem)]) ;; synchronize.
  Definition k_get_mesh_inclusion (h : R) (order : nat) : M gstate mesh :=
    initialize ;; model_add ;; set_factor h ;;
    (if Nat.eqb rank 0 then k_geo_inclusion ;; k_number_surfaces ;; k_boundary_group ;; generate ;; write_msh msh_file else ret tt) ;;
    k_from_nodes order false.
  (** get_mesh_inclusion_square (meshes.py:529-660) *)
  Definition k_geo_inclusion_square (x_l x_r y_l y_r eta : R) : M gstate unit :=
    k_occ (Rect (-1.5) (-1.5) 0 3 (1.5 + eta) 1) ;; k_occ (Rect (-1.25) (-1.25) 0 2.5 (1.15 + eta) 2) ;;
    k_occ (Cut [(2%nat, 1%Z)] [(2%nat, 2%Z)] 3) ;;
    (if Rlt_dec eta 1.5 then
       do tm <- k_add_rectangle_auto x_l y_l 0 (x_r - x_l) (eta - y_l);
       do tp <- k_add_rectangle_auto x_l eta 0 (x_r - x_l) (y_r - eta);
       do mu <- k_add_rectangle_auto (-0.75) (-0.75) 0 1.5 1.5;
       do rt <- k_add_rectangle_auto (-1.5) eta 0 3 (1.5 - eta);
       synchronize ;;
       k_occ (Fragment [(2%nat, 3%Z)] [(2%nat, tm); (2%nat, mu); (2%nat, tp); (2%nat, rt)]) ;; synchronize
     else
       do tm <- k_add_rectangle_auto x_l y_l 0 (x_r - x_l) (y_r - y_l);
       do mu <- k_add_rectangle_auto (-0.75) (-0.75) 0 1.5 1.5;
       do rm <- k_add_rectangle_auto (-1.25) (-1.25) 0 2.5 2.75;
       synchronize ;;
       k_occ (Fragment [(2%nat, 3%Z)] [(2%nat, tm); (2%nat, mu); (2%nat, rm)])) ;;
    synchronize.
  Definition k_get_mesh_inclusion_square (h x_l x_r y_l y_r eta : R) : M gstate mesh :=
    initialize ;; model_add ;; set_factor h ;;
    (if Nat.eqb rank 0 then k_geo_inclusion_square x_l x_r y_l y_r eta ;; k_number_surfaces ;; k_boundary_group ;; generate ;; write_msh msh_file else ret tt) ;;
    k_from_nodes 1 true.
  (** get_mesh_bottom_data (meshes.py:663-763) *)
  Definition k_geo_bottom (eta : R) : M gstate unit :=
    k_occ (Rect 0 0 0 1 0.25 1) ;; k_occ (Rect 0 0.25 0 0.25 (eta - 0.25) 2) ;; k_occ (Rect 0.75 0.25 0 0.25 (eta - 0.25) 3) ;;
    k_occ (Rect 0.25 0.25 0 0.5 (eta - 0.25) 4) ;; k_occ (Rect 0.25 eta 0 0.5 (0.9 - eta) 5) ;; k_occ (Rect 0 eta 0 0.25 (1 - eta) 6) ;;
    k_occ (Rect 0.25 eta 0 0.5 (1 - eta) 7) ;; k_occ (Rect 0.75 eta 0 0.25 (1 - eta) 8) ;; synchronize ;;
    k_occ (Fragment [(2%nat, 1%Z)] [(2%nat, 4%Z); (2%nat, 2%Z); (2%nat, 3%Z); (2%nat, 5%Z); (2%nat, 6%Z); (2%nat, 7%Z); (2%nat, 8%Z)]) ;; synchronize.
  Definition k_get_mesh_bottom_data (h eta : R) : M gstate mesh :=
    initialize ;; model_add ;; set_factor h ;;
    (if Nat.eqb rank 0 then k_geo_bottom eta ;; k_number_surfaces ;; generate ;; write_msh msh_file else ret tt) ;;
    k_from_nodes 1 false.
End Tags.
