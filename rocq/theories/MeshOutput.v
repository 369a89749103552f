(** MeshOutput.v -- what meshes.py prints: /repo/src/dxss/meshes.py:42, 56, 59, 144, 158,
    161, 210, 253, 317, 362, 367, 428, 461, 466, 592, 597, 706, 711, 780, 795, 840, 886-903.

    Each function of MeshModel.v is written again with its print statements in their
    places; the state now holds the lines printed so far.  Commands of gmsh that print
    nothing themselves are embedded by [silent].  How Python writes numbers, tuples and
    arrays is left out, as are the messages of gmsh itself. *)
From Coq Require Import Reals List ZArith Bool String.
From Verif Require Import Base MeshModel.
Import ListNotations.
Open Scope list_scope.
Open Scope R_scope.
Open Scope monad_scope.

(** pieces of a line: text, an integer, a point, an array of edges, an entity, a list of
    entities, what gmsh.model.occ.cut returns *)
Inductive mpiece : Type :=
| MText (s : string) | MInt (n : nat) | MPoint (c : list R) | MEdges (l : list (nat * nat))
| MEnt (e : ent) | MEnts (l : list ent) | MCut (r : list ent * list (list ent)).
Definition mline : Type := list mpiece.
Definition silent {A} (m : M gstate A) : M (gstate * list mline) A := fun '(s, o) => let '(r, s') := m s in (r, (s', o)).
Definition say (l : mline) : M (gstate * list mline) unit := modify (fun '(s, o) => (s, o ++ [l])).

(** print("r3 = ", r3) (meshes.py:42, 144, 780): the arguments separated by a blank *)
Definition l_r3 (r : list ent * list (list ent)) : mline := [MText "r3 = "; MText " "; MCut r].
(** print(len(gmsh.model.getEntities(dim=2))) (meshes.py:56, 158, 362, 461, 592, 706) *)
Definition l_count (n : nat) : mline := [MInt n].
(** print(com) (meshes.py:59, 161, 253, 367, 466, 597, 711, 795, 903) *)
Definition l_com (c : list R) : mline := [MPoint c].
(** meshes.py:210, 840 *)
Definition l_ghost : mline := [MText "ghost_mode = GhostMode.shared_facet"].
(** print(edges) (meshes.py:317, 428) *)
Definition l_edges (e : list (nat * nat)) : mline := [MEdges e].
(** meshes.py:886, 891 *)
Definition l_volumes : mline := [MText "fragment produced volumes:"].
Definition l_relations : mline := [MText "before/after fragment relations:"].

Section Output.
  (** the external parts, as in MeshModel.v *)
  Variable auto_tag : list geo -> nat -> Z.
  Variable entities : list geo -> nat -> list Z.
  Variable com : list geo -> ent -> list R.
  Variable fragments : list geo -> list ent.
  Variable msh_file : R -> list geo -> list group -> mio.
  Variable nodes : gstate -> list Z * list R.
  Variable elements : gstate -> list (nat * list Z).
  Variable num_nodes : nat -> nat.
  Variable perm : nat -> list nat.
  Variable build : list (list R) -> list (list nat) -> mesh.
  Variable build_z : list (list R) -> list (list Z) -> res mesh.
  Variable model_mesh : gstate -> mesh.
  Variable refine : mesh -> list (nat * nat) -> mesh.
  Variable refine_uniform : mesh -> mesh.
  Variable v07 : bool.
  Variable rank : nat.
  Variable remote : option mio.
  (** what the last cut returned, and the second value of the last fragment *)
  Variable cut_result : list geo -> list ent * list (list ent).
  Variable relations : list geo -> list (list ent).

  Definition say_r3 : M (gstate * list mline) unit :=
    do s <- silent get; say (l_r3 (cut_result (g_geo s))).
  (** len(gmsh.model.getEntities(dim=2)), where it is printed *)
  Definition say_count : M (gstate * list mline) unit :=
    do ss <- silent (get_entities entities 2); say (l_count (List.length ss)).

  (** the loop "its = 1; for surface in getEntities(dim=2)" (meshes.py:364-369, 463-468,
      594-599, 708-713, 792-797, 900-905) *)
  Definition say_number_surfaces : M (gstate * list mline) unit :=
    do ss <- silent (get_entities entities 2);
    (fix go (its : Z) (l : list ent) : M (gstate * list mline) unit :=
       match l with
       | [] => ret tt
       | e :: l' => do c <- silent (center_of_mass com e); say (l_com c) ;;
                    silent (add_group (mkGroup 2 [snd e] (Some its))) ;; go (its + 1)%Z l'
       end) 1%Z ss.
  (** the loop marking surfaces by their centre (meshes.py:57-65, 159-167, 251-259) *)
  Definition say_mark_surfaces (c1 c2 : list R) (m1 m2 m3 : Z) : M (gstate * list mline) unit :=
    do ss <- silent (get_entities entities 2);
    for_each ss (fun e => do c <- silent (center_of_mass com e); say (l_com c) ;;
      silent (if allclose c c1 then add_group (mkGroup 2 [snd e] (Some m1))
      else if allclose c c2 then add_group (mkGroup 2 [snd e] (Some m2))
      else add_group (mkGroup 2 [snd e] (Some m3)))).

  (** from mesh.msh over xdmf to the mesh; [ghost]: with the line printed when mesh.xdmf is
      open (meshes.py:209-210 and 839-840, not in 107, 301, 411) *)
  Definition say_through_xdmf (ghost : bool) : M (gstate * list mline) mesh :=
    (if Nat.eqb rank 0 then
       do s <- silent get; do f <- silent (need (g_msh s) RuntimeError);
       silent (modify (fun s => mkG (g_open s) (g_factor s) (g_geo s) (g_groups s) (g_meshed s) (g_order s) (g_msh s) (Some (prune_z f))))
     else ret tt) ;;
    do s <- silent get;
    do f <- silent (need (if Nat.eqb rank 0 then g_xdmf s else remote) RuntimeError);
    (if ghost then say l_ghost else ret tt) ;;
    ret (build (io_points f) (io_cells f "triangle"%string)).

  (** the refinement loops; [shown]: with print(edges) *)
  Fixpoint say_refinements (shown : bool) (a : first_arg) (n_ref : nat) (m : mesh) : M (gstate * list mline) (list mesh) :=
    match n_ref with
    | 0%nat => ret []
    | S n => do edges <- silent (lift (compute_incident_edges v07 a m (locate_cells m refine_all)));
             (if shown then say (l_edges edges) else ret tt) ;;
             do l <- say_refinements shown a n (refine m edges);
             ret (refine m edges :: l)
    end.
  Definition say_hierarchy (shown : bool) (a : first_arg) (n_ref : nat) (m : mesh) : M (gstate * list mline) (list mesh) :=
    do l <- say_refinements shown a n_ref m; ret (m :: l).

  (** meshes.py:38-51 and 140-153 *)
  Definition say_geo_convex : M (gstate * list mline) unit :=
    silent (occ (Rect 0 0 0 1 1 1)) ;; silent (occ (Rect 0.1 0.25 0 0.8 0.75 2)) ;;
    silent (occ (Cut [(2%nat, 1%Z)] [(2%nat, 2%Z)] 3)) ;; say_r3 ;;
    silent (occ (Rect 0.1 0.25 0 0.8 0.7 4) ;;
    occ (Fragment [(2%nat, 3%Z)] [(2%nat, 4%Z)]) ;;
    occ (Rect 0.1 0.95 0 0.8 0.05 6) ;;
    occ (Fragment [(2%nat, 3%Z)] [(2%nat, 4%Z); (2%nat, 6%Z)]) ;;
    synchronize).
  Definition say_marks_convex : M (gstate * list mline) unit :=
    say_count ;; say_mark_surfaces [0.5; 0.6; 0] [0.5; 0.975; 0] 2 3 1 ;;
    silent (boundary_group entities com ;; generate ;; write_msh msh_file).
  (** create_initial_mesh_convex (meshes.py:22-113) *)
  Definition say_initial_mesh_convex (h : R) : M (gstate * list mline) mesh :=
    silent (initialize ;; set_factor h) ;;
    (if Nat.eqb rank 0 then say_geo_convex ;; say_marks_convex ;; silent finalize else ret tt) ;;
    say_through_xdmf false.
  (** get_mesh_hierarchy (meshes.py:124-229) *)
  Definition say_mesh_hierarchy (n_ref : nat) (h : R) : M (gstate * list mline) (list mesh) :=
    silent (initialize ;; set_factor h) ;;
    (if Nat.eqb rank 0 then say_geo_convex ;; say_marks_convex else ret tt) ;;
    silent finalize ;;
    do m <- say_through_xdmf true; say_hierarchy false AMesh n_ref m.
  (** get_mesh_hierarchy_nonconvex (meshes.py:232-321) *)
  Definition say_mesh_hierarchy_nonconvex (n_ref : nat) (h : R) : M (gstate * list mline) (list mesh) :=
    silent (initialize ;; set_factor h) ;;
    (if Nat.eqb rank 0 then
       silent geo_nonconvex ;; say_mark_surfaces [0.5; 0.275; 0] [0.5; 0.5; 0] 1 2 3 ;;
       silent (boundary_group entities com ;; generate ;; write_msh msh_file)
     else ret tt) ;;
    silent finalize ;;
    do m <- say_through_xdmf false; say_hierarchy true AMesh n_ref m.
  (** get_mesh_hierarchy_fitted_disc (meshes.py:324-431) *)
  Definition say_mesh_hierarchy_fitted_disc (n_ref : nat) (eta h : R) : M (gstate * list mline) (list mesh) :=
    silent (initialize ;; set_factor h) ;;
    (if Nat.eqb rank 0 then
       silent (geo_fitted_disc eta) ;; say_count ;; say_number_surfaces ;;
       silent (boundary_group entities com ;; generate ;; write_msh msh_file ;; finalize)
     else ret tt) ;;
    do m <- say_through_xdmf false; say_hierarchy true AMesh n_ref m.
  (** get_mesh_data_all_around (meshes.py:766-866) *)
  Definition say_mesh_data_all_around (n_ref : nat) (h : R) : M (gstate * list mline) (list mesh) :=
    silent (initialize ;; set_factor h) ;;
    (if Nat.eqb rank 0 then
       silent (occ (Rect 0 0 0 1 1 1)) ;; silent (occ (Rect 0.2 0.2 0 0.6 0.6 2)) ;;
       silent (occ (Cut [(2%nat, 1%Z)] [(2%nat, 2%Z)] 3)) ;; say_r3 ;;
       silent (occ (Rect 0.2 0.2 0 0.6 0.6 4) ;; occ (Fragment [(2%nat, 3%Z)] [(2%nat, 4%Z)]) ;; synchronize) ;;
       say_number_surfaces ;;
       silent (boundary_group entities com ;; generate ;; write_msh msh_file)
     else ret tt) ;;
    silent finalize ;;
    do m <- say_through_xdmf true; say_hierarchy false (if v07 then ATopology else AMesh) n_ref m.
  (** get_3d_mesh_data_all_around (meshes.py:869-932); issued on every rank *)
  Definition say_3d_mesh_data_all_around (n_ref : nat) (h : R) : M (gstate * list mline) (list mesh) :=
    silent (initialize ;; set_factor h ;;
    occ (Box 0 0 0 1 1 1 1) ;; occ (Box 0.2 0.2 0.2 0.6 0.6 0.6 2) ;; occ (Cut [(3%nat, 1%Z)] [(3%nat, 2%Z)] 3) ;;
    occ (Box 0.2 0.2 0.2 0.6 0.6 0.6 4) ;;
    occ (Fragment [(3%nat, 3%Z)] [(3%nat, 4%Z)]) ;;
    occ (Fragment [(2%nat, 3%Z)] [(2%nat, 4%Z)])) ;;
    do s <- silent get; let ov := fragments (g_geo s) in let ovv := relations (g_geo s) in
    say l_volumes ;;
    for_each ov (fun e => say [MEnt e]) ;;
    say l_relations ;;
    for_each ovv (fun e => say [MEnts e]) ;;
    silent synchronize ;;
    for_each ov (fun e => silent (add_group (mkGroup 3 [snd e] None)) ;; say [MEnt e]) ;;
    say_number_surfaces ;;
    silent (generate ;;
    do s <- get; let m := model_mesh s in
    ret (m :: (fix go n m := match n with 0%nat => [] | S n' => let m' := refine_uniform m in m' :: go n' m' end) n_ref m)).
  (** get_mesh_inclusion (meshes.py:434-526) *)
  Definition say_mesh_inclusion (h : R) (order : nat) : M (gstate * list mline) mesh :=
    silent (initialize ;; model_add ;; set_factor h) ;;
    (if Nat.eqb rank 0 then
       silent (geo_inclusion auto_tag) ;; say_count ;; say_number_surfaces ;;
       silent (boundary_group entities com ;; generate ;; write_msh msh_file)
     else ret tt) ;;
    silent (from_nodes nodes elements num_nodes perm build_z order false).
  (** get_mesh_inclusion_square (meshes.py:529-660) *)
  Definition say_mesh_inclusion_square (h x_l x_r y_l y_r eta : R) : M (gstate * list mline) mesh :=
    silent (initialize ;; model_add ;; set_factor h) ;;
    (if Nat.eqb rank 0 then
       silent (geo_inclusion_square auto_tag x_l x_r y_l y_r eta) ;; say_count ;; say_number_surfaces ;;
       silent (boundary_group entities com ;; generate ;; write_msh msh_file)
     else ret tt) ;;
    silent (from_nodes nodes elements num_nodes perm build_z 1 true).
  (** get_mesh_bottom_data (meshes.py:663-763) *)
  Definition say_mesh_bottom_data (h eta : R) : M (gstate * list mline) mesh :=
    silent (initialize ;; model_add ;; set_factor h) ;;
    (if Nat.eqb rank 0 then
       silent (geo_bottom eta) ;; say_count ;; say_number_surfaces ;;
       silent (generate ;; write_msh msh_file)
     else ret tt) ;;
    silent (from_nodes nodes elements num_nodes perm build_z 1 false).
End Output.

(** get_mesh_convex (meshes.py:116-121) *)
Fixpoint say_mesh_convex_from entities com msh_file build rank (remote : nat -> option mio) cut_result (j n : nat) (h : R)
  : M (gstate * list mline) (list mesh) :=
  match n with
  | 0%nat => ret []
  | S n' => do m <- say_initial_mesh_convex entities com msh_file build rank (remote j) cut_result (h / 2 ^ j);
            do l <- say_mesh_convex_from entities com msh_file build rank remote cut_result (S j) n' h; ret (m :: l)
  end.
Definition say_mesh_convex entities com msh_file build rank remote cut_result (n_ref : nat) (h : R) : M (gstate * list mline) (list mesh) :=
  say_mesh_convex_from entities com msh_file build rank remote cut_result 0 n_ref h.
