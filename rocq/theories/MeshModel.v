(** MeshModel.v -- meshes.py.

    gmsh's geometry kernel, its mesh generator, meshio and dolfinx are external:
    the entities of a geometry, their centres of mass, the generated nodes and
    elements, the built and refined meshes are arbitrary functions of the commands
    issued.  What is modelled is the logic of the python code: which commands are
    issued on which rank, the markers, the node renumbering, the loops of
    refinements, the life of the gmsh session.  Printing is added in MeshOutput.v. *)
From Coq Require Import Reals List ZArith Lra Lia Bool String.
From Verif Require Import Base.
Import ListNotations.
Open Scope R_scope.
Open Scope monad_scope.

(** * gmsh *)
(** dimension and tag of an entity *)
Definition ent : Type := (nat * Z)%type.
(** geometry commands of gmsh.model.occ, in the order issued *)
Inductive geo : Type :=
| Rect (x y z dx dy : R) (tag : Z)
| Disk (x y z rx ry : R) (tag : Z)
| Box (x y z dx dy dz : R) (tag : Z)
| Cut (obj tool : list ent) (tag : Z)
| Fragment (obj tool : list ent).
(** physical group: dimension, entity tags, its own tag (None: chosen by gmsh) *)
Record group : Type := mkGroup { gr_dim : nat; gr_tags : list Z; gr_marker : option Z }.
(** meshio's view of a mesh: points, and per cell type the cells and their markers *)
Record mio : Type := mkMio { io_points : list (list R); io_cells : string -> list (list nat); io_data : string -> list Z }.
(** the session on one rank: open or not, current model, and the files *)
Record gstate : Type := mkG {
  g_open : bool; g_factor : R; g_geo : list geo; g_groups : list group; g_meshed : bool; g_order : nat;
  g_msh : option mio; g_xdmf : option mio }.
Definition closed (s : gstate) : gstate := mkG false 1 [] [] false 1 (g_msh s) (g_xdmf s).

(** gmsh.initialize: opening an open session only warns *)
Definition initialize : M gstate unit := fun s =>
  (Ok tt, if g_open s then s else mkG true 1 [] [] false 1 (g_msh s) (g_xdmf s)).
(** every other command needs an open session *)
Definition in_session {A} (m : M gstate A) : M gstate A := fun s => if g_open s then m s else (Err RuntimeError, s).
Definition finalize : M gstate unit := in_session (modify closed).
Definition set_factor (h : R) : M gstate unit := in_session (modify (fun s =>
  mkG (g_open s) h (g_geo s) (g_groups s) (g_meshed s) (g_order s) (g_msh s) (g_xdmf s))).
(** gmsh.model.add: a new, empty current model *)
Definition model_add : M gstate unit := in_session (modify (fun s =>
  mkG (g_open s) (g_factor s) [] [] false 1 (g_msh s) (g_xdmf s))).
Definition occ (c : geo) : M gstate unit := in_session (modify (fun s =>
  mkG (g_open s) (g_factor s) (g_geo s ++ [c]) (g_groups s) (g_meshed s) (g_order s) (g_msh s) (g_xdmf s))).
Definition add_group (gr : group) : M gstate unit := in_session (modify (fun s =>
  mkG (g_open s) (g_factor s) (g_geo s) (g_groups s ++ [gr]) (g_meshed s) (g_order s) (g_msh s) (g_xdmf s))).
Definition generate : M gstate unit := in_session (modify (fun s =>
  mkG (g_open s) (g_factor s) (g_geo s) (g_groups s) true (g_order s) (g_msh s) (g_xdmf s))).
Definition set_order (n : nat) : M gstate unit := in_session (modify (fun s =>
  mkG (g_open s) (g_factor s) (g_geo s) (g_groups s) (g_meshed s) n (g_msh s) (g_xdmf s))).
Definition synchronize : M gstate unit := in_session (ret tt).

(** * numpy *)
(** np.isclose(a, b) : |a - b| <= atol + rtol |b|, atol = 1e-8, rtol = 1e-5 *)
Definition isclose (a b : R) : bool := if Rle_dec (Rabs (a - b)) (1e-8 + 1e-5 * Rabs b) then true else false.
Definition allclose (a b : list R) : bool := forallb (fun '(x, y) => isclose x y) (combine a b).
(** a.reshape(-1, k) *)
Fixpoint chunks {A} (k n : nat) (l : list A) : list (list A) :=
  match n with 0%nat => [] | S n' => firstn k l :: chunks k n' (skipn k l) end.
Definition reshape {A} (k : nat) (l : list A) : res (list (list A)) :=
  if Nat.eqb k 0 then Err ValueError else
  if Nat.eqb (List.length l mod k) 0 then Ok (chunks k (List.length l / k) l) else Err ValueError.
(** np.argsort: positions in increasing order of the entries (for equal entries, which
    numpy may order either way, the earlier position first) *)
Fixpoint insert_pos (idx : list Z) (p : nat) (l : list nat) : list nat :=
  match l with
  | [] => [p]
  | q :: l' => if Z.leb (nth p idx 0%Z) (nth q idx 0%Z) then p :: l else q :: insert_pos idx p l'
  end.
Definition argsort (idx : list Z) : list nat := fold_right (insert_pos idx) [] (seq 0 (List.length idx)).
(** a[srt]; positions from argsort are in range *)
Definition gather_rows {A} (d : A) (a : list A) (srt : list nat) : list A := map (fun p => nth p a d) srt.
(** np.arange(n) *)
Definition arange (n : nat) : list Z := map Z.of_nat (seq 0 n).

(** * dolfinx meshes: vertex coordinates; cells as lists of vertex numbers *)
Record mesh : Type := mkMesh { m_pts : list (list R); m_cells : list (list nat) }.
(** an edge: two vertices of a cell *)
Definition cell_edges (c : list nat) : list (nat * nat) :=
  flat_map (fun i => map (fun j => (nth i c 0%nat, nth j c 0%nat)) (seq (S i) (List.length c - S i))) (seq 0 (List.length c)).
(** locate_entities(mesh, dim, marker): the cells all of whose vertices are marked *)
Definition locate_cells (m : mesh) (marker : list R -> bool) : list nat :=
  filter (fun c => forallb (fun v => marker (nth v (m_pts m) [])) (nth c (m_cells m) [])) (seq 0 (List.length (m_cells m))).
(** compute_incident_entities(.., cells, 2, 1): the edges of the cells.  Up to dolfinx
    0.6 the first argument is the mesh, from 0.7 on its topology *)
Inductive first_arg : Type := AMesh | ATopology.
Definition compute_incident_edges (v07 : bool) (a : first_arg) (m : mesh) (cells : list nat) : res (list (nat * nat)) :=
  match v07, a with
  | false, AMesh | true, ATopology => Ok (flat_map (fun c => cell_edges (nth c (m_cells m) [])) cells)
  | _, _ => Err TypeError
  end.
(** refine_all (meshes.py:220-221, 310-311, 421-422, 850-851): x[0] >= 0 *)
Definition refine_all (x : list R) : bool := if Rle_dec 0 (nth 0 x 0) then true else false.

Section Meshes.
  (** the external parts *)
  Variable auto_tag : list geo -> nat -> Z.                  (* tag chosen by gmsh *)
  Variable entities : list geo -> nat -> list Z.             (* getEntities(dim) *)
  Variable com : list geo -> ent -> list R.                  (* getCenterOfMass *)
  Variable fragments : list geo -> list ent.                 (* result of the last fragment *)
  Variable msh_file : R -> list geo -> list group -> mio.    (* generated mesh as written to mesh.msh *)
  Variable nodes : gstate -> list Z * list R.                (* getNodes: node numbers, flat coordinates *)
  Variable elements : gstate -> list (nat * list Z).         (* getElements(dim=2): type and node numbers *)
  Variable num_nodes : nat -> nat.                           (* of an element type *)
  Variable perm : nat -> list nat.                           (* perm_gmsh *)
  Variable build : list (list R) -> list (list nat) -> mesh. (* read_mesh / create_mesh *)
  Variable build_z : list (list R) -> list (list Z) -> res mesh. (* create_mesh from node numbers *)
  Variable model_mesh : gstate -> mesh.                      (* gmshio.model_to_mesh *)
  Variable refine : mesh -> list (nat * nat) -> mesh.
  Variable refine_uniform : mesh -> mesh.
  Variable v07 : bool.                                       (* dolfinx 0.7 or later *)
  (** the rank, and the xdmf file as the other ranks find it *)
  Variable rank : nat.
  Variable remote : option mio.

  Definition add_rectangle_auto (x y z dx dy : R) : M gstate Z :=
    do s <- get; let t := auto_tag (g_geo s) 2 in occ (Rect x y z dx dy t) ;; ret t.
  Definition get_entities (dim : nat) : M gstate (list ent) :=
    in_session (do s <- get; ret (map (fun t => (dim, t)) (entities (g_geo s) dim))).
  Definition center_of_mass (e : ent) : M gstate (list R) := in_session (do s <- get; ret (com (g_geo s) e)).
  (** gmsh.write("mesh.msh") *)
  Definition write_msh : M gstate unit := in_session (modify (fun s =>
    mkG (g_open s) (g_factor s) (g_geo s) (g_groups s) (g_meshed s) (g_order s)
        (Some (msh_file (g_factor s) (g_geo s) (g_groups s))) (g_xdmf s))).

  (** the loop "its = 1; for surface in getEntities(dim=2)" (meshes.py:364-369 and
      repeated in 463-468, 594-599, 708-713, 792-797, 900-905) *)
  Definition number_surfaces : M gstate unit :=
    do ss <- get_entities 2;
    (fix go (its : Z) (l : list ent) : M gstate unit :=
       match l with
       | [] => ret tt
       | e :: l' => do _ <- center_of_mass e; add_group (mkGroup 2 [snd e] (Some its)) ;; go (its + 1)%Z l'
       end) 1%Z ss.
  (** the loop collecting bnd_square (meshes.py:68-78 and repeated in 170-180,
      263-273, 372-382, 471-481, 602-612, 800-810) *)
  Definition on_square (c : list R) : bool :=
    isclose (nth 0 c 0) 0 || isclose (nth 0 c 0) 1 || isclose (nth 1 c 0) 0 || isclose (nth 1 c 0) 1.
  Definition boundary_group : M gstate unit :=
    do ls <- get_entities 1;
    do bnd <- (fix go (l : list ent) : M gstate (list Z) :=
       match l with
       | [] => ret []
       | e :: l' => do c <- center_of_mass e; do r <- go l'; ret (if on_square c then snd e :: r else r)
       end) ls;
    add_group (mkGroup 1 bnd (Some 1%Z)).
  (** the loop marking surfaces by their centre (meshes.py:57-65, 159-167, 251-259):
      centre close to c1: m1, to c2: m2, otherwise m3 *)
  Definition mark_surfaces (c1 c2 : list R) (m1 m2 m3 : Z) : M gstate unit :=
    do ss <- get_entities 2;
    for_each ss (fun e => do c <- center_of_mass e;
      if allclose c c1 then add_group (mkGroup 2 [snd e] (Some m1))
      else if allclose c c2 then add_group (mkGroup 2 [snd e] (Some m2))
      else add_group (mkGroup 2 [snd e] (Some m3))).

  (** from mesh.msh over xdmf to the mesh (meshes.py:83-113, 185-215, 278-305, 387-416,
      815-845): rank 0 reads mesh.msh, drops z, writes mesh.xdmf; every rank reads it *)
  Definition prune_z (f : mio) : mio := mkMio (map (firstn 2) (io_points f)) (io_cells f) (io_data f).
  Definition through_xdmf : M gstate mesh :=
    (if Nat.eqb rank 0 then
       do s <- get; do f <- need (g_msh s) RuntimeError;
       modify (fun s => mkG (g_open s) (g_factor s) (g_geo s) (g_groups s) (g_meshed s) (g_order s) (g_msh s) (Some (prune_z f)))
     else ret tt) ;;
    do s <- get;
    do f <- need (if Nat.eqb rank 0 then g_xdmf s else remote) RuntimeError;
    ret (build (io_points f) (io_cells f "triangle"%string)).

  (** the refinement loops (meshes.py:223-229, 313-321, 424-431, 853-866).  [a]: the first
      argument passed to compute_incident_entities *)
  Fixpoint refinements (a : first_arg) (n_ref : nat) (m : mesh) : res (list mesh) :=
    match n_ref with
    | 0%nat => Ok []
    | S n => rbind (compute_incident_edges v07 a m (locate_cells m refine_all)) (fun edges =>
             let m' := refine m edges in
             rbind (refinements a n m') (fun l => Ok (m' :: l)))
    end.
  Definition hierarchy (a : first_arg) (n_ref : nat) (m : mesh) : res (list mesh) :=
    rbind (refinements a n_ref m) (fun l => Ok (m :: l)).

  (** ** the geometries *)
  (** meshes.py:38-51 and 140-153 *)
  Definition geo_convex : M gstate unit :=
    occ (Rect 0 0 0 1 1 1) ;; occ (Rect 0.1 0.25 0 0.8 0.75 2) ;;
    occ (Cut [(2%nat, 1%Z)] [(2%nat, 2%Z)] 3) ;;
    occ (Rect 0.1 0.25 0 0.8 0.7 4) ;;
    occ (Fragment [(2%nat, 3%Z)] [(2%nat, 4%Z)]) ;;
    occ (Rect 0.1 0.95 0 0.8 0.05 6) ;;
    occ (Fragment [(2%nat, 3%Z)] [(2%nat, 4%Z); (2%nat, 6%Z)]) ;;
    synchronize.
  Definition marks_convex : M gstate unit :=
    mark_surfaces [0.5; 0.6; 0] [0.5; 0.975; 0] 2 3 1 ;; boundary_group ;; generate ;; write_msh.
  (** create_initial_mesh_convex (meshes.py:22-113) *)
  Definition create_initial_mesh_convex (h : R) : M gstate mesh :=
    initialize ;; set_factor h ;;
    (if Nat.eqb rank 0 then geo_convex ;; marks_convex ;; finalize else ret tt) ;;
    through_xdmf.
  (** get_mesh_hierarchy (meshes.py:124-229) *)
  Definition get_mesh_hierarchy (n_ref : nat) (h : R) : M gstate (list mesh) :=
    initialize ;; set_factor h ;;
    (if Nat.eqb rank 0 then geo_convex ;; marks_convex else ret tt) ;;
    finalize ;;
    do m <- through_xdmf; lift (hierarchy AMesh n_ref m).
  (** get_mesh_hierarchy_nonconvex (meshes.py:232-321) *)
  Definition geo_nonconvex : M gstate unit :=
    occ (Rect 0.25 0.05 0 0.5 0.45 1) ;; occ (Rect 0.125 0.05 0 0.75 0.9 2) ;; occ (Rect 0 0 0 1 1 3) ;;
    occ (Fragment [(2%nat, 3%Z)] [(2%nat, 1%Z); (2%nat, 2%Z)]) ;; synchronize.
  Definition get_mesh_hierarchy_nonconvex (n_ref : nat) (h : R) : M gstate (list mesh) :=
    initialize ;; set_factor h ;;
    (if Nat.eqb rank 0 then
       geo_nonconvex ;; mark_surfaces [0.5; 0.275; 0] [0.5; 0.5; 0] 1 2 3 ;; boundary_group ;; generate ;; write_msh
     else ret tt) ;;
    finalize ;;
    do m <- through_xdmf; lift (hierarchy AMesh n_ref m).
  (** get_mesh_hierarchy_fitted_disc (meshes.py:324-431) *)
  Definition geo_fitted_disc (eta : R) : M gstate unit :=
    let y_eta := eta - 0.25 in
    occ (Rect 0 0 0 1 eta 1) ;; occ (Rect 0.1 0.25 0 0.8 y_eta 2) ;; occ (Cut [(2%nat, 1%Z)] [(2%nat, 2%Z)] 3) ;;
    occ (Rect 0.1 0.25 0 0.8 y_eta 4) ;; occ (Rect 0.1 y_eta 0 0.8 (0.95 - y_eta) 5) ;; occ (Rect 0 y_eta 0 1 (1 - y_eta) 6) ;;
    occ (Fragment [(2%nat, 3%Z)] [(2%nat, 4%Z); (2%nat, 5%Z); (2%nat, 6%Z)]) ;; synchronize.
  Definition get_mesh_hierarchy_fitted_disc (n_ref : nat) (eta h : R) : M gstate (list mesh) :=
    initialize ;; set_factor h ;;
    (if Nat.eqb rank 0 then geo_fitted_disc eta ;; number_surfaces ;; boundary_group ;; generate ;; write_msh ;; finalize else ret tt) ;;
    do m <- through_xdmf; lift (hierarchy AMesh n_ref m).
  (** get_mesh_data_all_around (meshes.py:766-866) *)
  Definition geo_all_around : M gstate unit :=
    occ (Rect 0 0 0 1 1 1) ;; occ (Rect 0.2 0.2 0 0.6 0.6 2) ;; occ (Cut [(2%nat, 1%Z)] [(2%nat, 2%Z)] 3) ;;
    occ (Rect 0.2 0.2 0 0.6 0.6 4) ;; occ (Fragment [(2%nat, 3%Z)] [(2%nat, 4%Z)]) ;; synchronize.
  Definition get_mesh_data_all_around (n_ref : nat) (h : R) : M gstate (list mesh) :=
    initialize ;; set_factor h ;;
    (if Nat.eqb rank 0 then geo_all_around ;; number_surfaces ;; boundary_group ;; generate ;; write_msh else ret tt) ;;
    finalize ;;
    do m <- through_xdmf; lift (hierarchy (if v07 then ATopology else AMesh) n_ref m).
  (** get_3d_mesh_data_all_around (meshes.py:869-932); issued on every rank *)
  Definition get_3d_mesh_data_all_around (n_ref : nat) (h : R) : M gstate (list mesh) :=
    initialize ;; set_factor h ;;
    occ (Box 0 0 0 1 1 1 1) ;; occ (Box 0.2 0.2 0.2 0.6 0.6 0.6 2) ;; occ (Cut [(3%nat, 1%Z)] [(3%nat, 2%Z)] 3) ;;
    occ (Box 0.2 0.2 0.2 0.6 0.6 0.6 4) ;;
    occ (Fragment [(3%nat, 3%Z)] [(3%nat, 4%Z)]) ;;
    occ (Fragment [(2%nat, 3%Z)] [(2%nat, 4%Z)]) ;;
    do s <- get; let ov := fragments (g_geo s) in
    synchronize ;;
    for_each ov (fun e => add_group (mkGroup 3 [snd e] None)) ;;
    number_surfaces ;; generate ;;
    do s <- get; let m := model_mesh s in
    ret (m :: (fix go n m := match n with 0%nat => [] | S n' => let m' := refine_uniform m in m' :: go n' m' end) n_ref m).

  (** ** meshes built from gmsh's own node and element lists *)
  (** [point for i, point in enumerate(points) if (i + 1) % 3 != 0] (meshes.py:489, 621, 726) *)
  Definition drop_third (l : list R) : list R :=
    map snd (filter (fun '(i, _) => negb (Nat.eqb ((i + 1) mod 3) 0)) (combine (seq 0 (List.length l)) l)).
  (** meshes.py:488-497 (same in 620-629 and 725-734): the sorted points *)
  Definition sorted_points (idx : list Z) (points : list R) : res (list (list R)) :=
    rbind (reshape 2 (drop_third points)) (fun pts =>
    let idx := map (fun z => (z - 1)%Z) idx in
    let srt := argsort idx in
    if forallb (fun '(a, b) => Z.eqb a b) (combine (gather_rows 0%Z idx srt) (arange (List.length idx)))
    then Err RuntimeError
    else Ok (gather_rows [] pts srt)).
  (** meshes.py:499-516 (same in 631-648, 736-753): the cells.  The result is None where
      element_types[0] would fail *)
  Definition cells_of (els : list (nat * list Z)) : res (list (list Z)) :=
    match els with
    | [] => Err IndexError
    | (ty, tags) :: _ =>
        rbind (reshape (num_nodes ty) tags) (fun c =>
        Ok (map (fun row => let row := map (fun z => (z - 1)%Z) row in map (fun p => nth p row 0%Z) (perm (num_nodes ty))) c))
    end.
  (** the common tail (meshes.py:484-526, 617-660, 721-763).  [undef]: the call of the
      undefined ufl_mesh_from_gmsh in line 653 *)
  Definition from_nodes (order : nat) (undef : bool) : M gstate mesh :=
    set_order order ;;
    do np <- in_session (do s <- get; ret (nodes s));
    do x <- lift (sorted_points (fst np) (snd np));
    do els <- in_session (do s <- get; ret (elements s));
    do cells <- lift (cells_of els);
    finalize ;;
    (if undef then raise NameError else ret tt) ;;
    lift (build_z x cells).
  (** get_mesh_inclusion (meshes.py:434-526) *)
  Definition geo_inclusion : M gstate unit :=
    occ (Rect (-1.5) (-1.5) 0 3 3 1) ;; occ (Rect (-1.25) (-1.25) 0 2.5 2.75 2) ;; occ (Cut [(2%nat, 1%Z)] [(2%nat, 2%Z)] 3) ;;
    do target <- add_rectangle_auto (-0.5) (-0.5) 0 1 1;
    occ (Disk 0 0 0 1 1 2) ;; synchronize ;;
    do rem <- add_rectangle_auto (-1.25) (-1.25) 0 2.5 2.75;
    occ (Fragment [(2%nat, 3%Z)] [(2%nat, target); (2%nat, 2%Z); (2%nat, rem)]) ;; synchronize.
  Definition get_mesh_inclusion (h : R) (order : nat) : M gstate mesh :=
    initialize ;; model_add ;; set_factor h ;;
    (if Nat.eqb rank 0 then geo_inclusion ;; number_surfaces ;; boundary_group ;; generate ;; write_msh else ret tt) ;;
    from_nodes order false.
  (** get_mesh_inclusion_square (meshes.py:529-660) *)
  Definition geo_inclusion_square (x_l x_r y_l y_r eta : R) : M gstate unit :=
    occ (Rect (-1.5) (-1.5) 0 3 (1.5 + eta) 1) ;; occ (Rect (-1.25) (-1.25) 0 2.5 (1.15 + eta) 2) ;;
    occ (Cut [(2%nat, 1%Z)] [(2%nat, 2%Z)] 3) ;;
    (if Rlt_dec eta 1.5 then
       do tm <- add_rectangle_auto x_l y_l 0 (x_r - x_l) (eta - y_l);
       do tp <- add_rectangle_auto x_l eta 0 (x_r - x_l) (y_r - eta);
       do mu <- add_rectangle_auto (-0.75) (-0.75) 0 1.5 1.5;
       do rt <- add_rectangle_auto (-1.5) eta 0 3 (1.5 - eta);
       synchronize ;;
       occ (Fragment [(2%nat, 3%Z)] [(2%nat, tm); (2%nat, mu); (2%nat, tp); (2%nat, rt)]) ;; synchronize
     else
       do tm <- add_rectangle_auto x_l y_l 0 (x_r - x_l) (y_r - y_l);
       do mu <- add_rectangle_auto (-0.75) (-0.75) 0 1.5 1.5;
       do rm <- add_rectangle_auto (-1.25) (-1.25) 0 2.5 2.75;
       synchronize ;;
       occ (Fragment [(2%nat, 3%Z)] [(2%nat, tm); (2%nat, mu); (2%nat, rm)])) ;;
    synchronize.
  Definition get_mesh_inclusion_square (h x_l x_r y_l y_r eta : R) : M gstate mesh :=
    initialize ;; model_add ;; set_factor h ;;
    (if Nat.eqb rank 0 then geo_inclusion_square x_l x_r y_l y_r eta ;; number_surfaces ;; boundary_group ;; generate ;; write_msh else ret tt) ;;
    from_nodes 1 true.
  (** get_mesh_bottom_data (meshes.py:663-763) *)
  Definition geo_bottom (eta : R) : M gstate unit :=
    occ (Rect 0 0 0 1 0.25 1) ;; occ (Rect 0 0.25 0 0.25 (eta - 0.25) 2) ;; occ (Rect 0.75 0.25 0 0.25 (eta - 0.25) 3) ;;
    occ (Rect 0.25 0.25 0 0.5 (eta - 0.25) 4) ;; occ (Rect 0.25 eta 0 0.5 (0.9 - eta) 5) ;; occ (Rect 0 eta 0 0.25 (1 - eta) 6) ;;
    occ (Rect 0.25 eta 0 0.5 (1 - eta) 7) ;; occ (Rect 0.75 eta 0 0.25 (1 - eta) 8) ;; synchronize ;;
    occ (Fragment [(2%nat, 1%Z)] [(2%nat, 4%Z); (2%nat, 2%Z); (2%nat, 3%Z); (2%nat, 5%Z); (2%nat, 6%Z); (2%nat, 7%Z); (2%nat, 8%Z)]) ;; synchronize.
  Definition get_mesh_bottom_data (h eta : R) : M gstate mesh :=
    initialize ;; model_add ;; set_factor h ;;
    (if Nat.eqb rank 0 then geo_bottom eta ;; number_surfaces ;; generate ;; write_msh else ret tt) ;;
    from_nodes 1 false.
End Meshes.

(** get_mesh_convex (meshes.py:116-121); [remote j]: the xdmf file as the other ranks find
    it in the j-th round *)
Fixpoint mesh_convex_from entities com msh_file build (rank : nat) (remote : nat -> option mio) (j n : nat) (h : R) : M gstate (list mesh) :=
  match n with
  | 0%nat => ret []
  | S n' => do m <- create_initial_mesh_convex entities com msh_file build rank (remote j) (h / 2 ^ j);
            do l <- mesh_convex_from entities com msh_file build rank remote (S j) n' h; ret (m :: l)
  end.
Definition get_mesh_convex entities com msh_file build rank remote (n_ref : nat) (h : R) : M gstate (list mesh) :=
  mesh_convex_from entities com msh_file build rank remote 0 n_ref h.
