(** MeshFiles.v -- the conversion of mesh.msh to mesh.xdmf and mt.xdmf in
    /repo/src/dxss/meshes.py, block by block.  MeshModel.v keeps of mesh.msh only
    the cells of each type (mio); here the file is a list of cell blocks, as meshio
    reads it, and create_mesh can fail.  Trusted: meshio's get_cells_type,
    get_cell_data and the checks of its Mesh constructor, as described below. *)
From Coq Require Import Reals List ZArith Bool String Lia.
From Verif Require Import Base MeshModel.
Import ListNotations.
Open Scope string_scope.

(** what meshio.read returns: points, cell blocks of one type each, and for each name
    of cell data one array per block *)
Record mshfile : Type := mkMsh {
  f_points : list (list R); f_blocks : list (string * list (list nat)); f_data : string -> option (list (list Z)) }.
(** a meshio.Mesh with one block, and its data "name_to_read" *)
Record xfile : Type := mkX { x_points : list (list R); x_type : string; x_cells : list (list nat); x_data : list Z }.

(** mesh.get_cells_type: all blocks of a type in one array, empty if there is none *)
Definition get_cells_type (f : mshfile) (ct : string) : list (list nat) :=
  flat_map (fun b => if String.eqb (fst b) ct then snd b else []) (f_blocks f).
(** mesh.get_cell_data: KeyError for an unknown name; np.concatenate of no array is a
    ValueError *)
Definition get_cell_data (f : mshfile) (name ct : string) : res (list Z) :=
  match f_data f name with
  | None => Err KeyError
  | Some ds =>
      match filter (fun p => String.eqb (fst (fst p)) ct) (combine (f_blocks f) ds) with
      | [] => Err ValueError
      | sel => Ok (flat_map snd sel)
      end
  end.
(** meshio.Mesh(points, {ct: cells}, {"name_to_read": [data]}): the data must have one
    entry per cell *)
Definition meshio_mesh (pts : list (list R)) (ct : string) (cells : list (list nat)) (data : list Z) : res xfile :=
  if Nat.eqb (List.length data) (List.length cells) then Ok (mkX pts ct cells data) else Err ValueError.
(** create_mesh (meshes.py:85-93, 187-195, 280-288, 389-397, 817-825) *)
Definition create_mesh_file (f : mshfile) (ct : string) (prune : bool) : res xfile :=
  let cells := get_cells_type f ct in
  rbind (get_cell_data f "gmsh:physical" ct) (fun data =>
  meshio_mesh (if prune then map (firstn 2) (f_points f) else f_points f) ct cells data).

(** the files in the working directory *)
Record files : Type := mkFiles { w_msh : option mshfile; w_mesh : option xfile; w_mt : option xfile }.
(** rank 0 (meshes.py:95-103, 197-205, 290-297, 399-407, 827-835): both meshes are
    made before the first is written *)
Definition convert : M files unit :=
  do s <- get; do f <- need (w_msh s) RuntimeError;
  do tri <- lift (create_mesh_file f "triangle" true);
  do line <- lift (create_mesh_file f "line" true);
  modify (fun s => mkFiles (w_msh s) (Some tri) (w_mt s)) ;;
  modify (fun s => mkFiles (w_msh s) (w_mesh s) (Some line)).
(** every rank (meshes.py:107-112, 209-215, 300-305, 411-416, 839-845); the tags read are
    dropped by the code.  [far]: the two files as the other ranks see them *)
Definition read_files (build : list (list R) -> list (list nat) -> mesh) (rank : nat) (far : option xfile * option xfile) : M files mesh :=
  do s <- get;
  do f <- need (if Nat.eqb rank 0 then w_mesh s else fst far) RuntimeError;
  let m := build (x_points f) (x_cells f) in
  do _ <- need (if Nat.eqb rank 0 then w_mt s else snd far) RuntimeError;
  ret m.
Definition through_files build (rank : nat) far : M files mesh :=
  (if Nat.eqb rank 0 then convert else ret tt) ;; read_files build rank far.
