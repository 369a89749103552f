(** MpiModel.v -- a run of the code on several MPI processes.

    The other files of the model describe one process.  Here a mesh and its
    spaces are distributed as DOLFINx does it: every cell (so every quadrature
    point) belongs to one rank, every node to one rank, and a rank also keeps the
    nodes of its cells that other ranks own (ghosts).  All dofs of a node are on
    the same ranks.  On a rank
    - [Vec.array] of a PETSc vector shows the owned entries only,
    - [Function.x.array] shows the owned entries followed by the ghosts,
    - V.sub(j).sub(i).collapse()[1] lists local numbers of owned and ghost dofs,
    - assemble_scalar and assemble_vector see the rank's own cells; the second
      does not send what it adds to ghost entries to their owners,
    - Mat.assemble() and comm.allreduce(.., MPI.SUM) add up over the ranks. *)
From Coq Require Import Reals List Lia Bool Permutation.
From Verif Require Import Base FormModel SpaceTimeForms SpaceTimeModel.
Import ListNotations.
Open Scope R_scope.
Open Scope monad_scope.

(** * Distribution *)
Record split : Type := mkSplit {
  sp_n : nat;                          (* number of ranks *)
  sp_cell : meas -> nat -> nat;        (* rank of a quadrature point *)
  sp_owner : fsp -> nat -> nat;        (* owner of a node *)
  sp_ghost : nat -> fsp -> list nat }. (* ghost nodes of a rank *)
Record split_ok (D : disc) (S : split) : Prop := {
  so_cell : forall m p, In p (d_pts D m) -> (sp_cell S m p < sp_n S)%nat;
  so_owner : forall s l, (l < d_dim D s)%nat -> (sp_owner S s l < sp_n S)%nat;
  so_ghost : forall r s l, In l (sp_ghost S r s) -> (l < d_dim D s)%nat /\ sp_owner S s l <> r;
  so_nodup : forall r s, NoDup (sp_ghost S r s);
  so_local : forall m s o l p k, In p (d_pts D m) -> (l < d_dim D s)%nat -> d_tab D m s o l p k <> 0 ->
    sp_owner S s l = sp_cell S m p \/ In l (sp_ghost S (sp_cell S m p) s) }.
Definition owned (D : disc) (S : split) (r : nat) (s : fsp) : list nat :=
  filter (fun l => Nat.eqb (sp_owner S s l) r) (seq 0 (d_dim D s)).
(** the mesh as rank r sees it *)
Definition local_disc (D : disc) (S : split) (r : nat) : disc := {|
  d_gd := d_gd D; d_pts := fun m => filter (fun p => Nat.eqb (sp_cell S m p) r) (d_pts D m);
  d_w := d_w D; d_x := d_x D; d_h := d_h D; d_hp := d_hp D; d_hm := d_hm D; d_dim := d_dim D; d_tab := d_tab D |}.

(** * Local numbering of a mixed space: owned dofs, then ghosts, in any order *)
Record numbering : Type := mkNum { nu_own : nat -> list nat; nu_gh : nat -> list nat }.
Definition dofs_of (nb : nat) (nc : nat -> nat) (L : layout) (nodes : fsp -> list nat) : list nat :=
  flat_map (fun j => flat_map (fun i => map (dof L j i) (nodes (spc j))) (seq 0 (nc j))) (seq 0 nb).
Definition numbers (D : disc) (S : split) (nb : nat) (nc : nat -> nat) (L : layout) (nu : numbering) : Prop :=
  forall r, Permutation (nu_own nu r) (dofs_of nb nc L (owned D S r)) /\ Permutation (nu_gh nu r) (dofs_of nb nc L (sp_ghost S r)).
Fixpoint index_of (x : nat) (l : list nat) : nat :=
  match l with [] => 0 | y :: l => if Nat.eqb y x then 0 else S (index_of x l) end.
(** dofmaps_*[j][i] on rank r (space_time.py:267-334) *)
Definition local_map (D : disc) (S : split) (L : layout) (nu : numbering) (r j i : nat) : list nat :=
  map (fun l => index_of (dof L j i l) (nu_own nu r ++ nu_gh nu r)) (owned D S r (spc j) ++ sp_ghost S r (spc j)).
(** Vec.array of a global vector on rank r *)
Definition vec_array (nu : numbering) (r : nat) (x : vec) : list R := map x (nu_own nu r).

(** * numpy on a rank *)
(** a[idx] *)
Definition take (a : list R) (idx : list nat) : res (list R) :=
  if forallb (fun i => Nat.ltb i (length a)) idx then Ok (map (fun i => nth i a 0) idx) else Err IndexError.
(** a[idx] = vals, a[idx] += vals *)
Fixpoint set_nth (a : list R) (i : nat) (v : R) : list R :=
  match a, i with [], _ => [] | _ :: a, O => v :: a | y :: a, S i => y :: set_nth a i v end.
Fixpoint set_all (a : list R) (idx : list nat) (vals : list R) : list R :=
  match idx, vals with i :: idx, v :: vals => set_all (set_nth a i v) idx vals | _, _ => a end.
Definition store (add : bool) (a : list R) (idx : list nat) (vals : list R) : res (list R) :=
  rbind (take a idx) (fun old =>
  if negb (Nat.eqb (length vals) (length idx)) then Err ValueError
  else Ok (set_all a idx (if add then map2 Rplus old vals else vals))).

(** * The code *)
Section Rank.
  Variables (D : disc) (S : split) (Ld Ls : layout) (nd ns : numbering) (r : nat).
  (** the copying loops: dst.array[dofmaps_d[..]] = (or +=) src.array[dofmaps_s[..]].
      With the pairs of slab 0 these are the statements of apply_spacetime_matrix
      (space_time.py:1143-1149), pre_time_marching (1230-1235) and
      pre_time_marching_improved (1281-1286) before their first collective
      operation.  The destination array is the state. *)
  Definition copy_rank (add : bool) (prs : pairs) (src : list R) : M (list R) unit :=
    for_each prs (fun '((jd, id), (js, is)) =>
      do v <- lift (take src (local_map D S Ls ns r js is));
      do a <- get;
      do a' <- lift (store add a (local_map D S Ld nd r jd id) v);
      modify (fun _ => a')).
End Rank.
(** uh.x.array[:] = u_inp.array[:] (space_time.py:1459; also 1596, 1717, 1830) *)
Definition load_rank (nu : numbering) (r : nat) (u : vec) : res (list R) :=
  np_assign (length (nu_own nu r) + length (nu_gh nu r)) (vec_array nu r u).
(** setup_rhs (space_time.py:786-789): the entries of the owned dofs, own cells only *)
Definition rhs_rank (D : disc) (S : split) (L : layout) (nu : numbering) (r : nat) (f : lform) : list R :=
  map (assemble_vec (local_disc D S r) L f) (nu_own nu r).
(** comm.allreduce(assemble_scalar(form), op=MPI.SUM): the result on every rank *)
Definition allreduce (n : nat) (local : nat -> R) : R := sumn n local.
(** A.assemble() *)
Definition assemble_ranks (D : disc) (S : split) (L : layout) (f : bform) : matrix :=
  fun I J => sumn (sp_n S) (fun r => assemble (local_disc D S r) L f I J).

(** * get_gmres_solution on several processes *)
(** PETSC_DECIDE: rows of rank r when a size N is spread over n ranks *)
Definition petsc_share (n N r : nat) : nat := (N / n + (if Nat.ltb r (N mod n) then 1 else 0))%nat.
(** b.getSize() (gmres.py:53): the owned entries of all ranks *)
Definition vec_size (n : nat) (nu : numbering) : nat := fold_right Nat.add 0%nat (map (fun r => length (nu_own nu r)) (seq 0 n)).
(** gmres.py:53-95 on rank r.  createPython(N, context) is given no local size, so PETSc
    spreads the rows evenly, and createVecRight follows it; b has the distribution of the
    finite element space.  ksp.solve(b, x) compares the local sizes before it calls the
    preconditioner. *)
Definition solve_rank (n : nat) (nu : numbering) (r : nat) : res unit :=
  let N := vec_size n nu in
  let rows := petsc_share n N r in
  if Nat.eqb (length (nu_own nu r)) rows then Ok tt else Err PETScError.
