(** DriverModel.v -- the example drivers /repo/src/dxss/solve_1d.py, solve_2d.py,
    solve_3d.py, and get_sparse_matrix and ProblemParameters of space_time.py.

    PyPardiso and PETSc's LU are external (any functions).  Left out: timing,
    printing, meshes (MeshModel.v), the constants of the STABS tables. *)
From Coq Require Import Reals List ZArith Lra Lia Bool String.
From Verif Require Import Base TimeModel FormModel SpaceTimeForms SpaceTimeModel ErrorsModel GmresModel.
Import ListNotations.
Open Scope R_scope.
Open Scope monad_scope.

(** * Sparse matrices *)
(** compressed rows: row starts, column indices, values *)
Record csr : Type := mkCsr { ai : list nat; aj : list nat; av : list R }.
(** a PETSc matrix: shape and stored entries *)
Record pmat : Type := mkPmat { pm_rows : nat; pm_cols : nat; pm_csr : csr }.
(** a scipy.sparse.csr_matrix *)
Record spmat : Type := mkSp { sp_rows : nat; sp_cols : nat; sp_data : list R; sp_indices : list nat; sp_indptr : list nat }.

(** entry (i, j): the sum of the stored values of row i with column j *)
Definition row_of (ptr : list nat) (i : nat) : list nat := seq (nth i ptr 0%nat) (nth (S i) ptr 0%nat - nth i ptr 0%nat).
Definition csr_entry (ptr idx : list nat) (val : list R) (i j : nat) : R :=
  Rsum (row_of ptr i) (fun k => if Nat.eqb (nth k idx 0%nat) j then nth k val 0 else 0).
Definition pm_entry (A : pmat) : nat -> nat -> R := csr_entry (ai (pm_csr A)) (aj (pm_csr A)) (av (pm_csr A)).
Definition sp_entry (A : spmat) : nat -> nat -> R := csr_entry (sp_indptr A) (sp_indices A) (sp_data A).

(** Mat.getValuesCSR *)
Definition getValuesCSR (A : pmat) : list nat * list nat * list R := (ai (pm_csr A), aj (pm_csr A), av (pm_csr A)).
(** scipy.sparse.csr_matrix((data, indices, indptr)) without a shape: the number
    of rows is len(indptr) - 1, the number of columns is max(indices) + 1 (which
    fails without indices); consistency checks of check_format *)
Definition csr_matrix (data : list R) (indices indptr : list nat) : res spmat :=
  match indices with
  | [] => Err ValueError
  | _ =>
    if Nat.eqb (nth 0 indptr 0%nat) 0 && Nat.eqb (List.length indices) (List.length data)
       && Nat.leb (last indptr 0%nat) (List.length indices) && Nat.leb 1 (List.length indptr)
    then Ok (mkSp (List.length indptr - 1) (S (list_max indices)) data indices indptr)
    else Err ValueError
  end.
(** get_sparse_matrix (space_time.py:68-70) *)
Definition get_sparse_matrix (A : pmat) : res spmat :=
  let '(ai, aj, av) := getValuesCSR A in csr_matrix av aj ai.

(** * PySolver (solve_1d.py:44-58, solve_2d.py:43-57, solve_3d.py) *)
(** the PyPardiso object: _check_A, _check_b, _call_pardiso (with the phase set) *)
Record pardiso : Type := mkPd {
  pd_check_A : spmat -> res unit;
  pd_check_b : spmat -> list R -> res (list R);
  pd_call : nat -> spmat -> list R -> res (list R) }.
(** its phase, and the vectors *)
Record pstate : Type := mkPs { ps_phase : nat; ps_heap : nat -> list R }.
(** x_out.array[:] = v[:] : numpy assignment *)
Definition array_assign (old new : list R) : res (list R) :=
  if Nat.eqb (List.length new) (List.length old) then Ok new
  else match new with [a] => Ok (map (fun _ => a) old) | _ => Err ValueError end.
Definition PySolver_solve (A : spmat) (pd : pardiso) (b_inp x_out : nat) : M pstate unit :=
  lift (pd_check_A pd A) ;;
  do s <- get;
  do b <- lift (pd_check_b pd A (ps_heap s b_inp));
  modify (fun s => mkPs 33 (ps_heap s)) ;;
  do s <- get;
  do r <- lift (pd_call pd (ps_phase s) A b);
  do a <- lift (array_assign (ps_heap s x_out) r);
  modify (fun s => mkPs (ps_phase s) (fun k => if Nat.eqb k x_out then a else ps_heap s k)).
(** PySolver.__init__: the flag tells whether it warns *)
Definition PySolver_init (have_pypardiso : bool) (A : spmat) (pd : pardiso) : (spmat * pardiso) * bool :=
  ((A, pd), negb have_pypardiso).
(** as a slab solver of a SpaceTime object: vectors of n entries *)
Definition entries (n : nat) (v : vec) : list R := map v (seq 0 n).
Definition py_solver (n : nat) (A : spmat) (pd : pardiso) (phase : nat) : solver := fun b x =>
  match PySolver_solve A pd 0 1 (mkPs phase (fun k => if Nat.eqb k 0 then entries n b else entries n x)) with
  | (Ok _, s) => Ok (of_list (ps_heap s 1%nat))
  | (Err e, _) => Err e
  end.

(** * ProblemParameters (space_time.py:55-61) *)
Record problem_parameters : Type := mkPP { jumps_in_fw_problem : bool; well_posed : bool }.
(** dataclasses.fields in order of definition, getattr, __iter__ *)
Definition pp_fields : list string := ["jumps_in_fw_problem"; "well_posed"]%string.
Definition pp_getattr (p : problem_parameters) (name : string) : res bool :=
  if String.eqb name "jumps_in_fw_problem" then Ok (jumps_in_fw_problem p)
  else if String.eqb name "well_posed" then Ok (well_posed p) else Err AttributeError.
Fixpoint pp_collect (p : problem_parameters) (l : list string) : res (list bool) :=
  match l with
  | [] => Ok []
  | f :: l => rbind (pp_getattr p f) (fun v => rbind (pp_collect p l) (fun r => Ok (v :: r)))
  end.
Definition pp_iter (p : problem_parameters) : res (list bool) := pp_collect p pp_fields.
(** a, b = parameters (space_time.py:124) *)
Definition unpack2 (l : res (list bool)) : res (bool * bool) :=
  rbind l (fun l => match l with [a; b] => Ok (a, b) | _ => Err ValueError end).

(** * Indicator functions *)
(** points as columns: x[k] is the k-th row *)
Definition points := list (list R).
Definition row (x : points) (k : nat) : list R := map (fun p => nth k p 0) x.
Definition le_ (v : list R) (c : R) : list bool := map (fun a => if Rle_dec a c then true else false) v.
Definition ge_ (v : list R) (c : R) : list bool := map (fun a => if Rle_dec c a then true else false) v.
(** np.logical_or, np.logical_and on equally long arrays, np.invert *)
Fixpoint zip_with (f : bool -> bool -> bool) (a b : list bool) : res (list bool) :=
  match a, b with
  | [], [] => Ok []
  | x :: a, y :: b => rbind (zip_with f a b) (fun r => Ok (f x y :: r))
  | _, _ => Err ValueError
  end.
Definition logical_or (a : list bool) (b : res (list bool)) : res (list bool) := rbind b (zip_with orb a).
Definition logical_and (a : list bool) (b : res (list bool)) : res (list bool) := rbind b (zip_with andb a).
Definition invert (a : list bool) : list bool := map negb a.
Definition count (m : list bool) : nat := List.length (filter (fun b => b) m).
(** values[mask] = new : as many new values as marked entries (or one) *)
Fixpoint put_masked (vals : list R) (mask : list bool) (new : list R) : list R :=
  match vals, mask, new with
  | _ :: vals, true :: mask, a :: new => a :: put_masked vals mask new
  | v :: vals, false :: mask, _ => v :: put_masked vals mask new
  | _, _, _ => vals
  end.
Definition mask_assign (vals : list R) (mask : list bool) (new : list R) : res (list R) :=
  if negb (Nat.eqb (List.length mask) (List.length vals)) then Err IndexError
  else if Nat.eqb (List.length new) (count mask) then Ok (put_masked vals mask new)
  else match new with [a] => Ok (put_masked vals mask (repeat a (count mask))) | _ => Err ValueError end.
(** the common body: values = zeros; values[omega] = full(sum(omega), 1.0);
    values[rest] = full(sum(rest), 0) *)
Definition indicator_of (n : nat) (omega_coords : res (list bool)) : res (list R) :=
  let values := repeat 0 n in
  rbind omega_coords (fun omega_coords =>
  let rest_coords := invert omega_coords in
  rbind (mask_assign values omega_coords (repeat 1 (count omega_coords))) (fun values =>
  mask_assign values rest_coords (repeat 0 (count rest_coords)))).
(** solve_1d.py:82-88 *)
Definition omega_ind_convex_1d (x : points) : res (list R) :=
  indicator_of (List.length x) (logical_or (le_ (row x 0) 0.2) (Ok (ge_ (row x 0) 0.8))).
(** solve_1d.py:91-97 *)
Definition omega_ind_nogcc_1d (x : points) : res (list R) :=
  indicator_of (List.length x) (Ok (le_ (row x 0) 0.2)).
(** solve_2d.py:85-97 *)
Definition omega_ind_convex_2d (x : points) : res (list R) :=
  indicator_of (List.length x) (logical_or (le_ (row x 0) 0.2) (logical_or (ge_ (row x 0) 0.8)
    (logical_or (ge_ (row x 1) 0.8) (Ok (le_ (row x 1) 0.2))))).
(** solve_3d.py: DATA_SIZE, and omega_ind for GCC and Nx > 2 *)
Definition DATA_SIZE : R := 0.25.
Definition omega_ind_3d (x : points) : res (list R) :=
  indicator_of (List.length x) (logical_or (le_ (row x 0) DATA_SIZE) (logical_or (ge_ (row x 0) (1.0 - DATA_SIZE))
    (logical_or (ge_ (row x 1) (1.0 - DATA_SIZE)) (logical_or (le_ (row x 1) DATA_SIZE)
    (logical_or (le_ (row x 2) DATA_SIZE) (Ok (ge_ (row x 2) (1.0 - DATA_SIZE)))))))).
(** GCC and Nx <= 2: ufl.conditional(ufl.Not(...), 1, 0), at a point *)
Definition rle (a b : R) : bool := if Rle_dec a b then true else false.
Definition omega_ind_3d_ufl (p : list R) : R :=
  let c k := nth k p 0 in
  if negb ((rle DATA_SIZE (c 0%nat) && rle (c 0%nat) (1.0 - DATA_SIZE))
    && ((rle DATA_SIZE (c 1%nat) && rle (c 1%nat) (1.0 - DATA_SIZE))
    && (rle DATA_SIZE (c 2%nat) && rle (c 2%nat) (1.0 - DATA_SIZE)))) then 1 else 0.
(** not GCC: Nx > 2, and Nx <= 2 *)
Definition omega_ind_3d_side (x : points) : res (list R) :=
  indicator_of (List.length x) (logical_and (le_ (row x 0) DATA_SIZE) (Ok (ge_ (row x 0) 0.0))).
Definition omega_ind_3d_side_ufl (p : list R) : R :=
  if rle (nth 0 p 0) DATA_SIZE && rle 0.0 (nth 0 p 0) then 1 else 0.

(** * Sample solutions (solve_1d.py:100-105, solve_2d.py:100-111, solve_3d.py) *)
Definition sample_sol_1d (t : R) (xu : list R) : R := cos (2 * PI * t) * sin (2 * PI * nth 0 xu 0).
Definition dt_sample_sol_1d (t : R) (xu : list R) : R := - 2 * PI * sin (2 * PI * t) * sin (2 * PI * nth 0 xu 0).
Definition sample_sol_2d (t : R) (xu : list R) : R :=
  cos (sqrt 2 * PI * t) * sin (PI * nth 0 xu 0) * sin (PI * nth 1 xu 0).
Definition dt_sample_sol_2d (t : R) (xu : list R) : R :=
  - sqrt 2 * PI * sin (sqrt 2 * PI * t) * sin (PI * nth 0 xu 0) * sin (PI * nth 1 xu 0).
Definition sample_sol_3d (t : R) (xu : list R) : R :=
  cos (sqrt 3 * PI * t) * sin (PI * nth 0 xu 0) * sin (PI * nth 1 xu 0) * sin (PI * nth 2 xu 0).
Definition dt_sample_sol_3d (t : R) (xu : list R) : R :=
  - sqrt 3 * PI * sin (sqrt 3 * PI * t) * sin (PI * nth 0 xu 0) * sin (PI * nth 1 xu 0) * sin (PI * nth 2 xu 0).

(** * solve_problem (solve_1d.py:129-179, solve_2d.py:132-181, solve_3d.py) *)
Inductive solver_type : Type := Pypardiso | PetscLU | OtherSolver.
Inductive driver : Type := Driver1D | Driver2D | Driver3D.
Section Driver.
  (** the object, the external GMRES; [lu A] = get_lu_solver(msh, A);
      [pard A] = sparse export, factorisation and PySolver; [ev], [pt]: point
      evaluation for the plots *)
  Variables (E : env) (ext : kspcfg -> nat -> nat -> nat -> ksp) (lu : matrix -> solver) (pard : matrix -> res solver)
    (ev : vec -> R -> R) (pt : nat -> list R) (db : optdb).

  (** the statements before solve_problem: b_rhs = ST.get_spacetime_rhs() *)
  Definition driver_setup : M state (option nat) :=
    setup_fes ;; prepare_precondition_gmres E ;; get_spacetime_rhs E.

  Definition solve_with_gmres (b xa : nat) : M state nat :=
    do xr <- gmres_spacetime E ext db (lay_dim (e_Lf E)) b xa 100000 (Some 1e-7) None true None;
    ret (fst xr).
  (** [b] = b_rhs; [xa] names the new solution vector *)
  Definition solve_problem (d : driver) (st : solver_type) (b xa : nat) (measure_errors : bool) : M state unit :=
    do u_sol <- match st with
      | Pypardiso =>
          do o <- get_slab_matrix E; do A <- need o AttributeError;
          do S1 <- lift (pard A); set_solver_slab S1 ;;
          do o <- get_slab_matrix_first; do A0 <- need o AttributeError;
          do S0 <- lift (pard A0); set_solver_first S0 ;;
          do u <- solve_with_gmres b xa;
          (match d with Driver1D => (do _ <- plot_error E ev u 500 20; ret tt) | _ => ret tt end) ;;
          ret u
      | PetscLU =>
          do o <- get_slab_matrix E; do A <- need o TypeError;
          set_solver_slab (lu A) ;;
          do o <- get_slab_matrix_first; do A0 <- need o TypeError;
          set_solver_first (lu A0) ;;
          solve_with_gmres b xa
      | OtherSolver =>
          do o <- get_spacetime_matrix E false; do A <- need o AttributeError;
          modify (put xa vzero) ;;
          do s <- get;
          do r <- lift (lu A (s_heap s xa) (s_heap s b));
          modify (put b r) ;;
          ret xa
      end;
    if measure_errors then
      (match d with Driver3D => (do _ <- plot_para_view E pt u_sol; ret tt) | _ => ret tt end) ;;
      do _ <- measured_errors E u_sol; ret tt
    else ret tt.
End Driver.
