(** TestsModel.v -- the project's own tests: /repo/tests/test_gmres.py,
    test_slab_solver_2d.py, test_slab_solver_3d.py, test_spacetime_parameters.py.

    A test ends with the value of the expression after [assert].  Random numbers are
    arguments; timing and printing are left out.  test_dxss.py is in ModulesModel.v;
    test_solve_1d_smoke.py runs solve_problem. *)
From Coq Require Import Reals List ZArith Bool String.
From Verif Require Import Base TimeModel FormModel SpaceTimeForms SpaceTimeModel GmresModel DriverModel DriverConfig.
Import ListNotations.
Open Scope R_scope.
Open Scope monad_scope.

(** * test_gmres.py *)
(** np.roll(v, k) of an array of length n *)
Definition roll (n : nat) (k : Z) (v : vec) : vec := fun i => v (Z.to_nat ((Z.of_nat i - k) mod Z.of_nat n)%Z).
(** np.allclose(a, b): rtol = 1e-5, atol = 1e-8 *)
Definition allclose (n : nat) (a b : vec) : bool :=
  forallb (fun i => if Rle_dec (Rabs (a i - b i)) (1e-8 + 1e-5 * Rabs (b i)) then true else false) (seq 0 n).
(** vectors by name; [o].array[:] = v *)
Definition heap : Type := nat -> vec.
Definition write_array (n o : nat) (v : vec) : M heap unit :=
  modify (fun h k => if Nat.eqb k o then (fun l => if Nat.ltb l n then v l else h k l) else h k).
(** IdentityPETScMatrix.mult, IdentityPlusCircularDiffPETScMatrix.mult (test_gmres.py:9-17) *)
Inductive test_matrix : Type := IdentityMatrix | IdentityPlusCircularDiff.
Definition test_mult (n : nat) (m : test_matrix) (i o : nat) : M heap unit :=
  do h <- get;
  write_array n o (match m with
    | IdentityMatrix => h i
    | IdentityPlusCircularDiff => fun l => h i l + (roll n 1 (h i) l - roll n (-1) (h i) l)
    end).
(** IdentityPETScPreconditioner.apply (test_gmres.py:21-22) *)
Definition test_apply (n i o : nat) : M heap unit := do h <- get; write_array n o (h i).
(** test_get_gmres_solution (test_gmres.py:25-40): vector 0 is rhs_vector, 1 is
    matrix_mult_solution_vector, 2 the new solution vector; [bv] the random numbers *)
Definition test_get_gmres_solution (ext : kspcfg -> nat -> nat -> nat -> ksp) (db : optdb) (n : nat) (m : test_matrix) (bv : vec) : M heap bool :=
  write_array n 0 bv ;;
  do xr <- get_gmres_solution heap (fun h i => h i) (fun i v => modify (fun h k => if Nat.eqb k i then v else h k))
    (test_mult n m) (test_apply n) ext db n 0 2 100 None None true None;
  test_mult n m (fst xr) 1 ;;
  do h <- get;
  ret (allclose n (h 1%nat) (h 0%nat)).

(** * test_slab_solver_2d.py, test_slab_solver_3d.py *)
(** their module-level constants (2d:55-71, 3d:54-73); REF_LVL = 1 *)
Definition test_params_2d : params :=
  driver_params 2 2 2 2 (nth 1 REF_LVL_TO_N 0%nat) 1.0 sample_sol_2d dt_sample_sol_2d default_parameters.
Definition test_params_3d : params :=
  driver_params 3 0 3 1 (nth 1 REF_LVL_TO_N 0%nat) 1.0 sample_sol_3d dt_sample_sol_3d default_parameters.
(** np.linalg.norm(a - b) < 1e-4 *)
Definition small_distance (n : nat) (a b : vec) : bool :=
  if Rlt_dec (sqrt (Rsum (seq 0 n) (fun i => (a i - b i) ^ 2))) 1e-4 then true else false.
Section SlabTests.
  Variables (E : env) (lu : matrix -> solver).
  (** the module-level statements (2d:104-119, 3d:126-138) *)
  Definition test_setup : M state unit := setup_fes ;; prepare_precondition_gmres E.
  (** test_slab_problem (2d:122-147, 3d:141-168), SOLVER_TYPE = "petsc-LU": [i], [o], [c] name
      x_in, x_out, x_comp; [xv] the random numbers *)
  Definition test_slab_problem (i o c : nat) (xv : vec) : M state bool :=
    do a <- get_slab_matrix E; do A <- need a AttributeError;
    modify (put i xv) ;;
    do s <- get;
    modify (put o (fun l => if Nat.ltb l (lay_dim (e_Lp E)) then mult (lay_dim (e_Lp E)) A (s_heap s i) l else s_heap s o l)) ;;
    do a <- get_slab_matrix E; do A' <- need a TypeError;
    do s <- get;
    do r <- lift (lu A' (s_heap s o) (s_heap s c));
    modify (put c r) ;;
    do s <- get;
    ret (small_distance (lay_dim (e_Lp E)) (s_heap s c) (s_heap s i)).
  (** test_spacetime_solve (2d:150-182), skipped by pytest *)
  Definition test_spacetime_solve (i o c : nat) (xv : vec) : M state bool :=
    modify (put i xv) ;;
    apply_spacetime_matrix E i o ;;
    do a <- get_slab_matrix E; do A <- need a TypeError;
    set_solver_slab (lu A) ;;
    do a <- get_slab_matrix_first; do A0 <- need a TypeError;
    set_solver_first (lu A0) ;;
    pre_time_marching E o c ;;
    do s <- get;
    ret (small_distance (lay_dim (e_Lf E)) (s_heap s c) (s_heap s i)).
End SlabTests.

(** * test_spacetime_parameters.py
    ProblemParameters(...) with keyword arguments (space_time.py:55-57) *)
Definition ProblemParameters_kw (jumps wp : option bool) : problem_parameters :=
  mkPP (match jumps with Some b => b | None => false end) (match wp with Some b => b | None => false end).
