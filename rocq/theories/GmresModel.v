(** GmresModel.v -- /repo/src/dxss/gmres.py and the two PETSc wrapper classes of
    /repo/src/dxss/space_time.py:1869-1926.

    PETSc is not modelled.  Its GMRES is an arbitrary program that is told the
    configuration and may read and write vectors and call back the python
    objects for matrix-vector products and preconditioning, in any order and any
    number of times, before it reports an outcome.  Left out: printing,
    ksp.view, the convergence history, communicators. *)
From Coq Require Import Reals List ZArith Lra Lia Bool String.
From Verif Require Import Base TimeModel FormModel SpaceTimeForms SpaceTimeModel.
Import ListNotations.
Open Scope R_scope.
Open Scope monad_scope.

(** what ksp.solve leaves behind: getConvergedReason, getIterationNumber,
    buildResidual *)
Record kout : Type := mkOut { o_reason : Z; o_its : nat; o_res : vec }.

(** programs of the external solver; vectors are named by numbers *)
Inductive ksp : Type :=
| Halt (o : kout)
| KWrite (i : nat) (v : vec) (k : ksp)
| KRead (i : nat) (k : vec -> ksp)
| KMult (i o : nat) (k : ksp)
| KPrec (i o : nat) (k : ksp).

(** the first n entries *)
Definition first_n (n : nat) (v : vec) : vec := fun l => if Nat.ltb l n then v l else 0.

(** PETSc options and their values *)
Inductive optval : Type := OBool (b : bool) | OStr (s : string) | OReal (r : R) | OInt (z : Z).
Definition optdb : Type := string -> option optval.
Definition set_opt (k : string) (v : optval) (db : optdb) : optdb :=
  fun k' => if String.eqb k' k then Some v else db k'.

(** configuration of a KSP object: type, restart length, tolerances, iteration
    limit, installed python matrix and preconditioner, monitor, Gram-Schmidt
    variant, refinement, preallocation *)
Record kspcfg : Type := mkCfg {
  k_type : string; k_restart : Z; k_rtol : R; k_atol : R; k_maxit : Z;
  k_op : bool; k_pc : bool; k_mon : bool; k_mgs : bool; k_refine : string; k_pre : bool }.
(** PETSc's defaults *)
Definition ksp_default : kspcfg := mkCfg "gmres" 30 1e-5 1e-50 10000 false false false false "refine_never" false.
(** ksp.setOperators *)
Definition set_operators (c : kspcfg) : kspcfg :=
  mkCfg (k_type c) (k_restart c) (k_rtol c) (k_atol c) (k_maxit c) true (k_pc c) (k_mon c) (k_mgs c) (k_refine c) (k_pre c).
Definition set_type (t : string) (c : kspcfg) : kspcfg :=
  mkCfg t (k_restart c) (k_rtol c) (k_atol c) (k_maxit c) (k_op c) (k_pc c) (k_mon c) (k_mgs c) (k_refine c) (k_pre c).
(** ksp.setGMRESRestart: must be positive *)
Definition set_restart (r : Z) (c : kspcfg) : res kspcfg :=
  if Z.ltb r 1 then Err PETScError
  else Ok (mkCfg (k_type c) r (k_rtol c) (k_atol c) (k_maxit c) (k_op c) (k_pc c) (k_mon c) (k_mgs c) (k_refine c) (k_pre c)).
(** ksp.setTolerances(rtol=, atol=, max_it=): -2 is PETSC_DEFAULT and changes
    nothing; otherwise 0 <= rtol < 1, 0 <= atol, 0 <= max_it *)
Definition set_tolerances (rtol atol : R) (maxit : Z) (c : kspcfg) : res kspcfg :=
  let bad_r := negb (if Req_EM_T rtol (-2) then true else if Rle_dec 0 rtol then (if Rlt_dec rtol 1 then true else false) else false) in
  let bad_a := negb (if Req_EM_T atol (-2) then true else if Rle_dec 0 atol then true else false) in
  let bad_m := negb (Z.eqb maxit (-2) || Z.leb 0 maxit) in
  if bad_r || bad_a || bad_m then Err PETScError
  else Ok (mkCfg (k_type c) (k_restart c) (if Req_EM_T rtol (-2) then k_rtol c else rtol)
    (if Req_EM_T atol (-2) then k_atol c else atol) (if Z.eqb maxit (-2) then k_maxit c else maxit)
    (k_op c) (k_pc c) (k_mon c) (k_mgs c) (k_refine c) (k_pre c)).
(** pc.setType(PYTHON); pc.setPythonContext(pre); pc.setUp() *)
Definition set_pc (c : kspcfg) : kspcfg :=
  mkCfg (k_type c) (k_restart c) (k_rtol c) (k_atol c) (k_maxit c) (k_op c) true (k_mon c) (k_mgs c) (k_refine c) (k_pre c).
Definition set_monitor (c : kspcfg) : kspcfg :=
  mkCfg (k_type c) (k_restart c) (k_rtol c) (k_atol c) (k_maxit c) (k_op c) (k_pc c) true (k_mgs c) (k_refine c) (k_pre c).
(** ksp.setFromOptions(): entries of the options database win *)
Definition from_options (db : optdb) (c : kspcfg) : kspcfg :=
  mkCfg (match db "ksp_type"%string with Some (OStr s) => s | _ => k_type c end)
    (match db "ksp_gmres_restart"%string with Some (OInt z) => z | _ => k_restart c end)
    (match db "ksp_rtol"%string with Some (OReal r) => r | _ => k_rtol c end)
    (match db "ksp_atol"%string with Some (OReal r) => r | _ => k_atol c end)
    (match db "ksp_max_it"%string with Some (OInt z) => z | _ => k_maxit c end)
    (k_op c) (k_pc c) (k_mon c)
    (match db "ksp_gmres_modifiedgramschmidt"%string with Some (OBool b) => b | _ => k_mgs c end)
    (match db "ksp_gmres_cgs_refinement_type"%string with Some (OStr s) => s | _ => k_refine c end)
    (match db "ksp_gmres_preallocate"%string with Some (OBool b) => b | _ => k_pre c end).

Section Gmres.
  (** the python side: vectors of a state, and the callbacks A.mult and pre.apply *)
  Variables (S : Type) (rd : S -> nat -> vec) (wr : nat -> vec -> M S unit) (mul prec : nat -> nat -> M S unit).

  (** running a program of the external solver; an exception of a callback ends
      the solve and is passed on *)
  Fixpoint run_ksp (n : nat) (p : ksp) : M S kout :=
    match p with
    | Halt o => ret o
    | KWrite i v k => wr i v ;; run_ksp n k
    | KRead i k => do s <- get; run_ksp n (k (first_n n (rd s i)))
    | KMult i o k => mul i o ;; run_ksp n k
    | KPrec i o k => prec i o ;; run_ksp n k
    end.

  (** the external GMRES: configuration, size, names of right-hand side and
      solution vector *)
  Variable ext : kspcfg -> nat -> nat -> nat -> ksp.

  (** gmres.py:59-91: configuring the solver *)
  Definition configure (db : optdb) (maxsteps : Z) (tol : option R) (restart : option Z) (printrates : bool) (reltol : option R)
    : res (kspcfg * optdb) :=
    let c := set_type "gmres" (set_operators ksp_default) in
    let restart := match restart with None => 1000%Z | Some r => r end in
    rbind (set_restart restart c) (fun c =>
    let tol := match tol with None => 1e-12 | Some t => t end in
    let reltol := match reltol with None => 1e-7 | Some t => t end in
    rbind (set_tolerances reltol tol maxsteps c) (fun c =>
    let c := set_pc c in
    let db := set_opt "ksp_gmres_cgs_refinement_type" (OStr "refine_ifneeded") db in
    let db := set_opt "ksp_gmres_modifiedgramschmidt" (OBool true) db in
    let db := set_opt "ksp_gmres_preallocate" (OBool true) db in
    let c := from_options db c in
    Ok (if printrates then set_monitor c else c, db))).

  (** get_gmres_solution (gmres.py:23-106); [n] = b.getSize(), [xa] names the new
      vector A_shell.createVecRight().  Returns (x, r) *)
  Definition get_gmres_solution (db : optdb) (n b xa : nat) (maxsteps : Z) (tol : option R) (restart : option Z)
      (printrates : bool) (reltol : option R) : M S (nat * vec) :=
    do cd <- lift (configure db maxsteps tol restart printrates reltol);
    wr xa (fun _ => 0) ;;
    do o <- run_ksp n (ext (fst cd) n b xa);
    if Z.ltb (o_reason o) 0 then raise PETScError else ret (xa, o_res o).
End Gmres.

(** SpaceTimePETScMatrixWrapper.mult (space_time.py:1913-1926) *)
Definition wrapper_mult (E : env) (vec_in vec_out : nat) : M state unit := apply_spacetime_matrix E vec_in vec_out.
(** SpaceTimePETScPreconditionerWrapper.apply (space_time.py:1884-1897) *)
Definition wrapper_apply (E : env) (vec_in vec_out : nat) : M state unit := pre_time_marching_improved E vec_in vec_out.
(** get_gmres_solution as the drivers call it *)
Definition gmres_spacetime (E : env) (ext : kspcfg -> nat -> nat -> nat -> ksp) : optdb -> nat -> nat -> nat -> Z -> option R -> option Z -> bool -> option R -> M state (nat * vec) :=
  get_gmres_solution state s_heap (fun i v => modify (put i v)) (wrapper_mult E) (wrapper_apply E) ext.
