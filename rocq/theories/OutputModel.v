(** OutputModel.v -- what SpaceTime, get_gmres_solution and the drivers print:
    /repo/src/dxss/space_time.py:596, 701, 703, 768, 1469, 1567-1578,
    /repo/src/dxss/gmres.py:6-20, 99-102, solve_1d.py:175-187, solve_2d.py:177-189,
    solve_3d.py:87, 242-255.

    Each printing method is written again with its print statements in their places; the
    state now holds the lines printed so far.  Methods without a print statement are
    embedded by [quiet].  A line is a list of pieces, text and numbers; how Python writes a
    number is left out, except for the lines of gmres.py (MonitorModel.v).  Left out: the
    output of ksp.view(); that of meshes.py is in MeshOutput.v.  One process.

    In setup_spacetime_matrix, what UFL refuses while the form is put together is refused
    in the first slab before line 595: the terms over facets come first, and every slab
    has the same. *)
From Coq Require Import Reals List ZArith Bool String Floats.SpecFloat.
From Verif Require Import Base TimeModel FormModel SpaceTimeForms SpaceTimeModel ErrorsModel Lifecycle GmresModel DriverModel MonitorModel.
Import ListNotations.
Open Scope list_scope.
Open Scope R_scope.
Open Scope monad_scope.

Inductive piece : Type := T (s : string) | V (x : R) | I (n : Z).
Definition line : Type := list piece.
(** print(a, b): the arguments separated by a blank *)
Fixpoint print_args (l : list piece) : line :=
  match l with
  | [] => []
  | [a] => [a]
  | a :: l' => a :: T " " :: print_args l'
  end.

Definition quiet {S A} (m : M S A) : M (S * list line) A := fun '(s, o) => let '(r, s') := m s in (r, (s', o)).
Definition print {S} (l : line) : M (S * list line) unit := modify (fun '(s, o) => (s, o ++ [l])).
Definition print_if {S} (b : bool) (l : line) : M (S * list line) unit := if b then print l else ret tt.

(** ** the lines *)
Definition l_init : line := [T "Adding initial data."].
Definition l_bfi : line := [T "Creating bfi"].
Definition l_assemble : line := [T "assemble matrix"].
Definition l_rhs : line := [T "Adding initial data on right hand side"].
Definition l_final (t e : R) : line := [T "t = "; V t; T ", L2-error = "; V e; T " "].
Definition l_sample (t e1 e2 : R) : line := [T "t = "; V t; T ", L2-error u = "; V e1; T ", L2-error u_t = "; V e2; T " "].
Definition l_inf (e : R) : line := print_args [T "L-infty-L2 error u = "; V e].
Definition l_dinf (e : R) : line := print_args [T "L-infty-L2 error u_t = "; V e].
Definition l_l2 (e : R) : line := print_args [T "L2-L2 error u_t = "; V e].
Definition l_elapsed (x : R) : line := [T "elapsed time  "; V x; T " seconds"].
Definition l_memory (x : R) : line := print_args [T "Memory usage in (Gb) = "; V x].
Definition l_nx (n : nat) : line := print_args [T "Nx = "; I (Z.of_nat n)].

Section Output.
  Variable E : env.
  Let c := e_c E.
  Let D := e_D E.
  Let Lf := e_Lf E.
  Definition O : Type -> Type := M (state * list line).

  (** some slab is the first, and the problem is well posed *)
  Definition has_init : bool := Nat.ltb 0 (c_N c) && c_wp c.

  (** setup_spacetime_matrix (space_time.py:342-707) *)
  Definition out_matrix (D0 : disc) (L0 : layout) (om : nat -> R) (precond : bool) : O (matrix * bform) :=
    do g <- lift (get_gammas (c_stab c));
    let f := st_form c g om precond in
    (if forallb has_domain f then ret tt else raise ValueError) ;;
    print_if has_init l_init ;;
    print l_bfi ;;
    (if wf_bform 4 (nc_full c) f then ret tt else raise UFLError) ;;
    print l_assemble ;;
    (if existsb nonzero_t f then ret tt else raise RuntimeError) ;;
    ret (assemble D0 L0 f, f).
  Definition out_build (precond : bool) : O unit :=
    quiet (need_fes ValueError) ;;
    do s <- quiet get;
    do (A, f) <- out_matrix D Lf (s_om s) precond;
    quiet (modify (fun s => w_stm (Some A) (w_stb (Some f) s))).
  (** space_time.py:709-728 *)
  Definition out_get_matrix (precond : bool) : O (option matrix) :=
    do s <- quiet get;
    (match s_stm s with None => out_build precond | Some _ => ret tt end) ;;
    do s <- quiet get; ret (s_stm s).
  Definition out_get_bfi (precond : bool) : O (option bform) :=
    do s <- quiet get;
    (match s_stb s with None => out_build precond | Some _ => ret tt end) ;;
    do s <- quiet get; ret (s_stb s).

  (** setup_rhs (space_time.py:730-792) *)
  Definition out_rhs : O unit :=
    quiet (need_fes ValueError) ;;
    do gj <- lift (lookup (c_stab c) "primal-jump");
    do gd <- lift (lookup (c_stab c) "data");
    print_if has_init l_rhs ;;
    quiet (err_if (c_wp c && is_zero (c_dt c)) ZeroDivisionError) ;;
    do s <- quiet get;
    do f <- lift (fem_lform 4 (nc_full c)
      (rhs_form c (s_om s) gd gj (d_x D)
        (fev D Dx Vp Val (s_u10 s)) (fev D Dx Vp Grad (s_u10 s)) (fev D Dx Vp Val (s_u20 s))));
    quiet (modify (fun s => w_rhs (Some (s_next s)) (w_lfi (Some f)
      (w_next (S (s_next s)) (put (s_next s) (assemble_vec D Lf f) s))))).
  (** space_time.py:794-802 *)
  Definition out_get_rhs : O (option nat) :=
    do s <- quiet get;
    (match s_rhs s with None => out_rhs | Some _ => ret tt end) ;;
    do s <- quiet get; ret (s_rhs s).
  Definition out_get_lfi : O (option lform) :=
    do s <- quiet get;
    (match s_lfi s with None => out_rhs | Some _ => ret tt end) ;;
    do s <- quiet get; ret (s_lfi s).
  (** prepare_precondition_gmres (space_time.py:1329-1340) *)
  Definition out_prepare : O unit :=
    do s <- quiet get;
    quiet (if is_none (s_slm s) then setup_slab_matrix E true ;; modify (w_brp (Some vzero)) else ret tt) ;;
    do s <- quiet get;
    quiet (if is_none (s_fim s) && negb (c_wp c) then setup_slab_matrix E false else ret tt) ;;
    do s <- quiet get;
    quiet (if is_none (s_com s) then setup_coupling E else ret tt) ;;
    do s <- quiet get;
    (if is_none (s_rhs s) then out_rhs else ret tt) ;;
    do s <- quiet get;
    quiet (if is_none (s_mam s) then setup_scaled_mass E else ret tt).
  (** prepare_coarse_grid_correction (space_time.py:1343-1396) *)
  Definition out_coarse (K : coarse) : O unit :=
    quiet (modify (w_crs (Some K))) ;;
    quiet (need_fes AttributeError) ;;
    quiet (modify (w_nod true)) ;;
    do s <- quiet get;
    do (A, f) <- out_matrix (k_D K) (k_L K) (k_om K (s_om s)) false;
    quiet (modify (fun s => w_cmt (Some A) (w_cbf (Some f) s))) ;;
    do s <- quiet get;
    do _ <- need (s_lfi s) AttributeError;
    quiet (modify (fun s => w_tc2 (Some vzero) (w_tc1 (Some vzero) (w_tmp true s)))).

  (** measured_errors(u_inp, verbose) (space_time.py:1452-1584) *)
  Definition out_sample (verbose : bool) (n : nat) (tn : R) (us : nat -> vec) (um : vec) (t : R) (acc : list R * list R)
    : O (list R * list R) :=
    if in_slab E tn t then
      do e1 <- lift (py_sqrt (l2sq E (fun p => uh_at E n tn t us um p - c_v c t (d_x D p))));
      do e2 <- lift (py_sqrt (l2sq E (fun p => duh_at E n tn t us um p - c_dv c t (d_x D p))));
      print_if verbose (l_sample t e1 e2) ;;
      ret (fst acc ++ [e1], snd acc ++ [e2])
    else ret acc.
  Definition out_slab (verbose : bool) (n : nat) (acc : (list R * list R) * R) : O ((list R * list R) * R) :=
    let tn := INR n * c_dt c in
    let idx := (n * S (c_q c))%nat in
    do s <- quiet get;
    quiet (if Nat.ltb 0 n then modify (w_u1m (comp_of Lf (s_uh s) 0 (idx - 1))) else ret tt) ;;
    quiet (modify (w_u1s (fun l => if Nat.ltb l (S (c_q c)) then comp_of Lf (s_uh s) 0 (idx + l) else s_u1s s l))) ;;
    quiet (err_if (is_zero (c_dt c)) ZeroDivisionError) ;;
    do s <- quiet get;
    let tot := me_quad E n tn (s_u1s s) (s_u1m s) (snd acc) in
    do l <- for_acc (c_samples c) (out_sample verbose n tn (s_u1s s) (s_u1m s)) (fst acc);
    ret (l, tot).
  Definition out_errors (verbose : bool) (u : nat) : O errors :=
    quiet (load_solution E u) ;;
    do s <- quiet get;
    do eT <- lift (py_sqrt (l2sq E (fun p => val E (s_u10 s) p - c_v c (c_T c) (d_x D p))));
    print (l_final (c_T c) eT) ;;
    do a <- for_acc (seq 0 (c_N c)) (out_slab verbose) (([], []), 0);
    do m1 <- lift (py_max (fst (fst a)));
    print (l_inf m1) ;;
    do m2 <- lift (py_max (snd (fst a)));
    print (l_dinf m2) ;;
    do l2 <- lift (py_sqrt (snd a));
    print (l_l2 l2) ;;
    ret (mkErr eT m1 m2 l2).

  (** the public calls; measured_errors with [verbose] *)
  Definition out_answers {A} (f : A -> answer) (m : O A) : O answer := do a <- m; ret (f a).
  Definition out_step (verbose : bool) (k : call) : O answer :=
    match k with
    | Build_matrix p => quiet (need_fes ValueError) ;; do s <- quiet get;
        out_answers (fun '(A, f) => AMatForm A f) (out_matrix D Lf (s_om s) p)
    | Get_matrix p => out_answers AMat (out_get_matrix p)
    | Get_bfi p => out_answers AForm (out_get_bfi p)
    | Setup_rhs => out_answers (fun _ => Done) out_rhs
    | Get_rhs => out_answers AVec out_get_rhs
    | Get_lfi => out_answers ALform out_get_lfi
    | Prepare => out_answers (fun _ => Done) out_prepare
    | Prepare_coarse K => out_answers (fun _ => Done) (out_coarse K)
    | Measure u => out_answers AErr (out_errors verbose u)
    | _ => quiet (step E k)
    end.
  Fixpoint out_run (verbose : bool) (ks : list call) (so : state * list line) : state * list line :=
    match ks with [] => so | k :: ks' => out_run verbose ks' (snd (out_step verbose k so)) end.

  (** ** get_gmres_solution.  The external solver may also call the installed monitor. *)
  Inductive kspm : Type :=
  | MHalt (o : kout)
  | MWrite (i : nat) (v : vec) (k : kspm)
  | MRead (i : nat) (k : vec -> kspm)
  | MMult (i o : nat) (k : kspm)
  | MPrec (i o : nat) (k : kspm)
  | MMonitor (its : nat) (rnorm : spec_float) (k : kspm).
  Fixpoint forget (p : kspm) : ksp :=
    match p with
    | MHalt o => Halt o
    | MWrite i v k => KWrite i v (forget k)
    | MRead i k => KRead i (fun v => forget (k v))
    | MMult i o k => KMult i o (forget k)
    | MPrec i o k => KPrec i o (forget k)
    | MMonitor _ _ k => forget k
    end.
  Fixpoint out_ksp (mon : bool) (n : nat) (p : kspm) : O kout :=
    match p with
    | MHalt o => ret o
    | MWrite i v k => quiet (modify (put i v)) ;; out_ksp mon n k
    | MRead i k => do s <- quiet get; out_ksp mon n (k (first_n n (s_heap s i)))
    | MMult i o k => quiet (wrapper_mult E i o) ;; out_ksp mon n k
    | MPrec i o k => quiet (wrapper_apply E i o) ;; out_ksp mon n k
    | MMonitor its r k => print_if mon [T (monitor_line its r)] ;; out_ksp mon n k
    end.
  Variable ext : kspcfg -> nat -> nat -> nat -> kspm.
  (** gmres.py:24-106 *)
  Definition out_gmres (db : optdb) (n b xa : nat) (maxsteps : Z) (tol : option R) (restart : option Z)
      (printrates : bool) (reltol : option R) : O (nat * vec) :=
    do cd <- lift (configure db maxsteps tol restart printrates reltol);
    quiet (modify (put xa (fun _ => 0))) ;;
    do o <- out_ksp (k_mon (fst cd)) n (ext (fst cd) n b xa);
    print [T ("The convergence reason code is " ++ show_int (o_reason o))%string] ;;
    print_if (Z.ltb (o_reason o) 0) [T ("Solver did not converge after " ++ show_nat (o_its o) ++ " iterations.")%string] ;;
    if Z.ltb (o_reason o) 0 then raise PETScError else ret (xa, o_res o).

  (** ** the drivers.  [lu], [pard], [ev], [pt] as in DriverModel.v; [elapsed] = end - start,
      [memory] = ru_maxrss / 1e6 *)
  Variables (lu : matrix -> solver) (pard : matrix -> res solver) (ev : vec -> R -> R) (pt : nat -> list R) (db : optdb)
    (elapsed memory : R).
  (** solve_1d.py:118-120, solve_2d.py:115-117, solve_3d.py:188-190 *)
  Definition out_setup : O (option nat) :=
    quiet setup_fes ;; out_prepare ;; out_get_rhs.
  Definition out_solve_gmres (b xa : nat) : O nat :=
    do xr <- out_gmres db (lay_dim Lf) b xa 100000 (Some 1e-7) None true None;
    ret (fst xr).
  (** solve_problem *)
  Definition out_solve (d : driver) (st : solver_type) (b xa : nat) (measure_errors : bool) : O unit :=
    do u_sol <- match st with
      | Pypardiso =>
          do o <- quiet (get_slab_matrix E); do A <- need o AttributeError;
          do S1 <- lift (pard A); quiet (set_solver_slab S1) ;;
          do o <- quiet get_slab_matrix_first; do A0 <- need o AttributeError;
          do S0 <- lift (pard A0); quiet (set_solver_first S0) ;;
          do u <- out_solve_gmres b xa;
          quiet (match d with Driver1D => (do _ <- plot_error E ev u 500 20; ret tt) | _ => ret tt end) ;;
          ret u
      | PetscLU =>
          do o <- quiet (get_slab_matrix E); do A <- need o TypeError;
          quiet (set_solver_slab (lu A)) ;;
          do o <- quiet get_slab_matrix_first; do A0 <- need o TypeError;
          quiet (set_solver_first (lu A0)) ;;
          out_solve_gmres b xa
      | OtherSolver =>
          do o <- out_get_matrix false; do A <- need o AttributeError;
          quiet (modify (put xa vzero)) ;;
          do s <- quiet get;
          do r <- lift (lu A (s_heap s xa) (s_heap s b));
          quiet (modify (put b r)) ;;
          ret xa
      end;
    print (l_elapsed elapsed) ;;
    if measure_errors then
      quiet (match d with Driver3D => (do _ <- plot_para_view E pt u_sol; ret tt) | _ => ret tt end) ;;
      do _ <- out_errors false u_sol; ret tt
    else ret tt.
  (** python solve_nd.py: the module, then solve_problem(measure_errors=True) and the memory;
      [nx] is printed by solve_3d.py:87 *)
  Definition out_main (d : driver) (st : solver_type) (nx xa : nat) : O unit :=
    (match d with Driver3D => print (l_nx nx) | _ => ret tt end) ;;
    do b <- out_setup;
    do b <- need b AttributeError;
    out_solve d st b xa true ;;
    print (l_memory memory).
End Output.
