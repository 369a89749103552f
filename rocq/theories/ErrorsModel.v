(** ErrorsModel.v -- measured_errors, plot, plot_error and plot_para_view of
    /repo/src/dxss/space_time.py.

    Simplifications: serial run, so allreduce returns its argument; the square
    root of a negative number raises ValueError for np.sqrt too (numpy gives
    nan); printing, drawing and file output are left out;
    evaluate_function_at_points (package dxh) is a parameter. *)
From Coq Require Import Reals List ZArith Lra Lia Bool String.
From Verif Require Import Base TimeModel FormModel SpaceTimeForms SpaceTimeModel.
Import ListNotations.
Open Scope R_scope.
Open Scope monad_scope.

(** np.sqrt, math.sqrt *)
Definition py_sqrt (x : R) : res R := if Rlt_dec x 0 then Err ValueError else Ok (sqrt x).
(** max(l) *)
Definition py_max (l : list R) : res R :=
  match l with [] => Err ValueError | a :: l' => Ok (fold_left (fun m x => if Rlt_dec m x then x else m) l' a) end.

(** the dictionary returned by measured_errors: "L2-u1-T", "L-infty-L2-error-u",
    "L-infty-L2-error-ut", "L2-L2-error-u_t" *)
Record errors : Type := mkErr { er_T : R; er_inf : R; er_dinf : R; er_l2 : R }.

(** [for n in l] with a value carried along *)
Fixpoint for_acc {S A B} (l : list A) (body : A -> B -> M S B) (b : B) : M S B :=
  match l with [] => ret b | a :: l' => do b' <- body a b; for_acc l' body b' end.

Section Errors.
  Variable E : env.
  Let c := e_c E.
  Let D := e_D E.
  Let Lf := e_Lf E.

  (** fem.assemble_scalar(fem.form(ufl.inner(f, f) * dx)), f given at the
      quadrature points *)
  Definition l2sq (f : nat -> R) : R := integ D Dx WOne 1 (fun p _ => f p) (fun p _ => f p).
  (** value of a scalar function at a quadrature point *)
  Definition val (u : vec) (p : nat) : R := fev D Dx Vp Val u p 0.
  (** sum([phi[j](tau) * u1_slab[j] for j in range(q + 1)]) *)
  Definition comb (phi : list (R -> R)) (k tau : R) (us : nat -> vec) (p : nat) : R :=
    sumn (S (c_q c)) (fun j => k * nth j phi (fun _ => 0) tau * val (us j) p).

  (** uh_at_ti (space_time.py:1525-1546) *)
  Definition uh_at (n : nat) (tn t : R) (us : nat -> vec) (um : vec) (p : nat) : R :=
    comb (c_phi c) 1 ((t - tn) / c_dt c) us p
    - (if Nat.ltb 0 n then
         theta_ref ((2 * t - (tn + c_dt c + tn)) / c_dt c) * (val (us 0%nat) p - val um p) else 0).
  (** uh_prime_at_ti (space_time.py:1498-1511 and 1532-1553) *)
  Definition duh_at (n : nat) (tn t : R) (us : nat -> vec) (um : vec) (p : nat) : R :=
    comb (c_dphi c) (1 / c_dt c) ((t - tn) / c_dt c) us p
    - (if Nat.ltb 0 n then
         2 / c_dt c * (val (us 0%nat) p - val um p) * d_theta_ref ((2 * t - (tn + c_dt c + tn)) / c_dt c) else 0).

  (** space_time.py:1492-1519 *)
  Definition me_quad (n : nat) (tn : R) (us : nat -> vec) (um : vec) (tot : R) : R :=
    fold_left (fun acc '(tau, om) =>
      let t := tn + c_dt c * tau in
      acc + om * c_dt c * l2sq (fun p => duh_at n tn t us um p - c_dv c t (d_x D p))) (c_qr_ho c) tot.
  (** space_time.py:1521-1573 *)
  Definition in_slab (tn t : R) : bool :=
    (if Rle_dec tn t then true else false) && (if Rle_dec t (tn + c_dt c) then true else false).
  Definition me_sample (n : nat) (tn : R) (us : nat -> vec) (um : vec) (t : R) (acc : list R * list R)
    : res (list R * list R) :=
    if in_slab tn t then
      rbind (py_sqrt (l2sq (fun p => uh_at n tn t us um p - c_v c t (d_x D p)))) (fun e1 =>
      rbind (py_sqrt (l2sq (fun p => duh_at n tn t us um p - c_dv c t (d_x D p)))) (fun e2 =>
      Ok (fst acc ++ [e1], snd acc ++ [e2])))
    else Ok acc.
  Fixpoint me_samples (n : nat) (tn : R) (us : nat -> vec) (um : vec) (ts : list R) (acc : list R * list R)
    : res (list R * list R) :=
    match ts with
    | [] => Ok acc
    | t :: ts' => rbind (me_sample n tn us um t acc) (fun acc' => me_samples n tn us um ts' acc')
    end.
  (** one slab (space_time.py:1479-1575); int_idx = n * (q + 1) *)
  Definition me_slab (n : nat) (acc : (list R * list R) * R) : M state ((list R * list R) * R) :=
    let tn := INR n * c_dt c in
    let idx := (n * S (c_q c))%nat in
    do s <- get;
    (if Nat.ltb 0 n then modify (w_u1m (comp_of Lf (s_uh s) 0 (idx - 1))) else ret tt) ;;
    modify (w_u1s (fun l => if Nat.ltb l (S (c_q c)) then comp_of Lf (s_uh s) 0 (idx + l) else s_u1s s l)) ;;
    err_if (is_zero (c_dt c)) ZeroDivisionError ;;
    do s <- get;
    let tot := me_quad n tn (s_u1s s) (s_u1m s) (snd acc) in
    do l <- lift (me_samples n tn (s_u1s s) (s_u1m s) (c_samples c) (fst acc));
    ret (l, tot).
  (** uh := u_inp; u1_0, u2_0 := last components (space_time.py:1458-1463, 1830-1835).
      Without spaces self.uh is None. *)
  Definition load_solution (u : nat) : M state unit :=
    need_fes AttributeError ;;
    modify (fun s => w_uh (s_heap s u) s) ;;
    do s <- get;
    modify (fun s => w_u10 (comp_of Lf (s_uh s) 0 (nc_full c 0 - 1)) s) ;;
    modify (fun s => w_u20 (comp_of Lf (s_uh s) 1 (nc_full c 1 - 1)) s).
  (** measured_errors (space_time.py:1452-1582) *)
  Definition measured_errors (u : nat) : M state errors :=
    load_solution u ;;
    do s <- get;
    do eT <- lift (py_sqrt (l2sq (fun p => val (s_u10 s) p - c_v c (c_T c) (d_x D p))));
    do a <- for_acc (seq 0 (c_N c)) me_slab (([], []), 0);
    do m1 <- lift (py_max (fst (fst a)));
    do m2 <- lift (py_max (snd (fst a)));
    do l2 <- lift (py_sqrt (snd a));
    ret (mkErr eT m1 m2 l2).

  (** plot_para_view (space_time.py:1829-1866): besides files, it leaves uh,
      u1_0, u2_0 behind.  The files hold |exact - u1_0| and |exact_t - u2_0| at
      the interpolation points [pt l] of the scalar space. *)
  Definition plot_para_view (pt : nat -> list R) (u : nat) : M state (vec * vec) :=
    load_solution u ;;
    do s <- get;
    ret (fun l => Rabs (c_v c (c_T c) (pt l) - s_u10 s l), fun l => Rabs (c_dv c (c_T c) (pt l) - s_u20 s l)).

  (** * plot and plot_error (space_time.py:1584-1713, 1715-1827)

      [ev u x]: evaluate_function_at_points for the scalar function u at (x, 0, 0) *)
  Variable ev : vec -> R -> R.

  (** np.linspace(0, 1, num=n): all i / (n - 1); [0.0] for n = 1 *)
  Definition linspace01 (n : nat) : list R :=
    if Nat.eqb n 1 then [0] else map (fun i => INR i / INR (n - 1)) (seq 0 n).
  (** np.linspace(0, 1, num=n, endpoint=False) *)
  Definition linspace_open (n : nat) : list R := map (fun i => INR i / INR n) (seq 0 n).

  (** a two-dimensional array with row and column indices *)
  Definition arr2 : Type := nat -> nat -> R.
  Definition set2 (a : arr2) (r k : nat) (v : R) : arr2 :=
    fun r' k' => if Nat.eqb r' r && Nat.eqb k' k then v else a r' k'.
  Definition zero2 : arr2 := fun _ _ => 0.

  (** what the loops of plot / plot_error fill: ts, fun_val, dt_fun_val,
      err_val, dt_err_val *)
  Record plotdata : Type := mkPD {
    pd_ts : list R; pd_val : arr2; pd_dval : arr2; pd_err : arr2; pd_derr : arr2 }.
  (** the innermost loop body; [j]: point index, [x]: the point, [m], [tau]:
      entry of enumerate(eval_t_subdiv) *)
  Definition plot_cell (trafo : R -> R) (us : nat -> vec) (tn : R) (row j : nat) (x : R) (m : nat) (tau : R) (d : plotdata) : plotdata :=
    let t := tn + c_dt c * tau in
    let sv ell := ev (us ell) x in
    let u := sumn (S (c_q c)) (fun ell => nth ell (c_phi c) (fun _ => 0) ((t - tn) / c_dt c) * sv ell) in
    let du := sumn (S (c_q c)) (fun ell => 1 / c_dt c * nth ell (c_dphi c) (fun _ => 0) ((t - tn) / c_dt c) * sv ell) in
    mkPD (if Nat.eqb j 0 then pd_ts d ++ [t] else pd_ts d)
      (set2 (pd_val d) (row + m) j (trafo u)) (set2 (pd_dval d) (row + m) j (trafo du))
      (set2 (pd_err d) (row + m) j (Rabs (u - c_v c t [x]))) (set2 (pd_derr d) (row + m) j (Rabs (du - c_dv c t [x]))).
  (** enumerate(l) *)
  Definition enum {A} (l : list A) : list (nat * A) := combine (seq 0 (List.length l)) l.
  Definition plot_slab (trafo : R -> R) (uh : vec) (nsp nsub n : nat) (d : plotdata) : plotdata :=
    let us := fun ell => comp_of Lf uh 0 (n * S (c_q c) + ell) in
    let tn := INR n * c_dt c in
    fold_left (fun d '(j, x) => fold_left (fun d '(m, tau) => plot_cell trafo us tn (n * nsub) j x m tau d)
      (enum (linspace_open nsub)) d) (enum (linspace01 nsp)) d.
  Definition plot_arrays (trafo : R -> R) (uh : vec) (nsp nsub : nat) : plotdata :=
    fold_left (fun d n => plot_slab trafo uh nsp nsub n d) (seq 0 (c_N c))
      (mkPD [] zero2 zero2 zero2 zero2).
  (** plot(uh_inp, n_space, n_time_subdiv, abs_val) up to the drawing; no
      attribute changes.  fem.Function(None) raises AttributeError. *)
  Definition plot (u nsp nsub : nat) (abs_val : bool) : M state plotdata :=
    need_fes AttributeError ;;
    err_if (is_zero (c_dt c) && Nat.ltb 0 nsp && Nat.ltb 0 nsub) ZeroDivisionError ;;
    do s <- get;
    ret (plot_arrays (if abs_val then Rabs else fun x => x) (s_heap s u) nsp nsub).
  Definition plot_error (u nsp nsub : nat) : M state plotdata := plot u nsp nsub false.
End Errors.
