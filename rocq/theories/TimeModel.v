(** TimeModel.v -- model of /repo/src/dxss/precomp_time_int.py.
    Numbers are real numbers (Python floats and sympy expressions are read as
    the reals they denote; rounding is not modelled here, see FloatModel.v).
    sympy expressions in the one symbol x are coefficient lists. *)
From Coq Require Import Reals List ZArith String Lra.
From Verif Require Import Base.
Import ListNotations.
Open Scope R_scope.

(** * sympy polynomials in x: coefficient lists, lowest degree first *)
(** sympy's +, -, *, diff(., x) and integrate(., (x, 0, 1)) on polynomials
    (used in precomp_time_int.py:12-64). *)
Definition poly : Type := list R.
Fixpoint peval (p : poly) (x : R) : R :=
  match p with [] => 0 | c :: p' => c + x * peval p' x end.
Fixpoint padd (p q : poly) : poly :=
  match p, q with
  | [], _ => q
  | _, [] => p
  | a :: p', b :: q' => (a + b) :: padd p' q'
  end.
Definition pscale (c : R) (p : poly) : poly := map (Rmult c) p.
Definition psub (p q : poly) : poly := padd p (pscale (-1) q).
Fixpoint pmul (p q : poly) : poly :=
  match p with
  | [] => []
  | a :: p' => padd (pscale a q) (0 :: pmul p' q)
  end.
(** diff: the coefficient of x^i in p' is (i+1) p_(i+1) *)
Fixpoint pdiff_from (n : nat) (p : poly) : poly :=
  match p with [] => [] | c :: p' => (INR n * c) :: pdiff_from (S n) p' end.
Definition pdiff (p : poly) : poly :=
  match p with [] => [] | _ :: p' => pdiff_from 1 p' end.
(** integrate over [0, 1]: sum of c_i / (i+1) *)
Fixpoint pint_from (n : nat) (p : poly) : R :=
  match p with [] => 0 | c :: p' => c / INR (S n) + pint_from (S n) p' end.
Definition pint (p : poly) : R := pint_from 0 p.
Definition sx : poly := [0; 1].
Definition sc (c : R) : poly := [c].

(** precomp_time_int.py:12-25: the symbolic dictionary basis_in_time inside
    get_elmat_time and its lookup (missing key: KeyError). *)
Definition basis_sym (q : Z) : res (list poly) :=
  match q with
  | 0%Z => Ok [sc 1]
  | 1%Z => Ok [psub (sc 1) sx; sx]
  | 2%Z => Ok [pmul (pmul (sc 2) (psub (sc 1) sx)) (psub (sc (1/2)) sx);
               pmul (pmul (sc 4) sx) (psub (sc 1) sx);
               pmul (pmul (sc 2) sx) (psub sx (sc (1/2)))]
  | 3%Z => Ok [pmul (pmul (pmul (sc (-9/2)) (psub sx (sc 1))) (psub sx (sc (2/3)))) (psub sx (sc (1/3)));
               pmul (pmul (pmul (sc (27/2)) sx) (psub sx (sc 1))) (psub sx (sc (2/3)));
               pmul (pmul (pmul (sc (-(27/2))) sx) (psub sx (sc 1))) (psub sx (sc (1/3)));
               pmul (pmul (pmul (sc (9/2)) sx) (psub sx (sc (1/3)))) (psub sx (sc (2/3)))]
  | _ => Err KeyError
  end.

(** numpy 2-d arrays: list of rows; [mget m i j] is m[i, j]. *)
Definition mat : Type := list (list R).
Definition mget (m : mat) (i j : nat) : R := nth j (nth i m []) 0.

(** The dictionary returned by get_elmat_time (its six keys as fields). *)
Record elmat : Type := mkElmat {
  M_time_q_qstar : mat;
  M_time_q_q : mat;
  M_time_qstar_qstar : mat;
  DM_time_q_qstar : mat;
  DM_time_q_q : mat;
  DDM_time_q_q : mat }.

(** np.zeros((rows, cols)) filled by the double loop
    [for i in range(rows): for j in range(cols): m[i, j] = f(i, j)]. *)
Definition fill (rows cols : nat) (f : nat -> nat -> R) : mat :=
  map (fun i => map (fun j => f i j) (seq 0 cols)) (seq 0 rows).

(** precomp_time_int.py:5-66 *)
Definition get_elmat_time (q qstar : Z) : res elmat :=
  match basis_sym q with
  | Err e => Err e
  | Ok phis =>
    match basis_sym qstar with
    | Err e => Err e
    | Ok chis =>
      let phi j := nth j phis [] in
      let chi i := nth i chis [] in
      let nq := Z.to_nat (q + 1) in
      let nqs := Z.to_nat (qstar + 1) in
      Ok {| M_time_q_qstar := fill nqs nq (fun i j => pint (pmul (phi j) (chi i)));
            M_time_q_q := fill nq nq (fun i j => pint (pmul (phi j) (phi i)));
            M_time_qstar_qstar := fill nqs nqs (fun i j => pint (pmul (chi j) (chi i)));
            DM_time_q_qstar := fill nqs nq (fun i j => pint (pmul (pdiff (phi j)) (chi i)));
            DM_time_q_q := fill nq nq (fun i j => pint (pmul (pdiff (phi j)) (phi i)));
            DDM_time_q_q := fill nq nq (fun i j => pint (pmul (pdiff (phi j)) (pdiff (phi i)))) |}
    end
  end.

(** precomp_time_int.py:159-192: the module-level table of callables. *)
Definition basis_in_time (q : Z) : res (list (R -> R) * list (R -> R)) :=
  match q with
  | 0%Z => Ok ([fun _ => 1], [fun _ => 0])
  | 1%Z => Ok ([fun t => 1 - t; fun t => t], [fun _ => -1; fun _ => 1])
  | 2%Z => Ok ([fun t => 2 * (1 - t) * (1/2 - t);
                fun t => 4 * t * (1 - t);
                fun t => 2 * t * (t - 1/2)],
               [fun t => -3 + 4 * t; fun t => 4 - 8 * t; fun t => 4 * t - 1])
  | 3%Z => Ok ([fun t => (-9/2) * (t - 1) * (t - 2/3) * (t - 1/3);
                fun t => (27/2) * t * (t - 1) * (t - 2/3);
                fun t => -(27/2) * t * (t - 1) * (t - 1/3);
                fun t => (9/2) * t * (t - 1/3) * (t - 2/3)],
               [fun t => (-9/2) * ((t - 2/3) * (t - 1/3) + (t - 1) * (t - 1/3)
                                   + (t - 1) * (t - 2/3));
                fun t => (27/2) * ((t - 1) * (t - 2/3) + t * (t - 2/3) + t * (t - 1));
                fun t => -(27/2) * ((t - 1) * (t - 1/3) + t * (t - 1/3) + t * (t - 1));
                fun t => (9/2) * ((t - 1/3) * (t - 2/3) + t * (t - 2/3) + t * (t - 1/3))])
  | _ => Err KeyError
  end.

(** * QuadRule *)

(** Attributes of a QuadRule object.  [None] for points / weights: the
    attribute was never assigned (unknown name). *)
Record quadrule : Type := mkQR {
  qr_name : string;
  qr_npoints : Z;
  qr_points : option (list R);
  qr_weights : option (list R) }.

(** precomp_time_int.py:75-88 *)
Definition gauss_radau (n : Z) : res (list R * list R) :=
  match n with
  | 3%Z => Ok ([-1; (1 - sqrt 6) / 5; (1 + sqrt 6) / 5],
               [2/9; (16 + sqrt 6) / 18; (16 - sqrt 6) / 18])
  | 4%Z => Ok ([-1; -0.575319; 0.181066; 0.822824],
               [0.125; 0.657689; 0.776387; 0.440924])
  | 5%Z => Ok ([-1; -0.72048; -0.167181; 0.446314; 0.885792],
               [0.08; 0.446208; 0.623653; 0.562712; 0.287427])
  | _ => Err KeyError
  end.
(** precomp_time_int.py:89-93 *)
Definition gauss (n : Z) : res (list R * list R) :=
  match n with
  | 1%Z => Ok ([0], [2])
  | 2%Z => Ok ([-1.0 / sqrt 3; 1.0 / sqrt 3], [1; 1])
  | 3%Z => Ok ([- sqrt (3/5); 0; sqrt (3/5)], [5/9; 8/9; 5/9])
  | _ => Err KeyError
  end.
(** precomp_time_int.py:100-103 *)
Definition newton_cotes (n : Z) : res (list R) :=
  match n with
  | 2%Z => Ok [1/2; 1/2]
  | 3%Z => Ok [1/6; 4/6; 1/6]
  | _ => Err KeyError
  end.

Open Scope string_scope.
Definition is_gauss_like (name : string) : bool :=
  String.eqb name "Gauss-Radau" || String.eqb name "Gauss".

(** precomp_time_int.py:70-116.  range(npoints) is empty for npoints <= 0;
    the comprehension divides by npoints - 1, so npoints = 1 raises
    ZeroDivisionError before the weights are looked up. *)
Definition QuadRule (name : string) (npoints : Z) : res quadrule :=
  if String.eqb name "Gauss-Radau" then
    match gauss_radau npoints with
    | Ok (ps, ws) => Ok (mkQR name npoints (Some ps) (Some ws))
    | Err e => Err e
    end
  else if String.eqb name "Gauss" then
    match gauss npoints with
    | Ok (ps, ws) => Ok (mkQR name npoints (Some ps) (Some ws))
    | Err e => Err e
    end
  else if String.eqb name "Newton-Cotes" then
    if Z.eqb npoints 1 then Err ZeroDivisionError
    else
      let ps := map (fun i => 0 + INR i / (IZR npoints - 1)) (seq 0 (Z.to_nat npoints)) in
      match newton_cotes npoints with
      | Ok ws => Ok (mkQR name npoints (Some ps) (Some ws))
      | Err e => Err e
      end
  else if String.eqb name "Midpoint-Rule" then
    Ok (mkQR name npoints (Some [0.5]) (Some [1.0]))
  else Ok (mkQR name npoints None None).

(** precomp_time_int.py:118-126; [None] is Python's None. *)
Definition current_pts (qr : quadrule) (a b : R) : res (option (list R)) :=
  if is_gauss_like (qr_name qr) then
    match qr_points qr with
    | Some ps => Ok (Some (map (fun pt => 0.5 * (b - a) * pt + 0.5 * (b + a)) ps))
    | None => Err AttributeError
    end
  else if String.eqb (qr_name qr) "Newton-Cotes" then
    if Z.eqb (qr_npoints qr) 1 then Err ZeroDivisionError
    else
      let h := (b - a) / (IZR (qr_npoints qr) - 1) in
      Ok (Some (map (fun i => a + INR i * h) (seq 0 (Z.to_nat (qr_npoints qr)))))
  else if String.eqb (qr_name qr) "Midpoint-Rule" then
    Ok (Some [0.5 * a + 0.5 * b])
  else Ok None.

(** precomp_time_int.py:128-135 *)
Definition t_weights (qr : quadrule) (delta_t : R) : res (option (list R)) :=
  if is_gauss_like (qr_name qr) then
    match qr_weights qr with
    | Some ws => Ok (Some (map (fun w => 0.5 * delta_t * w) ws))
    | None => Err AttributeError
    end
  else if String.eqb (qr_name qr) "Newton-Cotes" then
    match qr_weights qr with
    | Some ws => Ok (Some (map (fun w => delta_t * w) ws))
    | None => Err AttributeError
    end
  else if String.eqb (qr_name qr) "Midpoint-Rule" then
    Ok (Some [delta_t])
  else Ok None.
Close Scope string_scope.

(** * theta_ref, d_theta_ref *)

(** precomp_time_int.py:138 *)
Definition pts_raudau_right : list R := [0.0; 1.0].
(** precomp_time_int.py:141-145 *)
Definition theta_ref (tau : R) : R :=
  fold_left (fun result x_mu => result * ((tau - x_mu) / (-1 - x_mu))) pts_raudau_right 1.
(** precomp_time_int.py:148-156 *)
Definition d_theta_ref (tau : R) : R :=
  let n := List.length pts_raudau_right in
  let pt i := nth i pts_raudau_right 0 in
  fold_left (fun result j =>
    let fac_j := 1 / (-1 - pt j) in
    let fac_j := fold_left (fun fac mu =>
        if negb (Nat.eqb mu j) then fac * ((tau - pt mu) / (-1 - pt mu)) else fac)
      (seq 0 n) fac_j in
    result + fac_j) (seq 0 n) 0.
