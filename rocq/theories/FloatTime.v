(** FloatTime.v -- the time basis and the local time coordinates in double
    precision (/repo/src/dxss/precomp_time_int.py:80-87, 118-130, 138-192,
    /repo/src/dxss/space_time.py:1492-1510, 1527, 1535, 1541-1549, 1639-1656).  Doubles as in
    FloatModel.v; Python's integers in these expressions are exact doubles. *)
From Coq Require Import ZArith List Bool.
From Coq Require Import Floats.SpecFloat.
From Verif Require Import Base FloatModel.
Import ListNotations.

Definition fopp : spec_float -> spec_float := SFopp.
(** the quotient of two integer literals, 2/3 say *)
Definition fq (a b : Z) : spec_float := fdiv (fz a) (fz b).

Section Formulas.
  Declare Scope dbl_scope.
  Local Notation "a + b" := (fadd a b) : dbl_scope.
  Local Notation "a - b" := (fsub a b) : dbl_scope.
  Local Notation "a * b" := (fmul a b) : dbl_scope.
  Local Notation "- a" := (fopp a) : dbl_scope.
  Local Open Scope dbl_scope.
  (** basis_in_time (precomp_time_int.py:159-192) *)
  Definition f_basis (q : Z) : res (list (spec_float -> spec_float) * list (spec_float -> spec_float)) :=
    match q with
    | 0%Z => Ok ([fun _ => fz 1], [fun _ => fz 0])
    | 1%Z => Ok ([fun t => fz 1 - t; fun t => t], [fun _ => fz (-1); fun _ => fz 1])
    | 2%Z => Ok ([fun t => fz 2 * (fz 1 - t) * (fq 1 2 - t);
                  fun t => fz 4 * t * (fz 1 - t);
                  fun t => fz 2 * t * (t - fq 1 2)],
                 [fun t => fz (-3) + fz 4 * t; fun t => fz 4 - fz 8 * t; fun t => fz 4 * t - fz 1])
    | 3%Z => Ok ([fun t => fq (-9) 2 * (t - fz 1) * (t - fq 2 3) * (t - fq 1 3);
                  fun t => fq 27 2 * t * (t - fz 1) * (t - fq 2 3);
                  fun t => - (fq 27 2) * t * (t - fz 1) * (t - fq 1 3);
                  fun t => fq 9 2 * t * (t - fq 1 3) * (t - fq 2 3)],
                 [fun t => fq (-9) 2 * ((t - fq 2 3) * (t - fq 1 3) + (t - fz 1) * (t - fq 1 3) + (t - fz 1) * (t - fq 2 3));
                  fun t => fq 27 2 * ((t - fz 1) * (t - fq 2 3) + t * (t - fq 2 3) + t * (t - fz 1));
                  fun t => - (fq 27 2) * ((t - fz 1) * (t - fq 1 3) + t * (t - fq 1 3) + t * (t - fz 1));
                  fun t => fq 9 2 * ((t - fq 1 3) * (t - fq 2 3) + t * (t - fq 2 3) + t * (t - fq 1 3))])
    | _ => Err KeyError
    end.
  (** t_n = n * delta_t (space_time.py:1480) *)
  Definition f_start (T : spec_float) (N n : nat) : spec_float := fn n * f_dt T N.
  (** time_ti = t_n + delta_t * tau (space_time.py:1496, 1640, 1763) *)
  Definition f_time (T : spec_float) (N n : nat) (tau : spec_float) : spec_float := f_start T N n + f_dt T N * tau.
  (** (t - t_n) / delta_t (space_time.py:1501, 1527, 1535, 1646, 1656, 1768, 1778) *)
  Definition f_local (T : spec_float) (N n : nat) (t : spec_float) : spec_float := fdiv (t - f_start T N n) (f_dt T N).
  (** (2 * t - (t_n + delta_t + t_n)) / delta_t (space_time.py:1510, 1542, 1548) *)
  Definition f_reflect (T : spec_float) (N n : nat) (t : spec_float) : spec_float :=
    fdiv (fz 2 * t - (f_start T N n + f_dt T N + f_start T N n)) (f_dt T N).
  (** pts_raudau_right (precomp_time_int.py:138) *)
  Definition f_radau : list spec_float := [fz 0; fz 1].
  (** theta_ref (precomp_time_int.py:141-145) *)
  Definition f_theta_ref (tau : spec_float) : spec_float :=
    fold_left (fun result x_mu => result * fdiv (tau - x_mu) (fz (-1) - x_mu)) f_radau (fz 1).
  (** d_theta_ref (precomp_time_int.py:148-156) *)
  Definition f_d_theta_ref (tau : spec_float) : spec_float :=
    let n := List.length f_radau in
    let pt i := nth i f_radau (fz 0) in
    fold_left (fun result j =>
      let fac_j := fdiv (fz 1) (fz (-1) - pt j) in
      let fac_j := fold_left (fun fac mu =>
          if negb (Nat.eqb mu j) then fac * fdiv (tau - pt mu) (fz (-1) - pt mu) else fac)
        (seq 0 n) fac_j in
      result + fac_j)
      (seq 0 n) (fz 0).
  (** a decimal literal with six digits behind the point *)
  Definition fd (m : Z) : spec_float := fq m 1000000.
  (** the Gauss-Radau tables with 4 and 5 points (precomp_time_int.py:80-87); the one with 3
      points has symbolic entries *)
  Definition f_gauss_radau (npoints : Z) : res (list spec_float * list spec_float) :=
    match npoints with
    | 4%Z => Ok ([fz (-1); - fd 575319; fd 181066; fd 822824], [fd 125000; fd 657689; fd 776387; fd 440924])
    | 5%Z => Ok ([fz (-1); - fd 720480; - fd 167181; fd 446314; fd 885792], [fd 80000; fd 446208; fd 623653; fd 562712; fd 287427])
    | _ => Err KeyError
    end.
  (** current_pts (precomp_time_int.py:118-120) *)
  Definition f_current_pts (ps : list spec_float) (a b : spec_float) : list spec_float :=
    map (fun pt => fq 1 2 * (b - a) * pt + fq 1 2 * (b + a)) ps.
  (** t_weights (precomp_time_int.py:128-130) *)
  Definition f_t_weights (ws : list spec_float) (delta_t : spec_float) : list spec_float := map (fun w => fq 1 2 * delta_t * w) ws.
End Formulas.
