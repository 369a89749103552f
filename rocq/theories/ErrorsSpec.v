(** ErrorsSpec.v -- what measured_errors of /repo/src/dxss/space_time.py is meant
    to measure: the distance of a continuous-in-time reconstruction of the
    discrete solution to the exact one.  Written without reference to
    ErrorsModel.v. *)
From Coq Require Import Reals List Lra Lia Bool.
From Coquelicot Require Import Coquelicot.
From Verif Require Import Base TimeSpec FormModel FormSpec.
Import ListNotations.
Open Scope R_scope.

(** quadratic polynomial with value 1 at -1 and 0 at 0 and 1 *)
Definition lift_pol (x : R) : R := x * (x - 1) / 2.

Section Spec.
  Variables (D : disc) (d : tdisc) (v dv : R -> list R -> R) (U : field).
  (** The reconstruction on slab n: the discrete function u1 minus its jump at
      the start of the slab times the polynomial above, moved to the slab *)
  Definition recon (n : nat) (t : R) : vec := fun l =>
    at_time d U 0 n t l
    - (if Nat.ltb 0 n then lift_pol ((2 * t - (2 * INR n + 1) * t_dt d) / t_dt d) * jumpv d U 0 n l else 0).
  (** squared L2 norm of a function given at the quadrature points *)
  Definition dist2 (f : nat -> R) : R := Rsum (d_pts D Dx) (fun p => d_w D Dx p * f p ^ 2).
  (** squared L2 errors of the reconstruction and of its time derivative *)
  Definition err2 (n : nat) (t : R) : R := dist2 (fun p => fev D Dx Vp Val (recon n t) p 0 - v t (d_x D p)).
  Definition derr2 (n : nat) (t : R) : R := dist2 (fun p => fev D Dx Vp Val (ddt (recon n) t) p 0 - dv t (d_x D p)).
  (** t lies in the closed slab n *)
  Definition within (n : nat) (t : R) : Prop := INR n * t_dt d <= t <= INR n * t_dt d + t_dt d.
End Spec.
