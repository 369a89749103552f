(** MonitorModel.v -- what get_gmres_solution prints (/repo/src/dxss/gmres.py:6-20, 87-102).

    Numbers printed are doubles ([spec_float]) and integers.  Left out: the output of
    ksp.view(). *)
From Coq Require Import List ZArith Bool String Ascii Floats.SpecFloat Numbers.DecimalString.
From Coq Require Import Reals.
From Verif Require Import Base TimeModel FormModel SpaceTimeForms SpaceTimeModel GmresModel.
Import ListNotations.
Open Scope Z_scope.
Open Scope string_scope.

(** * Python's formatting *)
(** str(n) *)
Definition show_nat (n : nat) : string := NilZero.string_of_uint (Nat.to_uint n).
Definition show_int (n : Z) : string :=
  if Z.ltb n 0 then String "-" (show_nat (Z.to_nat (- n))) else show_nat (Z.to_nat n).
(** format(s, ">w"): blanks on the left *)
Fixpoint blanks (n : nat) : string := match n with O => EmptyString | S n => String " " (blanks n) end.
Definition rjust (w : nat) (s : string) : string := blanks (w - String.length s) ++ s.

(** 10^k <= n/d *)
Definition pow10_le (k n d : Z) : bool :=
  if Z.leb 0 k then Z.leb (d * 10 ^ k) n else Z.leb d (n * 10 ^ (- k)).
Fixpoint climb (fuel : nat) (k n d : Z) : Z :=
  match fuel with
  | O => k
  | S fuel => if pow10_le (k + 1) n d then climb fuel (k + 1) n d else k
  end.
(** decimal exponent of n/d, for positive n and d *)
Definition dec_exp (n d : Z) : Z :=
  climb (Z.to_nat (Z.log2 d + Z.log2 n + 3)) (- Z.log2 d - 1) n d.
(** n/d rounded to an integer, half to even *)
Definition round_even (n d : Z) : Z :=
  let q := n / d in let r := n mod d in
  if Z.ltb (2 * r) d then q else if Z.ltb d (2 * r) then q + 1 else if Z.even q then q else q + 1.
(** three significant digits: n/d is about D * 10^(k-2), 100 <= D <= 999 *)
Definition three_digits (n d : Z) : Z * Z :=
  let k := dec_exp n d in
  let D := round_even (n * 10 ^ Z.max 0 (2 - k)) (d * 10 ^ Z.max 0 (k - 2)) in
  if Z.eqb D 1000 then (100, k + 1) else (D, k).
(** numerator and denominator of m 2^e *)
Definition frac (m : positive) (e : Z) : Z * Z :=
  if Z.leb 0 e then (Zpos m * 2 ^ e, 1) else (Zpos m, 2 ^ (- e)).

Definition digit (n : Z) : ascii := ascii_of_nat (48 + Z.to_nat n).
(** D.DDe+XX: at least two digits in the exponent *)
Definition show_e (D k : Z) : string :=
  String (digit (D / 100)) (String "." (String (digit (D / 10 mod 10)) (String (digit (D mod 10))
    (String "e" (String (if Z.ltb k 0 then "-" else "+")%char
      (let x := show_nat (Z.to_nat (Z.abs k)) in if Nat.ltb (String.length x) 2 then String "0" x else x)))))).
(** format(x, "4.2e") *)
Definition format_e (x : spec_float) : string :=
  rjust 4 (match x with
  | S754_nan => "nan"
  | S754_infinity s => if s then "-inf" else "inf"
  | S754_zero s => (if s then "-" else "") ++ show_e 0 0
  | S754_finite s m e => let '(n, d) := frac m e in let '(D, k) := three_digits n d in (if s then "-" else "") ++ show_e D k
  end).

(** * gmres.py *)
(** convergence_monitor (gmres.py:6-20) *)
Definition monitor_line (its : nat) (rnorm : spec_float) : string :=
  "GMRes iteration " ++ rjust 3 (show_nat its) ++ ", residual = " ++ format_e rnorm.
(** gmres.py:96-102 *)
Definition reason_lines (reason : Z) (its : nat) : list string :=
  ("The convergence reason code is " ++ show_int reason)
  :: (if Z.ltb reason 0 then ["Solver did not converge after " ++ show_nat its ++ " iterations."] else []).
(** what the call prints: [calls] are the calls PETSc makes to an installed monitor, in order;
    [out] is None when a python callback raised *)
Definition gmres_output (db : optdb) (maxsteps : Z) (tol : option R) (restart : option Z) (printrates : bool) (reltol : option R)
    (calls : list (nat * spec_float)) (out : option kout) : list string :=
  match configure db maxsteps tol restart printrates reltol with
  | Err _ => []
  | Ok (c, _) =>
      (if k_mon c then map (fun '(i, r) => monitor_line i r) calls else [])
      ++ match out with Some o => reason_lines (o_reason o) (o_its o) | None => [] end
  end.
