(** TimeSpec.v -- specification vocabulary for the properties of
    precomp_time_int.py.  Independent of the model's tables. *)
From Coq Require Import Reals List ZArith Lra String.
From Verif Require Import Base.
Import ListNotations.
Open Scope R_scope.

(** equispaced nodes of [0, 1] for order q (one node, 0, for q = 0) *)
Definition node (q j : nat) : R := INR j / INR q.

(** the Lagrange function of node i among the q+1 nodes: the product over the
    other nodes m of (t - x_m) / (x_i - x_m) *)
Definition lagrange (q i : nat) (t : R) : R :=
  fold_right (fun m acc =>
    if Nat.eqb m i then acc
    else (t - node q m) / (node q i - node q m) * acc) 1 (seq 0 (S q)).

(** the i-th function of a table (anything outside the table is irrelevant) *)
Definition fn (l : list (R -> R)) (i : nat) : R -> R := nth i l (fun _ => 0).

(** quadratic form of an n x n table *)
Definition qform (n : nat) (m : nat -> nat -> R) (c : nat -> R) : R :=
  sumn n (fun i => sumn n (fun j => c i * m i j * c j)).

(** polynomial with coefficients l (lowest degree first), as a function *)
Definition polyfun (l : list R) (t : R) : R :=
  sumn (List.length l) (fun i => nth i l 0 * t ^ i).

(** value of a quadrature rule with points ps and weights ws *)
Definition quad_sum (ps ws : list R) (f : R -> R) : R :=
  sumn (List.length ws) (fun i => nth i ws 0 * f (nth i ps 0)).

(** the rules tabulated exactly and the highest degree they integrate *)
Open Scope string_scope.
Definition exact_degree (name : string) (n : Z) : option nat :=
  if String.eqb name "Gauss" then
    match n with 1%Z => Some 1%nat | 2%Z => Some 3%nat | 3%Z => Some 5%nat | _ => None end
  else if String.eqb name "Gauss-Radau" then
    match n with 3%Z => Some 4%nat | _ => None end
  else if String.eqb name "Newton-Cotes" then
    match n with 2%Z => Some 1%nat | 3%Z => Some 3%nat | _ => None end
  else if String.eqb name "Midpoint-Rule" then Some 1%nat
  else None.
(** all pairs for which a usable rule exists *)
Definition tabulated (name : string) (n : Z) : bool :=
  if String.eqb name "Gauss" then Z.leb 1 n && Z.leb n 3
  else if String.eqb name "Gauss-Radau" then Z.leb 3 n && Z.leb n 5
  else if String.eqb name "Newton-Cotes" then Z.leb 2 n && Z.leb n 3
  else String.eqb name "Midpoint-Rule".
Definition known_name (name : string) : bool :=
  String.eqb name "Gauss" || String.eqb name "Gauss-Radau"
  || String.eqb name "Newton-Cotes" || String.eqb name "Midpoint-Rule".
Close Scope string_scope.

(** degree of the tabulated 4- and 5-point Radau rules (2n - 2) *)
Definition radau_degree (n : Z) : option nat :=
  match n with 4%Z => Some 6%nat | 5%Z => Some 8%nat | _ => None end.
(** sum of the absolute values of the coefficients *)
Definition coef_sum (p : list R) : R := sumn (List.length p) (fun k => Rabs (nth k p 0)).
(** an array of r rows with c columns *)
Definition has_shape (r c : nat) (m : list (list R)) : Prop :=
  List.length m = r /\ forall row, In row m -> List.length row = c.
