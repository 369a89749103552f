(** FloatApply.v -- apply_spacetime_matrix in double precision
    (/repo/src/dxss/space_time.py:1135-1184).  Doubles as in FloatModel.v.

    The two matrices are given by their stored entries.  The loops are written for any
    type of numbers: with the reals they are those of SpaceTimeModel.v (C92_reals). *)
From Coq Require Import ZArith List Bool.
From Coq Require Import Floats.SpecFloat.
From Verif Require Import Base FormModel SpaceTimeForms SpaceTimeModel FloatModel.
Import ListNotations.

Section Loops.
  Context {V : Type}.
  Variables (zero : V) (add : V -> V -> V).
  (** numpy assignment at a list of indices *)
  Definition put1 (v : nat -> V) (i : nat) (x : V) : nat -> V := fun k => if Nat.eqb k i then x else v k.
  Fixpoint puts (v : nat -> V) (idx : list nat) (vals : list V) : nat -> V :=
    match idx, vals with
    | i :: idx', x :: vals' => puts (put1 v i x) idx' vals'
    | _, _ => v
    end.
  (** dst[dofmap[jd][id]] = (or +=) src[dofmap[js][is]] *)
  Definition copies (acc : bool) (Ld Ls : layout) (prs : pairs) (src dst : nat -> V) : nat -> V :=
    fold_left (fun w '((jd, id), (js, is)) =>
      puts w (lay_sub Ld jd id)
        (if acc then map2 add (map w (lay_sub Ld jd id)) (map src (lay_sub Ls js is)) else map src (lay_sub Ls js is)))
      prs dst.
  Variable E : env.
  (** slab_matrix_no_dg_jumps.mult, coupling_matrix_between_slices.mult *)
  Variables (mA mB : (nat -> V) -> nat -> V).
  Variable x : nat -> V.
  (** one pass of the loop over the slabs (space_time.py:1143-1179); [v1], [w1]: vec_slab1,
      vec_coupling1 *)
  Definition pass (n : nat) (k : counters) (st : (nat -> V) * (nat -> V) * (nat -> V)) : (nat -> V) * (nat -> V) * (nat -> V) :=
    let '(v1, w1, out) := st in
    let v1 := copies false (e_Lp E) (e_Lf E) (slab_pairs (e_c E) k) x v1 in
    let out := copies true (e_Lf E) (e_Lp E) (flip_pairs (slab_pairs (e_c E) k)) (mA v1) out in
    if Nat.ltb 0 n then
      let w1 := copies false (e_Lc E) (e_Lf E) (coup_pairs k) x w1 in
      (v1, w1, copies true (e_Lf E) (e_Lc E) (flip_pairs (coup_pairs k)) (mB w1) out)
    else (v1, w1, out).
  Fixpoint passes (ns : list nat) (k : counters) (st : (nat -> V) * (nat -> V) * (nat -> V)) : (nat -> V) * (nat -> V) * (nat -> V) :=
    match ns with [] => st | n :: ns => passes ns (cnt_next (e_c E) k) (pass n k st) end.
  (** vec_out after the call; vec_slab1 and vec_coupling1 hold [v1] and [w1] before it *)
  Definition apply_loops (v1 w1 : nat -> V) : nat -> V :=
    snd (passes (seq 0 (c_N (e_c E))) cnt0 (v1, w1, fun _ => zero)).
End Loops.

(** stored entries of a row: column, value *)
Definition frows : Type := nat -> list (nat * spec_float).
(** Mat.mult: sum = 0.0, then sum += value * x[column] along the row *)
Definition f_mult (A : frows) (x : nat -> spec_float) : nat -> spec_float :=
  fun i => fold_left (fun s '(j, v) => fadd s (fmul v (x j))) (A i) (fz 0).
Definition f_apply (E : env) (A B : frows) (x v1 w1 : nat -> spec_float) : nat -> spec_float :=
  apply_loops (fz 0) fadd E (f_mult A) (f_mult B) x v1 w1.
