(** FloatAlias.v -- apply_spacetime_matrix(vec, vec) in double precision
    (/repo/src/dxss/space_time.py:1135-1184): vec_in and vec_out are one vector, so the
    loops read what they have just written.  Copies and products as in FloatApply.v. *)
From Coq Require Import ZArith List Bool.
From Coq Require Import Floats.SpecFloat.
From Verif Require Import Base FormModel SpaceTimeForms SpaceTimeModel FloatModel FloatApply.
Import ListNotations.

Section Loops.
  Context {V : Type}.
  Variables (zero : V) (add : V -> V -> V).
  Variable E : env.
  Variables (mA mB : (nat -> V) -> nat -> V).
  (** one pass of the loop over the slabs (space_time.py:1143-1179) *)
  Definition alias_pass (n : nat) (k : counters) (st : (nat -> V) * (nat -> V) * (nat -> V)) : (nat -> V) * (nat -> V) * (nat -> V) :=
    let '(v1, w1, x) := st in
    let v1 := copies add false (e_Lp E) (e_Lf E) (slab_pairs (e_c E) k) x v1 in
    let x := copies add true (e_Lf E) (e_Lp E) (flip_pairs (slab_pairs (e_c E) k)) (mA v1) x in
    if Nat.ltb 0 n then
      let w1 := copies add false (e_Lc E) (e_Lf E) (coup_pairs k) x w1 in
      (v1, w1, copies add true (e_Lf E) (e_Lc E) (flip_pairs (coup_pairs k)) (mB w1) x)
    else (v1, w1, x).
  Fixpoint alias_passes (ns : list nat) (k : counters) (st : (nat -> V) * (nat -> V) * (nat -> V)) : (nat -> V) * (nat -> V) * (nat -> V) :=
    match ns with [] => st | n :: ns => alias_passes ns (cnt_next (e_c E) k) (alias_pass n k st) end.
  (** the vector after the call; what it held before is lost at once: vec_out.array[:] = 0.0
      (space_time.py:1136) *)
  Definition alias_loops (v1 w1 : nat -> V) : nat -> V :=
    snd (alias_passes (seq 0 (c_N (e_c E))) cnt0 (v1, w1, fun _ => zero)).
End Loops.
Definition f_alias (E : env) (A B : frows) (v1 w1 : nat -> spec_float) : nat -> spec_float :=
  alias_loops (fz 0) fadd E (f_mult A) (f_mult B) v1 w1.
