(** FloatTransfer.v -- prolongation, restriction and q_op in double precision
    (/repo/src/dxss/space_time.py:1404-1441).  Doubles as in FloatModel.v.

    The loops are written for any type of numbers: with the reals they are those of
    SpaceTimeModel.v (C111_reals).  Primal and dual spaces have the same number of functions in
    space; otherwise the transfers raise (C41).  The interpolation between the two meshes is any
    map of the coefficients. *)
From Coq Require Import ZArith List Bool.
From Coq Require Import Floats.SpecFloat.
From Verif Require Import Base FormModel SpaceTimeForms SpaceTimeModel FloatModel FloatApply.
Import ListNotations.

Section Loops.
  Context {V : Type}.
  Variables (zero : V) (E : env).
  (** layouts of the source and the target, size of the node function of the target *)
  Variables (Ls Ld : layout) (nd : nat).
  (** u_node_dst.interpolate(u_node_src) *)
  Variable ip : (nat -> V) -> nat -> V.
  Variable src : nat -> V.
  (** the coefficients copied to the node function of the source *)
  Definition node (j i : nat) : nat -> V := fun l => nth l (map src (lay_sub Ls j i)) zero.
  (** one component (space_time.py:1411-1417, 1428-1434) *)
  Definition transfer1 (dst : nat -> V) (p : nat * nat) : nat -> V :=
    let '(j, i) := p in puts dst (lay_sub Ld j i) (map (ip (node j i)) (seq 0 nd)).
  (** the loop over the slabs *)
  Fixpoint transfers (ns : list nat) (k : counters) (dst : nat -> V) : nat -> V :=
    match ns with [] => dst | _ :: ns => transfers ns (cnt_next (e_c E) k) (fold_left transfer1 (trans_pairs E k) dst) end.
  Definition transfer (dst : nat -> V) : nat -> V := transfers (seq 0 (c_N (e_c E))) cnt0 dst.
End Loops.

Section Doubles.
  Variables (E : env) (DK : disc) (LK : layout).
  Variables (up down : (nat -> spec_float) -> nat -> spec_float).
  (** prolongation (space_time.py:1404-1419) *)
  Definition f_prolong (xc xf : nat -> spec_float) : nat -> spec_float := transfer (fz 0) E LK (e_Lf E) (d_dim (e_D E) Vp) up xc xf.
  (** restriction (space_time.py:1421-1436) *)
  Definition f_restrict (xf xc : nat -> spec_float) : nat -> spec_float := transfer (fz 0) E (e_Lf E) LK (d_dim DK Vp) down xf xc.
  (** q_op (space_time.py:1438-1441); [t1], [t2]: tmp1_coarse, tmp2_coarse; result: tmp1_coarse,
      tmp2_coarse, x_out *)
  Definition f_q_op (sol : (nat -> spec_float) -> (nat -> spec_float) -> nat -> spec_float) (x t1 t2 out : nat -> spec_float) :
    (nat -> spec_float) * (nat -> spec_float) * (nat -> spec_float) :=
    let t1 := f_restrict x t1 in
    let t2 := sol t1 t2 in
    (t1, t2, f_prolong t2 out).
End Doubles.
