(** FloatClient.v -- a client of the two wrapper classes in double precision
    (/repo/src/dxss/space_time.py:1867-1926, called by the iterative solver of
    /repo/src/dxss/gmres.py:50-96).  Doubles as in FloatModel.v, loops as in FloatApply.v,
    FloatMarch.v and FloatPre.v.

    The client is any program that multiplies with the matrix and applies the preconditioner, in an
    order that may depend on all results so far; the scratch vectors of the SpaceTime object stay
    between the calls.  Vectors are their entries.  vec_in and vec_out of a product are different
    vectors (for one vector see C23); the preconditioner may be applied in place. *)
From Coq Require Import ZArith List Bool.
From Coq Require Import Floats.SpecFloat.
From Verif Require Import Base FormModel SpaceTimeForms SpaceTimeModel FloatModel FloatApply FloatMarch FloatPre.
Import ListNotations.

Notation dvec := (list spec_float).
Definition at_list (v : dvec) : nat -> spec_float := fun k => nth k v (fz 0).
(** [old]: what vec_out contains before the call *)
Inductive client : Type :=
| Done (r : dvec)
| Mult (v old : dvec) (k : dvec -> client)
| Prec (same : bool) (v old : dvec) (k : dvec -> client).
(** what the calls leave in the object: vec_slab1, vec_coupling1, uh_pre, u1_0_pre, u2_0_pre *)
Record scratch : Type := mkScratch { f_v1 : nat -> spec_float; f_w1 : nat -> spec_float; f_uh : nat -> spec_float; f_u1 : nat -> spec_float; f_u2 : nat -> spec_float }.

Section Client.
  Variable E : env.
  Variables (A B M : frows) (asm0 : nat -> spec_float) (asm1 : (nat -> spec_float) -> (nat -> spec_float) -> nat -> spec_float).
  Variables (sol0 sol1 : (nat -> spec_float) -> (nat -> spec_float) -> nat -> spec_float).
  (** whether apply calls pre_time_marching_improved, as it does (space_time.py:1898), or
      pre_time_marching *)
  Variable improved : bool.
  Definition entries (x : nat -> spec_float) : dvec := map x (seq 0 (lay_dim (e_Lf E))).
  (** SpaceTimePETScMatrixWrapper.mult (space_time.py:1913-1926) *)
  Definition mult_call (v : dvec) (s : scratch) : dvec * scratch :=
    let '(v1, w1, out) := passes fadd E (f_mult A) (f_mult B) (at_list v) (seq 0 (c_N (e_c E))) cnt0 (f_v1 s, f_w1 s, fun _ => fz 0) in
    (entries out, mkScratch v1 w1 (f_uh s) (f_u1 s) (f_u2 s)).
  (** SpaceTimePETScPreconditionerWrapper.apply (space_time.py:1884-1898) *)
  Definition prec_call (same : bool) (v old : dvec) (s : scratch) : dvec * scratch :=
    let x := if same then at_list v else at_list old in
    if improved then
      let '(_, uh, x) := march_passes (fz 0) fadd E sol0 sol1 (f_mult M) same (at_list v) (seq 0 (c_N (e_c E))) cnt0 (fun _ => fz 0, f_uh s, x) in
      (entries x, mkScratch (f_v1 s) (f_w1 s) uh (f_u1 s) (f_u2 s))
    else
      let '(u1, u2, uh, x) := pre_passes (fz 0) fadd E asm0 asm1 sol0 sol1 same (at_list v) (seq 0 (c_N (e_c E))) cnt0 (f_u1 s, f_u2 s, f_uh s, x) in
      (entries x, mkScratch (f_v1 s) (f_w1 s) uh u1 u2).
  Fixpoint run (p : client) (s : scratch) : dvec * scratch :=
    match p with
    | Done r => (r, s)
    | Mult v _ k => let '(y, s) := mult_call v s in run (k y) s
    | Prec same v old k => let '(y, s) := prec_call same v old s in run (k y) s
    end.
End Client.
(** the same client when both calls are functions of the vector *)
Fixpoint run_maps (a p : dvec -> dvec) (c : client) : dvec :=
  match c with Done r => r | Mult v _ k => run_maps a p (k (a v)) | Prec _ v _ k => run_maps a p (k (p v)) end.
