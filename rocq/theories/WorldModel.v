(** WorldModel.v -- a program with several SpaceTime objects.

    Python passes objects by reference, so two SpaceTime objects built with the
    same DataDomain, or with the same dictionary of stabilisation terms, share
    them (/repo/src/dxss/space_time.py:116-124).  The constructor itself assigns
    to an attribute of the caller's DataDomain (147-152).  The single-object
    model of SpaceTimeModel.v keeps a private copy of both.  Here they live in
    the world, and every call reads what is there at the time of the call
    (365, 372-375, 735-736, 757, 810, 848, 884-887, 926, 1196, 1273).

    Simplified: each object numbers its own vectors, so one vector is not passed
    to two objects by reference; the OrderTime and OrderSpace objects, also kept
    by reference, are not modified by the caller after construction. *)
From Coq Require Import Reals List ZArith Bool String.
From Verif Require Import Base TimeModel FormModel SpaceTimeForms SpaceTimeModel ErrorsModel Lifecycle.
Import ListNotations.
Open Scope R_scope.

Definition dict : Type := string -> option R.

(** What DataDomain.indicator_function refers to (space_time.py:51): what the
    caller gave, as its value at each quadrature point of each mesh, or the
    zero function in the piecewise constants of one mesh (148-150). *)
Inductive indicator : Type :=
| Given (f : nat -> nat -> R)
| Zero_on (mesh : nat).
(** DataDomain (space_time.py:49-52) *)
Record domain : Type := mkDom { d_ind : indicator; d_fitted : bool }.
Record object : Type := mkObj { o_E : env; o_mesh : nat; o_dom : nat; o_dict : nat; o_st : state }.
Record world : Type := mkWorld { w_dom : nat -> domain; w_dict : nat -> dict; w_obj : list object }.

Definition upd {A} (f : nat -> A) (i : nat) (a : A) : nat -> A := fun j => if Nat.eqb j i then a else f j.
Fixpoint replace {A} (l : list A) (i : nat) (a : A) : list A :=
  match l, i with
  | [], _ => []
  | _ :: l, O => a :: l
  | b :: l, S i => b :: replace l i a
  end.

Definition with_stab (d : dict) (c : config) : config :=
  mkCfg (c_q c) (c_qs c) (c_k c) (c_kstar c) (c_N c) (c_T c) (c_t c) (c_dt c) (c_lam c) d (c_jumps c) (c_wp c)
    (c_el c) (c_qr c) (c_qr_ho c) (c_phi c) (c_dphi c) (c_samples c) (c_eps c) (c_v c) (c_dv c).
Definition env_stab (d : dict) (E : env) : env :=
  mkEnv (with_stab d (e_c E)) (e_D E) (e_Lf E) (e_Lp E) (e_Lc E) (e_Lb E).
Definition params_stab (d : dict) (P : params) : params :=
  mkParams (p_q P) (p_qstar P) (p_k P) (p_kstar P) (p_N P) (p_T P) (p_t P) d (p_v P) (p_dv P) (p_jumps P) (p_wp P).

Inductive wcall : Type :=
| New_object (P : params) (mesh : nat) (D : disc) (Lf Lp Lc Lb : layout) (dom dic : nat)
    (heap : nat -> vec) (next : nat)
| On (i : nat) (k : call)                        (* a method of the i-th object *)
| Set_indicator (dom : nat) (f : nat -> nat -> R) (* omega.indicator_function = f *)
| Set_fitted (dom : nat) (b : bool)               (* omega.fitted = b *)
| Set_weight (dic : nat) (name : string) (x : option R). (* stabs[name] = x, or del stabs[name] *)

Section World.
  (** The value read when a function on the first mesh is used in an integral
      over the second: unspecified. *)
  Variable foreign : nat -> nat -> nat -> R.

  Definition read (i : indicator) (mesh : nat) : nat -> R :=
    match i with
    | Given f => f mesh
    | Zero_on m => if Nat.eqb m mesh then (fun _ => 0) else foreign m mesh
    end.

  (** SpaceTime.__init__ (space_time.py:87-249).  Everything that can fail comes
      before the assignment to the DataDomain. *)
  Definition new_object (P : params) (mesh : nat) (D : disc) (Lf Lp Lc Lb : layout) (dom dic : nat)
      (heap : nat -> vec) (next : nat) (w : world) : res answer * world :=
    match construct (params_stab (w_dict w dic) P) with
    | Err e => (Err e, w)
    | Ok c =>
        let d := w_dom w dom in
        let i := if d_fitted d then Zero_on mesh else d_ind d in
        (Ok Done, mkWorld (upd (w_dom w) dom (mkDom i (d_fitted d))) (w_dict w)
           (w_obj w ++ [mkObj (mkEnv c D Lf Lp Lc Lb) mesh dom dic
                          (init_state (d_fitted d) (read (d_ind d) mesh) heap next)]))
    end.

  (** a method call reads the present indicator and the present weights *)
  Definition wstep (k : wcall) (w : world) : res answer * world :=
    match k with
    | New_object P mesh D Lf Lp Lc Lb dom dic heap next => new_object P mesh D Lf Lp Lc Lb dom dic heap next w
    | On i k =>
        match nth_error (w_obj w) i with
        | None => (Err NameError, w)
        | Some o =>
            let '(r, s) := step (env_stab (w_dict w (o_dict o)) (o_E o)) k
                             (w_om (read (d_ind (w_dom w (o_dom o))) (o_mesh o)) (o_st o)) in
            (r, mkWorld (w_dom w) (w_dict w)
                  (replace (w_obj w) i (mkObj (o_E o) (o_mesh o) (o_dom o) (o_dict o) s)))
        end
    | Set_indicator d f => (Ok Done, mkWorld (upd (w_dom w) d (mkDom (Given f) (d_fitted (w_dom w d)))) (w_dict w) (w_obj w))
    | Set_fitted d b => (Ok Done, mkWorld (upd (w_dom w) d (mkDom (d_ind (w_dom w d)) b)) (w_dict w) (w_obj w))
    | Set_weight d n x => (Ok Done, mkWorld (w_dom w)
        (upd (w_dict w) d (fun m => if String.eqb m n then x else w_dict w d m)) (w_obj w))
    end.
  Definition wafter (ks : list wcall) (w : world) : world := fold_left (fun w k => snd (wstep k w)) ks w.
  Definition wreturns (k : wcall) (w : world) : res answer := fst (wstep k w).
End World.
