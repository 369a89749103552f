(** ScratchNodes.v -- prolongation and restriction with the contents of the node functions
    u_node_fine and u_node_coarse (src/dxss/space_time.py:1382-1383, 1404-1436).  SpaceTimeModel.v
    leaves these contents out; Props_Scratch.v shows that nothing else depends on them. *)
From Coq Require Import Reals List ZArith Lia Bool.
From Verif Require Import Base TimeModel FormModel SpaceTimeForms SpaceTimeModel.
Import ListNotations.
Open Scope monad_scope.

(** the output vector and the arrays of the two node functions *)
Record nodes : Type := mkNodes { n_out : vec; n_fine : vec; n_coarse : vec }.
Definition w_fine (v : vec) (s : nodes) : nodes := mkNodes (n_out s) v (n_coarse s).
Definition w_coarse (v : vec) (s : nodes) : nodes := mkNodes (n_out s) (n_fine s) v.
Definition w_out (v : vec) (s : nodes) : nodes := mkNodes v (n_fine s) (n_coarse s).
(** fem.Function starts with zeros (space_time.py:1382-1383) *)
Definition fresh_nodes (out : vec) : nodes := mkNodes out vzero vzero.
(** u.x.array[:] of a function with n dofs *)
Definition array (u : vec) (n : nat) : list R := map u (seq 0 n).

Section Scratch.
  Variable E : env.
  Notation c := (e_c E).
  Notation D := (e_D E).
  Notation Lf := (e_Lf E).

  (** one component of prolongation (space_time.py:1411-1417) *)
  Definition prolong_comp (K : coarse) (xc : vec) (ji : nat * nat) : M nodes unit :=
    let '(j, i) := ji in
    do a <- lift (np_assign (d_dim (k_D K) Vp) (gather xc (lay_sub (k_L K) j i)));
    modify (w_coarse (of_list a)) ;;
    modify (fun s => w_fine (of_list (array (k_up K (n_coarse s)) (d_dim D Vp))) s) ;;
    do s <- get;
    do b <- lift (np_assign (List.length (lay_sub Lf j i)) (array (n_fine s) (d_dim D Vp)));
    modify (fun s => w_out (scatter (n_out s) (lay_sub Lf j i) b) s).
  (** one component of restriction (space_time.py:1428-1434) *)
  Definition restrict_comp (K : coarse) (xf : vec) (ji : nat * nat) : M nodes unit :=
    let '(j, i) := ji in
    do a <- lift (np_assign (d_dim D Vp) (gather xf (lay_sub Lf j i)));
    modify (w_fine (of_list a)) ;;
    modify (fun s => w_coarse (of_list (array (k_down K (n_fine s)) (d_dim (k_D K) Vp))) s) ;;
    do s <- get;
    do b <- lift (np_assign (List.length (lay_sub (k_L K) j i)) (array (n_coarse s) (d_dim (k_D K) Vp)));
    modify (fun s => w_out (scatter (n_out s) (lay_sub (k_L K) j i) b) s).
  (** the loops over the slabs (space_time.py:1405-1419, 1422-1436): the same counters as in
      SpaceTimeModel.trans_loop *)
  Fixpoint nodes_loop (body : nat * nat -> M nodes unit) (ns : list nat) (k : counters) : M nodes unit :=
    match ns with
    | [] => ret tt
    | _ :: ns' => for_each (trans_pairs E k) body ;; nodes_loop body ns' (cnt_next c k)
    end.
  (** prolongation (space_time.py:1404-1419), restriction (1421-1436) *)
  Definition prolong_n (K : coarse) (xc : vec) : M nodes unit := nodes_loop (prolong_comp K xc) (seq 0 (c_N c)) cnt0.
  Definition restrict_n (K : coarse) (xf : vec) : M nodes unit := nodes_loop (restrict_comp K xf) (seq 0 (c_N c)) cnt0.
End Scratch.
