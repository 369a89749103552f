(** MpiTransfer.v -- prolongation and restriction on one of several MPI processes
    (src/dxss/space_time.py:1404-1436; the distribution of MpiModel.v). *)
From Coq Require Import Reals List ZArith Lia Bool.
From Verif Require Import Base TimeModel FormModel SpaceTimeForms SpaceTimeModel MpiModel.
Import ListNotations.
Open Scope monad_scope.

(** x.array[idx] = vals of a node function, a single value being repeated *)
Definition store_from (a : list R) (idx : list nat) (vals : list R) : res (list R) :=
  rbind (take a idx) (fun _ => rbind (np_assign (length idx) vals) (fun b => Ok (set_all a idx b))).

Section Rank.
  Variable E : env.
  Notation c := (e_c E).
  (** source and target: mesh, distribution, numbering of the dofs; the two meshes are distributed
      independently of each other *)
  Variables (D1 D2 : disc) (S1 S2 : split) (L1 L2 : layout) (n1 n2 : numbering) (r : nat).
  (** size of u_node_... on the rank: owned nodes and ghosts (space_time.py:1378-1383) *)
  Definition node_size (D : disc) (S : split) : nat := length (owned D S r Vp) + length (sp_ghost S r Vp).
  (** one component (space_time.py:1411-1417, 1428-1434).  interpolate is collective: what the
      target function holds on this rank afterwards is [got (j, i)], with one value per node.  The
      array of the target vector is the state. *)
  Definition comp_rank (got : nat * nat -> list R) (src : list R) (ji : nat * nat) : M (list R) unit :=
    let '(j, i) := ji in
    do v <- lift (take src (local_map D1 S1 L1 n1 r j i));
    do _ <- lift (np_assign (node_size D1 S1) v);
    do a <- get;
    do a' <- lift (store_from a (local_map D2 S2 L2 n2 r j i) (got ji));
    modify (fun _ => a').
  (** the loops over the slabs (space_time.py:1405-1419, 1422-1436) *)
  Fixpoint rank_loop (body : nat * nat -> M (list R) unit) (ns : list nat) (k : counters) : M (list R) unit :=
    match ns with
    | [] => ret tt
    | _ :: ns' => for_each (trans_pairs E k) body ;; rank_loop body ns' (cnt_next c k)
    end.
  Definition transfer_rank (got : nat * nat -> list R) (src : list R) : M (list R) unit :=
    rank_loop (comp_rank got src) (seq 0 (c_N c)) cnt0.
End Rank.
(** prolongation: from the coarse to the fine mesh; restriction: back *)
Definition prolong_rank (E : env) (K : coarse) (Sc Sf : split) (nc nf : numbering) (r : nat) :=
  transfer_rank E (k_D K) (e_D E) Sc Sf (k_L K) (e_Lf E) nc nf r.
Definition restrict_rank (E : env) (K : coarse) (Sc Sf : split) (nc nf : numbering) (r : nat) :=
  transfer_rank E (e_D E) (k_D K) Sf Sc (e_Lf E) (k_L K) nf nc r.
