(** GuardProofs.v -- entries of the mixed time mass matrix (C16). *)
From Coq Require Import Reals List ZArith Lra Lia Bool.
From Verif Require Import Base TimeModel TimeSpec TimeProofs.
Import ListNotations.
Open Scope R_scope.

(** the guard of the Nitsche terms skips only zero entries (C16) *)
Lemma guard_entries q qs e : get_elmat_time q qs = Ok e ->
  forall k j, (k <= Z.to_nat qs)%nat -> (j <= Z.to_nat q)%nat ->
  mget (M_time_q_qstar e) k j = 0 \/ 1e-10 < Rabs (mget (M_time_q_qstar e) k j).
Proof.
  intros H k j Hk Hj. destruct (get_elmat_inv _ _ _ H) as [phis [chis [Hp [Hc He]]]].
  pose proof (basis_sym_dom _ _ Hp) as Dq. pose proof (basis_sym_dom _ _ Hc) as Dqs.
  subst e. unfold elmat_of; cbn [M_time_q_qstar]. rewrite mget_fill by lia. clear H.
  destruct Dq as [->|[->|[->| ->]]]; destruct Dqs as [->|[->|[->| ->]]];
  cbv [basis_sym] in Hp, Hc; injection Hp; intros <-; injection Hc; intros <-; clear Hp Hc;
  cbv [Z.to_nat Pos.to_nat Pos.iter_op Init.Nat.add] in Hk, Hj;
  destruct k as [|[|[|[|k]]]]; try lia; destruct j as [|[|[|[|j]]]]; try lia; clear;
  unfold pint; cbn;
  unfold Q2R; cbn [QArith_base.Qnum QArith_base.Qden];
  first [left; lra | right; unfold Rabs; destruct (Rcase_abs _); lra].
Qed.
