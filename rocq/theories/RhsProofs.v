(** RhsProofs.v -- accuracy of the time quadrature of setup_rhs (C18). *)
From Coq Require Import Reals List ZArith Lra Lia Bool String.
From Coquelicot Require Import Coquelicot.
From Verif Require Import Base TimeModel TimeSpec TimeProofs QuadProofs FormModel SpaceTimeForms FormBlocks FormTime.
Import ListNotations.
Open Scope R_scope.

(** the four-point rule applied to products of two time basis functions *)
Lemma radau4_pairs q j k : (q <= 3)%nat -> (j <= q)%nat -> (k <= q)%nat ->
  forall qr zs, QuadRule "Gauss-Radau" 4 = Ok qr -> zip_rule qr = Ok zs ->
  Rabs (Rsum zs (fun '(tau, w) => w * (lagrange q j tau * lagrange q k tau))
        - RInt (fun t => lagrange q j t * lagrange q k t) 0 1) <= 3e-7.
Proof.
  intros Hq Hj Hk qr zs E1 E2. cbn in E1. injection E1; intros <-; clear E1. cbn in E2.
  injection E2; intros <-; clear E2.
  assert (B : exists s, basis_sym (Z.of_nat q) = Ok s).
  { destruct (basis_sym_ok (Z.of_nat q)) as [s [Es _]]; [lia|]. eauto. }
  destruct B as [s Es].
  destruct (lag_basis q Hq) as [p [d E]].
  assert (L : forall i t, (i <= q)%nat -> lagrange q i t = peval (nth i s []) t).
  { intros i t Hi. rewrite <- (tables_agree _ _ _ _ E Es).
    rewrite (basis_lagrange _ _ _ E) by lia. rewrite Nat2Z.id. reflexivity. }
  rewrite (RInt_pmul_ext _ _ _ _ (fun x => L j x Hj) (fun x => L k x Hk)).
  unfold Rsum; cbn [fold_right]. rewrite !L by assumption. clear L E p d.
  destruct q as [|[|[|[|q]]]]; try lia; cbn in Es; injection Es; intros <-; clear Es;
  destruct j as [|[|[|[|j]]]]; try lia; destruct k as [|[|[|[|k]]]]; try lia; clear;
  unfold pint; cbn; unfold Q2R; cbn [QArith_base.Qnum QArith_base.Qden];
  apply Rabs_le; split; lra.
Qed.
