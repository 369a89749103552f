(** LeastSquares.v -- least-squares problems have solutions; the iterates of GMRES exist. *)
From Coq Require Import Reals List ZArith Lra Lia Bool.
From Verif Require Import Base FormModel FormSpec FormProofs SpaceTimeForms SpaceTimeModel LinAlg Krylov.
Import ListNotations.
Open Scope R_scope.

Definition vdot (n : nat) (a b : vec) : R := sumn n (fun l => a l * b l).
Lemma vdot_ext n a a' b b' : same n a a' -> same n b b' -> vdot n a b = vdot n a' b'.
Proof. intros H1 H2. apply sumn_ext. intros i Hi. rewrite H1, H2 by exact Hi. reflexivity. Qed.
Lemma vdot_comm n a b : vdot n a b = vdot n b a.
Proof. apply sumn_ext. intros. ring. Qed.
Lemma vdot_lin n c a d b w : vdot n (fun l => c * a l + d * b l) w = c * vdot n a w + d * vdot n b w.
Proof. unfold vdot. rewrite <- !Rsum_scal, <- Rsum_plus. apply sumn_ext. intros. ring. Qed.
Lemma vdot_sum n m (c : nat -> R) (V : nat -> vec) w :
  vdot n (fun l => sumn m (fun i => c i * V i l)) w = sumn m (fun i => c i * vdot n (V i) w).
Proof.
  induction m as [|m IH].
  - cbn [seq]. rewrite Rsum_nil. unfold vdot. apply Rsum_zero. intros. cbn [seq]. rewrite Rsum_nil. ring.
  - rewrite sumn_S, <- IH.
    rewrite (vdot_ext n _ (fun l => 1 * sumn m (fun i => c i * V i l) + c m * V m l) w w); [|intros l _; rewrite sumn_S; ring|intros l _; reflexivity].
    rewrite vdot_lin. ring.
Qed.
Lemma vdot_pos n a : 0 <= vdot n a a.
Proof. apply Rsum_nonneg. intros. apply Rle_0_sqr. Qed.
Lemma vdot_zero n a : vdot n a a = 0 -> same n a (fun _ => 0).
Proof.
  intros H i Hi. assert (G : a i * a i = 0).
  { apply (Rsum_nonneg_zero (seq 0 n) (fun l => a l * a l)); [intros; apply Rle_0_sqr|exact H|apply in_seq; lia]. }
  apply Rmult_integral in G. destruct G; assumption.
Qed.

(** a combination of V 0, .., V (m-1) with residual orthogonal to them *)
Lemma normal_equations n (V : nat -> vec) m : forall b, exists a, forall j, (j < m)%nat ->
  vdot n (fun l => b l - sumn m (fun i => a i * V i l)) (V j) = 0.
Proof.
  induction m as [|m IH]; intro b; [exists (fun _ => 0); intros; lia|].
  destruct (IH b) as [a Ha]. destruct (IH (V m)) as [d Hd].
  set (w := fun l => V m l - sumn m (fun i => d i * V i l)) in *.
  set (r := fun l => b l - sumn m (fun i => a i * V i l)) in *.
  destruct (Req_dec (vdot n w w) 0) as [Z|Z].
  - exists (fun i => if Nat.ltb i m then a i else 0). intros j Hj.
    assert (R1 : same n (fun l => b l - sumn (S m) (fun i => (if Nat.ltb i m then a i else 0) * V i l)) r).
    { intros l _. unfold r. rewrite sumn_S. destruct (Nat.ltb_spec m m); [lia|]. rewrite Rmult_0_l, Rplus_0_r. f_equal.
      apply sumn_ext. intros i Hi. destruct (Nat.ltb_spec i m); [reflexivity|lia]. }
    rewrite (vdot_ext n _ r _ (V j) R1) by (intros l _; reflexivity).
    destruct (Nat.eq_dec j m) as [->|Hn]; [|apply Ha; lia].
    pose proof (vdot_zero n w Z) as W.
    rewrite (vdot_ext n r r (V m) (fun l => sumn m (fun i => d i * V i l))); [|intros l _; reflexivity|intros l Hl; specialize (W l Hl); unfold w in W; lra].
    rewrite vdot_comm, vdot_sum. apply Rsum_zero. intros i Hi. apply in_seq in Hi. rewrite vdot_comm, Ha by lia. ring.
  - set (t := vdot n r w / vdot n w w).
    exists (fun i => if Nat.ltb i m then a i - t * d i else t). intros j Hj.
    assert (R1 : same n (fun l => b l - sumn (S m) (fun i => (if Nat.ltb i m then a i - t * d i else t) * V i l)) (fun l => 1 * r l + (- t) * w l)).
    { intros l _. unfold r, w. rewrite sumn_S. destruct (Nat.ltb_spec m m); [lia|].
      rewrite (sumn_ext m _ (fun i => a i * V i l - t * (d i * V i l))).
      - rewrite Rsum_minus, Rsum_scal. ring.
      - intros i Hi. destruct (Nat.ltb_spec i m); [ring|lia]. }
    rewrite (vdot_ext n _ _ _ (V j) R1) by (intros l _; reflexivity). rewrite vdot_lin.
    destruct (Nat.eq_dec j m) as [->|Hn].
    + assert (Vm : same n (V m) (fun l => 1 * w l + 1 * sumn m (fun i => d i * V i l))) by (intros l _; unfold w; ring).
      assert (S0 : forall x, (forall i, (i < m)%nat -> vdot n x (V i) = 0) -> vdot n x (V m) = vdot n x w).
      { intros x Hx. rewrite (vdot_ext n x x _ _ (fun l _ => eq_refl) Vm), vdot_comm, vdot_lin, vdot_sum.
        rewrite (Rsum_zero (seq 0 m)); [rewrite (vdot_comm n w x); ring|]. intros i Hi. apply in_seq in Hi. rewrite vdot_comm, Hx by lia. ring. }
      rewrite (S0 r) by (intros; apply Ha; assumption). rewrite (S0 w) by (intros; apply Hd; assumption).
      unfold t. field. exact Z.
    + rewrite Ha, Hd by lia. ring.
Qed.
(** least squares *)
Lemma least_squares n (V : nat -> vec) m b : exists a, forall a',
  sumn n (fun l => (b l - sumn m (fun i => a i * V i l)) ^ 2) <= sumn n (fun l => (b l - sumn m (fun i => a' i * V i l)) ^ 2).
Proof.
  destruct (normal_equations n V m b) as [a Ha]. exists a. intro a'.
  set (r := fun l => b l - sumn m (fun i => a i * V i l)) in *.
  set (e := fun l => sumn m (fun i => (a i - a' i) * V i l)).
  assert (H : vdot n r e = 0).
  { rewrite vdot_comm. unfold e. rewrite vdot_sum. apply Rsum_zero. intros i Hi. apply in_seq in Hi. rewrite vdot_comm, Ha by lia. ring. }
  rewrite (sumn_ext n (fun l => (b l - sumn m (fun i => a' i * V i l)) ^ 2) (fun l => r l * r l + 2 * (r l * e l) + e l * e l)).
  - rewrite !Rsum_plus, Rsum_scal. fold (vdot n r r). fold (vdot n r e). fold (vdot n e e). rewrite H.
    rewrite (sumn_ext n (fun l => (b l - _) ^ 2) (fun l => r l * r l)) by (intros; unfold r; ring). fold (vdot n r r).
    pose proof (vdot_pos n e). lra.
  - intros l _. unfold r, e. rewrite (sumn_ext m (fun i => (a i - a' i) * V i l) (fun i => a i * V i l - a' i * V i l)) by (intros; ring).
    rewrite Rsum_minus. ring.
Qed.
