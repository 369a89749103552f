(** LinAlg.v -- square real matrices: injective implies invertible.  Used to
    show that exact slab solvers exist. *)
From Coq Require Import Reals List Lra Lia Bool Arith.
From Verif Require Import Base FormModel.
Import ListNotations.
Open Scope R_scope.

(** indices without p *)
Definition skip (p j : nat) : nat := if Nat.ltb j p then j else S j.
Lemma sumn_skip p m (f : nat -> R) : (p <= m)%nat -> sumn (S m) f = f p + sumn m (fun j => f (skip p j)).
Proof.
  revert p. induction m as [|m IH]; intros p Hp.
  - replace p with 0%nat by lia. rewrite sumn_S. cbn [seq]. rewrite !Rsum_nil. ring.
  - destruct (Nat.eq_dec p (S m)) as [->|Hne].
    + rewrite sumn_S. rewrite (sumn_ext (S m) (fun j => f (skip (S m) j)) f); [ring|].
      intros j Hj. unfold skip. destruct (Nat.ltb_spec j (S m)); [reflexivity|lia].
    + rewrite sumn_S, (IH p) by lia. rewrite (sumn_S m). cbv beta. replace (skip p m) with (S m); [ring|]. unfold skip.
      destruct (Nat.ltb_spec m p); [lia|reflexivity].
Qed.

Lemma zero_row (m : nat) (r : nat -> R) : (forall j, (j < m)%nat -> r j = 0) \/ exists p, (p < m)%nat /\ r p <> 0.
Proof.
  induction m as [|m [IH|[p [Hp H]]]].
  - left. intros; lia.
  - destruct (Req_dec (r m) 0) as [H|H].
    + left. intros j Hj. destruct (Nat.eq_dec j m) as [->|]; [exact H|apply IH; lia].
    + right. exists m. split; [lia|exact H].
  - right. exists p. split; [lia|exact H].
Qed.

(** fewer equations than unknowns: a non-trivial solution *)
Lemma underdetermined n : forall m (A : nat -> nat -> R), (n < m)%nat ->
  exists x : nat -> R, (exists j, (j < m)%nat /\ x j <> 0) /\ forall i, (i < n)%nat -> sumn m (fun j => A i j * x j) = 0.
Proof.
  induction n as [|n IH]; intros m A Hm.
  - exists (fun _ => 1). split; [exists 0%nat; split; [lia|lra]|intros; lia].
  - destruct (zero_row m (A n)) as [Hz|[p [Hp Hpv]]].
    + destruct (IH m A ltac:(lia)) as [x [Hx He]]. exists x. split; [exact Hx|].
      intros i Hi. destruct (Nat.eq_dec i n) as [->|]; [|apply He; lia].
      apply Rsum_zero. intros j Hj. apply in_seq in Hj. rewrite Hz by lia. ring.
    + destruct m as [|m]; [lia|].
      destruct (IH m (fun i j => A i (skip p j) - A i p * A n (skip p j) / A n p) ltac:(lia)) as [y [[j0 [Hj0 Hy0]] He]].
      set (xp := - sumn m (fun j => A n (skip p j) * y j) / A n p).
      exists (fun j => if Nat.eqb j p then xp else y (if Nat.ltb j p then j else (j - 1)%nat)).
      assert (Hsk : forall j, (if Nat.eqb (skip p j) p then xp else y (if Nat.ltb (skip p j) p then skip p j else (skip p j - 1)%nat)) = y j).
      { intro j. unfold skip. destruct (Nat.ltb_spec j p).
        - destruct (Nat.eqb_spec j p); [lia|]. destruct (Nat.ltb_spec j p); [reflexivity|lia].
        - destruct (Nat.eqb_spec (S j) p); [lia|]. destruct (Nat.ltb_spec (S j) p); [lia|]. f_equal. lia. }
      split.
      * exists (skip p j0). split; [unfold skip; destruct (Nat.ltb_spec j0 p); lia|]. rewrite Hsk. exact Hy0.
      * intros i Hi. rewrite (sumn_skip p) by lia. rewrite Nat.eqb_refl.
        rewrite (sumn_ext m _ (fun j => A i (skip p j) * y j)) by (intros j _; rewrite Hsk; reflexivity).
        destruct (Nat.eq_dec i n) as [->|Hne].
        -- unfold xp. field. exact Hpv.
        -- specialize (He i ltac:(lia)). cbv beta in He.
           rewrite (sumn_ext m _ (fun j => A i (skip p j) * y j - (A i p / A n p) * (A n (skip p j) * y j))) in He
             by (intros j _; field; exact Hpv).
           rewrite Rsum_minus, Rsum_scal in He. unfold xp.
           replace (A i p * (- sumn m (fun j => A n (skip p j) * y j) / A n p))
             with (- (A i p / A n p * sumn m (fun j => A n (skip p j) * y j))) by (field; exact Hpv).
           lra.
Qed.

(** the homogeneous system has only the trivial solution *)
Definition injective (n : nat) (A : matrix) : Prop :=
  forall x, (forall i, (i < n)%nat -> mult n A x i = 0) -> forall j, (j < n)%nat -> x j = 0.
Lemma injective_solve n A b : injective n A -> exists x, forall i, (i < n)%nat -> mult n A x i = b i.
Proof.
  intro HA. destruct (underdetermined n (S n) (fun i j => if Nat.eqb j n then - b i else A i j) ltac:(lia)) as [x [[j0 [Hj0 Hx0]] He]].
  assert (He' : forall i, (i < n)%nat -> mult n A x i = x n * b i).
  { intros i Hi. specialize (He i Hi). rewrite sumn_S, Nat.eqb_refl in He. unfold mult.
    rewrite (sumn_ext n _ (fun j => A i j * x j)) in He; [lra|].
    intros j Hj. destruct (Nat.eqb_spec j n); [lia|reflexivity]. }
  destruct (Req_dec (x n) 0) as [Hz|Hz].
  - exfalso. apply Hx0. destruct (Nat.eq_dec j0 n) as [->|]; [exact Hz|].
    apply (HA x); [|lia]. intros i Hi. rewrite He', Hz by exact Hi. ring.
  - exists (fun j => x j / x n). intros i Hi. unfold mult in *.
    rewrite (sumn_ext n _ (fun j => / x n * (A i j * x j))) by (intros; field; exact Hz).
    rewrite Rsum_scal, He' by exact Hi. field. exact Hz.
Qed.
Lemma finite_choice n (Q : nat -> vec -> Prop) : (forall k, (k < n)%nat -> exists x, Q k x) ->
  exists X : nat -> vec, forall k, (k < n)%nat -> Q k (X k).
Proof.
  induction n as [|n IH]; intro H.
  - exists (fun _ _ => 0). intros; lia.
  - destruct IH as [X HX]; [intros; apply H; lia|]. destruct (H n ltac:(lia)) as [x Hx].
    exists (fun k => if Nat.eqb k n then x else X k). intros k Hk. destruct (Nat.eqb_spec k n) as [->|]; [exact Hx|apply HX; lia].
Qed.
(** a right inverse, applied to b by columns *)
Definition by_columns (n : nat) (X : nat -> vec) (b : vec) : vec := fun j => sumn n (fun k => b k * X k j).
Theorem injective_inverse n A : injective n A ->
  exists X, forall b i, (i < n)%nat -> mult n A (by_columns n X b) i = b i.
Proof.
  intro HA. destruct (finite_choice n (fun k x => forall i, (i < n)%nat -> mult n A x i = delta i k)) as [X HX].
  { intros k Hk. apply injective_solve. exact HA. }
  exists X. intros b i Hi. unfold mult, by_columns.
  rewrite (sumn_ext n _ (fun j => sumn n (fun k => b k * (A i j * X k j)))).
  2:{ intros j _. rewrite <- Rsum_scal. apply Rsum_ext; intro k. ring. }
  rewrite Rsum_swap. rewrite (sumn_ext n _ (fun k => delta i k * b k)).
  - apply sumn_delta. exact Hi.
  - intros k Hk. rewrite Rsum_scal. specialize (HX k Hk i Hi). unfold mult in HX. rewrite HX. ring.
Qed.
Lemma by_columns_lin n X k1 b1 k2 b2 j :
  by_columns n X (fun k => k1 * b1 k + k2 * b2 k) j = k1 * by_columns n X b1 j + k2 * by_columns n X b2 j.
Proof.
  unfold by_columns. rewrite <- !Rsum_scal, <- Rsum_plus. apply Rsum_ext; intro k. ring.
Qed.
Lemma by_columns_ext n X b b' j : (forall k, (k < n)%nat -> b k = b' k) -> by_columns n X b j = by_columns n X b' j.
Proof. intro H. unfold by_columns. apply sumn_ext; intros k Hk. rewrite H by exact Hk. reflexivity. Qed.
