(** MarchUnique.v -- with slab solvers that compute a function of the
    right-hand side, time marching is a causal map of its input, linear if the
    solvers are (C26, C27, C29). *)
From Coq Require Import Reals List ZArith Lra Lia Bool String.
From Verif Require Import Base TimeModel FormModel FormSpec FormProofs SpaceTimeForms SpaceTimeModel FormBlocks SlabOps ApplyProofs MarchProofs MarchLoops MarchSum.
Import ListNotations.
Open Scope R_scope.

Section Direct.
  Variable E : env.
  Notation c := (e_c E).
  Notation D := (e_D E).
  Notation Lf := (e_Lf E).
  Notation Lp := (e_Lp E).
  Notation nq := (S (c_q c)).
  Hypothesis HE : env_ok E.
  (** result of the solver of slab n, a function of the entries of r *)
  Variable F : nat -> vec -> vec.
  Hypothesis F_ext : forall n r r', veq (lay_dim Lp) r r' -> veq (lay_dim Lp) (F n r) (F n r').
  Definition sol_fun (n : nat) (r u : vec) : Prop := veq (lay_dim Lp) u (F n r).

  Variable carry : nat -> vec -> vec -> field -> R.
  Hypothesis carry_ext : forall n a b a' b' Y Y', veq (d_dim D Vp) a a' -> veq (d_dim D Vp) b b' ->
    feq D 4 (nc_pre c) Y Y' -> carry n a b Y = carry n a' b' Y'.
  Hypothesis carry_first : forall a b a' b' Y, carry 0 a b Y = carry 0 a' b' Y.

  Lemma veq_fields n v v' : n = lay_dim Lp ->
    (forall j i l, (j < 4)%nat -> (i < nc_pre c j)%nat -> (l < d_dim D (spc j))%nat -> field_of Lp v j i l = field_of Lp v' j i l) ->
    veq n v v'.
  Proof.
    intros -> H J HJ. destruct (dof_surj D 4 (nc_pre c) Lp J (eo_p _ HE) HJ) as [j [i [l [Hj [Hi [Hl ->]]]]]].
    apply H; assumption.
  Qed.
  Lemma field_veq v v' j i l : veq (lay_dim Lp) v v' ->
    (j < 4)%nat -> (i < nc_pre c j)%nat -> (l < d_dim D (spc j))%nat -> field_of Lp v j i l = field_of Lp v' j i l.
  Proof. intros H Hj Hi Hl. apply H. eapply dof_lt; [apply (eo_p _ HE)|..]; assumption. Qed.

  Lemma march_unique n b b' x x' :
    (forall m, (m < n)%nat -> same_slab E m (field_of Lf b) (field_of Lf b')) ->
    (forall m, (m < n)%nat -> slab_done E sol_fun carry b m (field_of Lf x)) ->
    (forall m, (m < n)%nat -> slab_done E sol_fun carry b' m (field_of Lf x')) ->
    forall m, (m < n)%nat -> same_slab E m (field_of Lf x) (field_of Lf x').
  Proof.
    intros Hb H1 H2. induction m as [m IH] using lt_wf_ind. intro Hm.
    destruct (H1 m Hm) as [r [u [Hr [Hu Hx]]]]. destruct (H2 m Hm) as [r' [u' [Hr' [Hu' Hx']]]].
    assert (Er : veq (lay_dim Lp) r r').
    { apply veq_fields; [reflexivity|]. intros j i l Hj Hi Hl.
      rewrite (Hr j i l Hj Hi Hl), (Hr' j i l Hj Hi Hl). f_equal; [apply (Hb m Hm); assumption|].
      apply (carryX_ext E carry carry_ext carry_first). intro H0. apply IH; lia. }
    assert (Eu : veq (lay_dim Lp) u u').
    { intros J HJ. rewrite (Hu J HJ), (Hu' J HJ). apply F_ext; assumption. }
    intros j i l Hj Hi Hl. pose proof (Hx j i l Hj Hi Hl) as A. pose proof (Hx' j i l Hj Hi Hl) as B.
    unfold restr in A, B. rewrite A, B. apply field_veq; assumption.
  Qed.

  (** linearity *)
  Definition vlin (k1 : R) (a : vec) (k2 : R) (b : vec) : vec := fun l => k1 * a l + k2 * b l.
  Hypothesis F_lin : forall n k1 r1 k2 r2, veq (lay_dim Lp) (F n (vlin k1 r1 k2 r2)) (vlin k1 (F n r1) k2 (F n r2)).
  Hypothesis carry_lin : forall n k1 a1 b1 k2 a2 b2 Y,
    carry n (vlin k1 a1 k2 a2) (vlin k1 b1 k2 b2) Y = k1 * carry n a1 b1 Y + k2 * carry n a2 b2 Y.
  Lemma march_linear k1 k2 b1 b2 b x1 x2 x :
    (forall m, (m < c_N c)%nat -> same_slab E m (field_of Lf b) (field_of Lf (vlin k1 b1 k2 b2))) ->
    (forall m, (m < c_N c)%nat -> slab_done E sol_fun carry b1 m (field_of Lf x1)) ->
    (forall m, (m < c_N c)%nat -> slab_done E sol_fun carry b2 m (field_of Lf x2)) ->
    (forall m, (m < c_N c)%nat -> slab_done E sol_fun carry b m (field_of Lf x)) ->
    forall m, (m < c_N c)%nat -> same_slab E m (field_of Lf x) (field_of Lf (vlin k1 x1 k2 x2)).
  Proof.
    intros Hb H1 H2 H3. induction m as [m IH] using lt_wf_ind. intro Hm.
    destruct (H1 m Hm) as [r1 [u1 [Hr1 [Hu1 Hx1]]]]. destruct (H2 m Hm) as [r2 [u2 [Hr2 [Hu2 Hx2]]]].
    destruct (H3 m Hm) as [r [u [Hr [Hu Hx]]]].
    assert (Er : veq (lay_dim Lp) r (vlin k1 r1 k2 r2)).
    { apply veq_fields; [reflexivity|]. intros j i l Hj Hi Hl.
      rewrite (Hr j i l Hj Hi Hl). rewrite (Hb m Hm j i l Hj Hi Hl).
      change (field_of Lp (vlin k1 r1 k2 r2) j i l) with (k1 * field_of Lp r1 j i l + k2 * field_of Lp r2 j i l).
      rewrite (Hr1 j i l Hj Hi Hl), (Hr2 j i l Hj Hi Hl).
      rewrite (carryX_ext E carry carry_ext carry_first m (field_of Lf x) (field_of Lf (vlin k1 x1 k2 x2)))
        by (intro; apply IH; lia).
      unfold carryX.
      change (field_of Lf (vlin k1 x1 k2 x2) 0%nat (m * nq - 1)%nat)
        with (vlin k1 (field_of Lf x1 0%nat (m * nq - 1)%nat) k2 (field_of Lf x2 0%nat (m * nq - 1)%nat)).
      change (field_of Lf (vlin k1 x1 k2 x2) 1%nat (m * nq - 1)%nat)
        with (vlin k1 (field_of Lf x1 1%nat (m * nq - 1)%nat) k2 (field_of Lf x2 1%nat (m * nq - 1)%nat)).
      rewrite carry_lin. unfold field_of, vlin. ring. }
    intros j i l Hj Hi Hl. pose proof (Hx j i l Hj Hi Hl) as A.
    pose proof (Hx1 j i l Hj Hi Hl) as B. pose proof (Hx2 j i l Hj Hi Hl) as C. unfold restr in A, B, C.
    change (field_of Lf (vlin k1 x1 k2 x2) j (m * ntime c j + i)%nat l)
      with (k1 * field_of Lf x1 j (m * ntime c j + i)%nat l + k2 * field_of Lf x2 j (m * ntime c j + i)%nat l).
    rewrite A, B, C.
    rewrite (field_veq u (F m (vlin k1 r1 k2 r2))); auto.
    2: { intros J HJ. rewrite (Hu J HJ). apply F_ext; assumption. }
    rewrite (field_veq _ _ j i l (F_lin m k1 r1 k2 r2)) by assumption.
    rewrite (field_veq u1 (F m r1) j i l Hu1), (field_veq u2 (F m r2) j i l Hu2) by assumption. reflexivity.
  Qed.
  (** agreement on all slabs is agreement of the entries *)
  Lemma same_all x x' : (forall m, (m < c_N c)%nat -> same_slab E m (field_of Lf x) (field_of Lf x')) ->
    veq (lay_dim Lf) x x'.
  Proof.
    intros H I HI. destruct (dof_surj D 4 (nc_full c) Lf I (eo_f _ HE) HI) as [j [k [l [Hj [Hk [Hl ->]]]]]].
    assert (Hp : (0 < ntime c j)%nat) by (unfold ntime; lia).
    pose proof (H (k / ntime c j)%nat) as G.
    assert (Hm : (k / ntime c j < c_N c)%nat) by (apply Nat.div_lt_upper_bound; [lia|unfold nc_full in Hk; nia]).
    specialize (G Hm j (k mod ntime c j)%nat l Hj). unfold nc_pre in G.
    specialize (G ltac:(apply Nat.mod_upper_bound; lia) Hl).
    replace (k / ntime c j * ntime c j + k mod ntime c j)%nat with k in G; [exact G|].
    rewrite (Nat.div_mod k (ntime c j)) at 1; lia.
  Qed.
  Lemma all_same x x' : veq (lay_dim Lf) x x' -> forall m, (m < c_N c)%nat -> same_slab E m (field_of Lf x) (field_of Lf x').
  Proof.
    intros H m Hm j i l Hj Hi Hl. apply H. eapply dof_lt; [apply (eo_f _ HE)|assumption| |assumption].
    unfold nc_full, nc_pre in *. nia.
  Qed.
End Direct.

Lemma en_vlin1 D dt k1 a1 a2 k2 b1 b2 y1 y2 :
  en D dt (vlin k1 a1 k2 b1) (vlin k1 a2 k2 b2) y1 y2 = k1 * en D dt a1 a2 y1 y2 + k2 * en D dt b1 b2 y1 y2.
Proof.
  assert (G : forall m w o1 s1 o2 s2 a b y, sp D m w o1 s1 o2 s2 (vlin k1 a k2 b) y
    = k1 * sp D m w o1 s1 o2 s2 a y + k2 * sp D m w o1 s1 o2 s2 b y).
  { intros. unfold vlin. rewrite sp_add1, !sp_scal1. reflexivity. }
  unfold en, L2, FormSpec.H1. rewrite !G. ring.
Qed.
Lemma carryI_lin c D gj n k1 a1 b1 k2 a2 b2 Y :
  carryI c D gj n (vlin k1 a1 k2 a2) (vlin k1 b1 k2 b2) Y
  = k1 * carryI c D gj n a1 b1 Y + k2 * carryI c D gj n a2 b2 Y.
Proof. unfold carryI. destruct (Nat.ltb 0 n); [|ring]. rewrite en_vlin1. ring. Qed.
