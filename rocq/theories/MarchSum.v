(** MarchSum.v -- the slab equations of time marching add up to the system with
    the preconditioning matrix (C24, C25). *)
From Coq Require Import Reals List ZArith Lra Lia Bool String.
From Verif Require Import Base TimeModel FormModel FormSpec FormProofs SpaceTimeForms SpaceTimeModel FormBlocks SlabOps ApplyProofs MarchProofs MarchLoops.
Import ListNotations.
Open Scope R_scope.

Lemma en_sub1 D dt a1 a2 a1' a2' b1 b2 :
  en D dt (vsub a1 a1') (vsub a2 a2') b1 b2 = en D dt a1 a2 b1 b2 - en D dt a1' a2' b1 b2.
Proof. unfold en, L2, FormSpec.H1, vsub. rewrite !sp_sub1. ring. Qed.

Lemma restr_at t n X j i : restr t n X j i = X j (n * t j + i)%nat.
Proof. reflexivity. Qed.

Section Sum.
  Variable E : env.
  Notation c := (e_c E).
  Notation D := (e_D E).
  Notation Lf := (e_Lf E).
  Notation Lp := (e_Lp E).
  Notation nq := (S (c_q c)).
  Notation nqs := (S (c_qs c)).
  Hypothesis HE : env_ok E.
  Variables (g : gammas) (om : nat -> R).

  (** the form of the slab matrix of slab n *)
  Definition fn (n : nat) : bform := slab_form c g om (if Nat.eqb n 0 then c_wp c else true).
  (** u solves the slab system for r *)
  Definition sol_eq (n : nat) (r u : vec) : Prop :=
    forall J, (J < lay_dim Lp)%nat -> mult (lay_dim Lp) (assemble D Lp (fn n)) u J = r J.

  Variable carry : nat -> vec -> vec -> field -> R.
  Hypothesis carry_ext : forall n a b a' b' Y Y', veq (d_dim D Vp) a a' -> veq (d_dim D Vp) b b' ->
    feq D 4 (nc_pre c) Y Y' -> carry n a b Y = carry n a' b' Y'.
  Hypothesis carry_zero : forall n a b, carry n a b (fun _ _ _ => 0) = 0.

  Definition marchF (X Y : field) : R := sumn (c_N c) (fun n =>
    eval D (fn n) (restr (ntime c) n X) (restr (ntime c) n Y) - carryX E carry n X (restr (ntime c) n Y)).

  Lemma eval_0r f nb nc X : wf_bform nb nc f = true -> eval D f X (fun _ _ _ => 0) = 0.
  Proof.
    intro H. exact (eval_linY D f ([] : list nat) (fun _ => 0) (fun _ => fun _ _ _ => 0) X (wf_bform_proper _ _ _ H)).
  Qed.
  Lemma ntime_pos j : (0 < ntime c j)%nat.
  Proof. unfold ntime. lia. Qed.

  (** restriction to a slab of a basis function *)
  Lemma restr_unit j i l n m : (j < 4)%nat -> (i < nc_pre c j)%nat -> (l < d_dim D (spc j))%nat -> (m < c_N c)%nat -> (n < c_N c)%nat ->
    feq D 4 (nc_pre c) (restr (ntime c) n (field_of Lf (unitv (dof Lf j (m * ntime c j + i)%nat l))))
      (if Nat.eqb n m then field_of Lp (unitv (dof Lp j i l)) else fun _ _ _ => 0).
  Proof.
    intros Hj Hi Hl Hm Hn j' i' l' Hj' Hi' Hl'. unfold restr.
    assert (A : (m * ntime c j + i < nc_full c j)%nat) by (unfold nc_full, nc_pre in *; nia).
    assert (A' : (n * ntime c j' + i' < nc_full c j')%nat) by (unfold nc_full, nc_pre in *; nia).
    rewrite (field_unit D 4 (nc_full c) Lf j _ l (eo_f _ HE) Hj A Hl j' _ l' Hj' A' Hl').
    unfold unit_field. destruct (Nat.eqb_spec n m) as [->|Hne].
    - rewrite (field_unit D 4 (nc_pre c) Lp j i l (eo_p _ HE) Hj Hi Hl j' i' l' Hj' Hi' Hl'). unfold unit_field.
      destruct (Nat.eqb_spec j j') as [<-|]; cbn [andb]; [|reflexivity].
      replace (Nat.eqb (m * ntime c j + i) (m * ntime c j + i')) with (Nat.eqb i i'); [reflexivity|].
      destruct (Nat.eqb_spec i i') as [->|]; [symmetry; apply Nat.eqb_refl|symmetry; apply Nat.eqb_neq; lia].
    - destruct (Nat.eqb_spec j j') as [<-|]; cbn [andb]; [|reflexivity].
      destruct (Nat.eqb_spec (m * ntime c j + i) (n * ntime c j + i')) as [Eq|]; cbn [andb]; [|reflexivity].
      exfalso. unfold nc_pre in *. apply Hne. nia.
  Qed.

  Lemma march_solves b x :
    (forall n, (n < c_N c)%nat -> slab_done E sol_eq carry b n (field_of Lf x)) ->
    forall I, (I < lay_dim Lf)%nat -> marchF (field_of Lf x) (field_of Lf (unitv I)) = b I.
  Proof.
    intros H I HI. destruct (dof_surj D 4 (nc_full c) Lf I (eo_f _ HE) HI) as [j [k [l [Hj [Hk [Hl ->]]]]]].
    pose proof (ntime_pos j) as Hp.
    set (m := (k / ntime c j)%nat). set (i := (k mod ntime c j)%nat).
    assert (Ek : k = (m * ntime c j + i)%nat) by (unfold m, i; rewrite (Nat.div_mod k (ntime c j)) at 1; lia).
    assert (Hi : (i < nc_pre c j)%nat) by (unfold i, nc_pre; apply Nat.mod_upper_bound; lia).
    assert (Hm : (m < c_N c)%nat) by (unfold m; apply Nat.div_lt_upper_bound; [lia|unfold nc_full in Hk; nia]).
    clearbody m i. subst k.
    transitivity (sumn (c_N c) (fun n => delta m n * b (dof Lf j (m * ntime c j + i)%nat l))).
    2: { rewrite sumn_delta by exact Hm. reflexivity. }
    unfold marchF. apply Rsum_ext_in; intros n Hn. apply in_seq in Hn.
    assert (Hn' : (n < c_N c)%nat) by lia.
    pose proof (restr_unit j i l n m Hj Hi Hl Hm Hn') as HR. unfold delta.
    rewrite (eval_ext D 4 (nc_pre c) (fn n) _ _ _ _ (wf_slab _ _ _ _) (feq_refl _ _ _ _) HR).
    unfold carryX. rewrite (carry_ext n _ _ _ _ _ _ (fun _ _ => eq_refl) (fun _ _ => eq_refl) HR).
    rewrite (Nat.eqb_sym m n). destruct (Nat.eqb_spec n m) as [->|Hne].
    - destruct (H m Hm) as [r [u [Hr [Hu Hx]]]].
      rewrite (eval_ext D 4 (nc_pre c) (fn m) _ _ _ _ (wf_slab _ _ _ _) Hx (feq_refl _ _ _ _)).
      rewrite <- (mult_assemble D 4 (nc_pre c) Lp) by (try apply (eo_p _ HE); apply wf_slab).
      assert (HJ : (dof Lp j i l < lay_dim Lp)%nat) by (eapply dof_lt; [apply (eo_p _ HE)|..]; assumption).
      rewrite (Hu _ HJ).
      change (field_of Lp r j i l - carry m (field_of Lf x 0%nat (m * nq - 1)%nat) (field_of Lf x 1%nat (m * nq - 1)%nat)
        (field_of Lp (unitv (dof Lp j i l))) = 1 * b (dof Lf j (m * ntime c j + i)%nat l)).
      rewrite (Hr j i l Hj Hi Hl). unfold carryX, field_of. ring.
    - rewrite (eval_0r (fn n) 4 (nc_pre c)) by apply wf_slab. rewrite carry_zero. ring.
  Qed.
End Sum.

(** the summed equations, for the two routines *)
Section Spec.
  Variable E : env.
  Notation c := (e_c E).
  Notation D := (e_D E).
  Notation Lf := (e_Lf E).
  Notation nq := (S (c_q c)).
  Notation nqs := (S (c_qs c)).
  Hypothesis HE : env_ok E.
  Variables (g : gammas) (om : nat -> R).
  Hypothesis Hj : c_jumps c = false.

  (** 1e-20 terms of the slab matrices of slabs 1, 2, ... *)
  Definition reg_slabs (X Y : field) : R :=
    sumn (c_N c) (fun n => if Nat.ltb 0 n then L2 D Vp Vd (X 0%nat (n * nq)%nat) (Y 2%nat (n * nqs)%nat) else 0).
  (** 1e-20 terms of the slab right-hand sides in pre_time_marching *)
  Definition reg_ones (Y : field) : R := sumn (c_N c) (fun n => ones D (restr (ntime c) n Y)).

  Lemma marchF_I X Y :
    marchF E g om (carryI c D (g_jump g)) X Y = eval D (st_form c g om true) X Y + reg * reg_slabs X Y.
  Proof.
    rewrite eval_st. unfold marchF, reg_slabs. rewrite <- Rsum_scal.
    assert (G : regterm D X Y = sumn (c_N c) (fun n => if Nat.eqb n 0 then regterm D X Y else 0)).
    { pose proof (eo_N _ HE) as HN. destruct (c_N c) as [|m]; [lia|]. cbn [seq]. rewrite Rsum_cons. cbn.
      rewrite (Rsum_zero (seq 1 m)); [ring|]. intros n Hn. apply in_seq in Hn.
      destruct (Nat.eqb_spec n 0); [lia|reflexivity]. }
    rewrite G, <- !Rsum_plus. apply Rsum_ext; intro n.
    unfold fn. rewrite eval_slab. unfold carryX, carryI, slab_extra_pre, slab_extra. rewrite Hj. cbn [andb].
    destruct (Nat.eqb_spec n 0) as [->|Hn].
    - cbn [Nat.ltb Nat.leb andb]. unfold regterm. rewrite !restr_at, !Nat.mul_0_l, !Nat.add_0_l.
      destruct (c_wp c); ring.
    - destruct (Nat.ltb_spec 0 n) as [H0|]; [|lia]. cbn [andb].
      unfold regterm, jmp, lastc. rewrite !restr_at, !Nat.add_0_r.
      change (ntime c 0) with nq. change (ntime c 1) with nq. change (ntime c 2) with nqs.
      rewrite en_sub1.
      ring.
  Qed.
  Lemma marchF_P X Y :
    marchF E g om (carryP c D (g_jump g)) X Y
    = eval D (st_form c g om true) X Y + reg * reg_slabs X Y - reg * reg_ones Y.
  Proof.
    rewrite <- marchF_I. unfold marchF, reg_ones. rewrite <- Rsum_scal, <- Rsum_minus. apply Rsum_ext; intro n.
    unfold carryX, carryP, carryI. rewrite Hj. destruct (Nat.ltb 0 n); ring.
  Qed.
End Spec.
