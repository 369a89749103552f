(** Props_FloatApply.v -- apply_spacetime_matrix in double precision
    (/repo/src/dxss/space_time.py:1135-1184).  Property C92. *)
From Coq Require Import ZArith Reals List Bool Lia Lra.
From Coq Require Import Floats.SpecFloat.
From Flocq Require Import Core IEEE754.BinarySingleNaN.
From Verif Require Import Base FormModel FormSpec FormProofs SpaceTimeForms FormTime FormBlocks FormExample SpaceTimeModel SlabOps ApplyProofs OpsExample
  FloatModel FloatRound FloatSamples FloatTime FloatLocal FloatErrors FloatErrorsProofs FloatApply FloatApplyProofs.
Import ListNotations.
Local Open Scope R_scope.

(** the entries of a vector that belong to slab [n], in the numbering of one slab *)
Definition on_slab {V} (E : env) (n : nat) (x y : nat -> V) : Prop :=
  forall j i l, (j < 4)%nat -> (i < ntime (e_c E) j)%nat -> (l < d_dim (e_D E) (spc j))%nat ->
    y (dof (e_Lp E) j i l) = x (dof (e_Lf E) j (n * ntime (e_c E) j + i) l).
(** its primal entries before and after the start of slab [n] *)
Definition at_start {V} (E : env) (n : nat) (x z : nat -> V) : Prop :=
  forall j i l, (j < 2)%nat -> (i < 2)%nat -> (l < d_dim (e_D E) (spc j))%nat ->
    z (dof (e_Lc E) j i l) = x (dof (e_Lf E) j (n * S (c_q (e_c E)) - 1 + i) l).
(** a matrix of this size *)
Definition size {V} (d : nat) (A : nat -> list (nat * V)) : Prop := forall I, (I < d)%nat -> List.Forall (fun p => (fst p < d)%nat) (A I).
(** component [i] of block [j] in slab [n], dof [l] *)
Definition index (E : env) (n j i l : nat) : Prop :=
  (n < c_N (e_c E))%nat /\ (j < 4)%nat /\ (i < ntime (e_c E) j)%nat /\ (l < d_dim (e_D E) (spc j))%nat.
Definition row_of (E : env) (n j i l : nat) : nat := dof (e_Lf E) j (n * ntime (e_c E) j + i) l.
Definition first (j i : nat) : bool := Nat.ltb j 2 && Nat.eqb i 0.
Definition last (c : config) (j i : nat) : bool := Nat.ltb j 2 && Nat.eqb i (c_q c).

(** ** The sum that is computed *)
Lemma f_mult_local d A : size d A -> local d (f_mult A).
Proof.
  intros HS v v' HV I HI. unfold f_mult. specialize (HS I HI). revert HS. generalize (fz 0). induction (A I) as [|[J a] row IH]; intros s H; [reflexivity|].
  inversion H as [|? ? H1 H2]; subst. cbn [fold_left]. rewrite (HV J H1). apply IH. exact H2.
Qed.
Lemma part_slab {V} (zero : V) add E x n : env_ok E -> (n < c_N (e_c E))%nat -> on_slab E n x (slab_part zero add E x n).
Proof. intros HE Hn j i l Hj Hi Hl. unfold slab_part. apply (slab_copy zero add E HE); assumption. Qed.
Lemma part_start {V} (zero : V) add E x n : env_ok E -> (0 < n)%nat -> (n < c_N (e_c E))%nat -> at_start E n x (jump_part zero add E x n).
Proof. intros HE H0 Hn j i l Hj Hi Hl. unfold jump_part. apply (jump_copy zero add E HE); assumption. Qed.
Lemma slab_uniq {V} E n (x y y' : nat -> V) : env_ok E -> on_slab E n x y -> on_slab E n x y' -> forall J, (J < lay_dim (e_Lp E))%nat -> y J = y' J.
Proof.
  intros HE H1 H2 J HJ. destruct (dof_of E 4 (nc_pre (e_c E)) _ J (eo_p _ HE) HJ) as [j [i [l [Hj [Hi [Hl ->]]]]]]. rewrite H1, H2 by assumption. reflexivity.
Qed.
Lemma start_uniq {V} E n (x y y' : nat -> V) : env_ok E -> at_start E n x y -> at_start E n x y' -> forall J, (J < lay_dim (e_Lc E))%nat -> y J = y' J.
Proof.
  intros HE H1 H2 J HJ. destruct (dof_of E 2 nc_coup _ J (eo_c _ HE) HJ) as [j [i [l [Hj [Hi [Hl ->]]]]]]. rewrite H1, H2 by assumption. reflexivity.
Qed.
Section Terms.
  Context {V : Type}.
  Variables (zero : V) (add : V -> V -> V) (E : env) (mA mB : (nat -> V) -> nat -> V) (x : nat -> V).
  Hypothesis HE : env_ok E.
  Hypothesis HA : local (lay_dim (e_Lp E)) mA.
  Hypothesis HB : local (lay_dim (e_Lc E)) mB.
  Lemma loops_terms v1 w1 n j i l y z z' : index E n j i l -> on_slab E n x y -> at_start E n x z -> at_start E (S n) x z' ->
    apply_loops zero add E mA mB x v1 w1 (row_of E n j i l) =
    let a := add zero (mA y (dof (e_Lp E) j i l)) in
    let a := if Nat.ltb 0 n && first j i then add a (mB z (dof (e_Lc E) j 1 l)) else a in
    if Nat.ltb (S n) (c_N (e_c E)) && last (e_c E) j i then add a (mB z' (dof (e_Lc E) j 0 l)) else a.
  Proof.
    intros [Hn [Hj [Hi Hl]]] Hy Hz Hz'. unfold row_of. rewrite (loops_entry zero add E HE mA mB HA HB) by assumption. unfold entry_after, first, last.
    destruct (Nat.ltb_spec n (c_N (e_c E))); [|lia].
    assert (A1 : mA (slab_part zero add E x n) (dof (e_Lp E) j i l) = mA y (dof (e_Lp E) j i l)).
    { apply HA; [|apply (dof_lt E 4 (nc_pre (e_c E))); auto; apply (eo_p _ HE)]. intros J HJ.
      apply (slab_uniq E n x); auto. apply part_slab; assumption. }
    rewrite A1. cbv zeta. rewrite !andb_assoc.
    destruct (Nat.ltb_spec j 2) as [Hj2|Hj2]; cbn [andb]; rewrite ?andb_false_r; cbn [andb]; [|reflexivity]. rewrite !andb_true_r.
    assert (B1 : (0 < n)%nat -> mB (jump_part zero add E x n) (dof (e_Lc E) j 1 l) = mB z (dof (e_Lc E) j 1 l)).
    { intro H0. apply HB; [|apply (dof_lt E 2 nc_coup); auto; apply (eo_c _ HE)]. intros J HJ. apply (start_uniq E n x); auto. apply part_start; assumption. }
    assert (B2 : (S n < c_N (e_c E))%nat -> mB (jump_part zero add E x (S n)) (dof (e_Lc E) j 0 l) = mB z' (dof (e_Lc E) j 0 l)).
    { intro H0. apply HB; [|apply (dof_lt E 2 nc_coup); unfold nc_coup; auto; apply (eo_c _ HE)]. intros J HJ. apply (start_uniq E (S n) x); auto. apply part_start; auto; lia. }
    destruct (Nat.ltb_spec 0 n) as [H0|H0]; cbn [andb]; [rewrite (B1 H0)|];
      (destruct (Nat.ltb_spec (S n) (c_N (e_c E))) as [H1|H1]; cbn [andb]; [rewrite (B2 H1)|]; reflexivity).
  Qed.
End Terms.
(** An entry of the result is 0 plus a row of the slab matrix times the entries of its own slab,
    plus, for the first primal component, a row of the coupling matrix at the start of the slab,
    plus, for the last one, a row at its end, added in this order.  What the scratch vectors
    contain does not matter. *)
Theorem C92_terms E A B x v1 w1 n j i l y z z' : env_ok E -> size (lay_dim (e_Lp E)) A -> size (lay_dim (e_Lc E)) B ->
  index E n j i l -> on_slab E n x y -> at_start E n x z -> at_start E (S n) x z' ->
  f_apply E A B x v1 w1 (row_of E n j i l) =
  let a := fadd (fz 0) (f_mult A y (dof (e_Lp E) j i l)) in
  let a := if Nat.ltb 0 n && first j i then fadd a (f_mult B z (dof (e_Lc E) j 1 l)) else a in
  if Nat.ltb (S n) (c_N (e_c E)) && last (e_c E) j i then fadd a (f_mult B z' (dof (e_Lc E) j 0 l)) else a.
Proof. intros HE HA HB. unfold f_apply. exact (loops_terms (fz 0) fadd E (f_mult A) (f_mult B) x HE (f_mult_local _ _ HA) (f_mult_local _ _ HB) v1 w1 n j i l y z z'). Qed.
Theorem C92_scratch E A B x v1 w1 v2 w2 n j i l : env_ok E -> size (lay_dim (e_Lp E)) A -> size (lay_dim (e_Lc E)) B -> index E n j i l ->
  f_apply E A B x v1 w1 (row_of E n j i l) = f_apply E A B x v2 w2 (row_of E n j i l).
Proof.
  intros HE HA HB [Hn [Hj [Hi Hl]]]. unfold f_apply, row_of.
  rewrite !(loops_entry (fz 0) fadd E HE _ _ (f_mult_local _ _ HA) (f_mult_local _ _ HB)) by assumption. reflexivity.
Qed.

(** ** Accuracy *)
(** the same sum with the exact numbers, and with their absolute values *)
Definition r_mult (A : frows) (x : nat -> R) : nat -> R := fun I => Rsum (A I) (fun p => fr (snd p) * x (fst p)).
Definition a_mult (A : frows) (x : nat -> R) : nat -> R := fun I => Rsum (A I) (fun p => Rabs (fr (snd p)) * x (fst p)).
Definition exact_apply (E : env) (A B : frows) (x : nat -> spec_float) : nat -> R :=
  apply_loops 0 Rplus E (r_mult A) (r_mult B) (fun J => fr (x J)) (fun _ => 0) (fun _ => 0).
Definition magnitude (E : env) (A B : frows) (x : nat -> spec_float) : nat -> R :=
  apply_loops 0 Rplus E (a_mult A) (a_mult B) (fun J => Rabs (fr (x J))) (fun _ => 0) (fun _ => 0).
Definition doubles (d : nat) (A : frows) (R : nat) : Prop := forall I, (I < d)%nat -> row_double (A I) /\ (List.length (A I) <= R)%nat.
Lemma r_mult_local d A : size d A -> local d (r_mult A).
Proof.
  intros HS v v' HV I HI. unfold r_mult. specialize (HS I HI). induction HS as [|p row H1 H2 IH]; [reflexivity|]. rewrite !Rsum_cons, IH, (HV _ H1). reflexivity.
Qed.
Lemma a_mult_local d A : size d A -> local d (a_mult A).
Proof.
  intros HS v v' HV I HI. unfold a_mult. specialize (HS I HI). induction HS as [|p row H1 H2 IH]; [reflexivity|]. rewrite !Rsum_cons, IH, (HV _ H1). reflexivity.
Qed.
(** what an entry reads: rows and values *)
Definition reads (E : env) (A B : frows) (x : nat -> spec_float) (n j i l : nat) (P : (nat -> spec_float) -> list (nat * spec_float) -> Prop) : Prop :=
  (forall y, on_slab E n x y -> P y (A (dof (e_Lp E) j i l)))
  /\ (Nat.ltb 0 n && first j i = true -> forall z, at_start E n x z -> P z (B (dof (e_Lc E) j 1 l)))
  /\ (Nat.ltb (S n) (c_N (e_c E)) && last (e_c E) j i = true -> forall z, at_start E (S n) x z -> P z (B (dof (e_Lc E) j 0 l))).
Definition some_reads (E : env) (A B : frows) (x : nat -> spec_float) (n j i l : nat) (P : (nat -> spec_float) -> list (nat * spec_float) -> Prop) : Prop :=
  (exists y, on_slab E n x y /\ P y (A (dof (e_Lp E) j i l)))
  \/ (Nat.ltb 0 n && first j i = true /\ exists z, at_start E n x z /\ P z (B (dof (e_Lc E) j 1 l)))
  \/ (Nat.ltb (S n) (c_N (e_c E)) && last (e_c E) j i = true /\ exists z, at_start E (S n) x z /\ P z (B (dof (e_Lc E) j 0 l))).
Section Accuracy.
  Variables (E : env) (A B : frows) (x v1 w1 : nat -> spec_float) (r n j i l : nat).
  Hypothesis HE : env_ok E.
  Hypothesis HA : size (lay_dim (e_Lp E)) A.
  Hypothesis HB : size (lay_dim (e_Lc E)) B.
  Hypothesis DA : doubles (lay_dim (e_Lp E)) A r.
  Hypothesis DB : doubles (lay_dim (e_Lc E)) B r.
  Hypothesis Dx : forall J, (J < lay_dim (e_Lf E))%nat -> double (x J).
  Hypothesis Hi : index E n j i l.
  Let y := slab_part (fz 0) fadd E x n.
  Let z := jump_part (fz 0) fadd E x n.
  Let z' := jump_part (fz 0) fadd E x (S n).
  Lemma fr_slab (g : spec_float -> R) : forall J, (J < lay_dim (e_Lp E))%nat -> slab_part 0 Rplus E (fun J => g (x J)) n J = g (y J).
  Proof.
    destruct Hi as [Hn _]. intros J HJ. apply (slab_uniq E n (fun J => g (x J)) _ (fun J => g (y J)) HE); [apply part_slab; assumption| |exact HJ].
    intros j0 i0 l0 H1 H2 H3. f_equal. apply (part_slab (fz 0) fadd E x n HE Hn); assumption.
  Qed.
  Lemma fr_start (g : spec_float -> R) m : (0 < m)%nat -> (m < c_N (e_c E))%nat -> forall J, (J < lay_dim (e_Lc E))%nat ->
    jump_part 0 Rplus E (fun J => g (x J)) m J = g (jump_part (fz 0) fadd E x m J).
  Proof.
    intros H0 Hm J HJ. apply (start_uniq E m (fun J => g (x J)) _ (fun J => g (jump_part (fz 0) fadd E x m J)) HE); [apply part_start; assumption| |exact HJ].
    intros j0 i0 l0 H1 H2 H3. f_equal. apply (part_start (fz 0) fadd E x m HE H0 Hm); assumption.
  Qed.
  Lemma y_double : forall J, (J < lay_dim (e_Lp E))%nat -> double (y J).
  Proof.
    destruct Hi as [Hn _]. intros J HJ. destruct (dof_of E 4 (nc_pre (e_c E)) _ J (eo_p _ HE) HJ) as [j0 [i0 [l0 [H1 [H2 [H3 ->]]]]]].
    unfold y. rewrite (part_slab (fz 0) fadd E x n HE Hn) by assumption. apply Dx. apply (dof_lt E 4 (nc_full (e_c E))); auto; [apply (eo_f _ HE)|].
    unfold nc_full, nc_pre in *. nia.
  Qed.
  Lemma z_double m : (0 < m)%nat -> (m < c_N (e_c E))%nat -> forall J, (J < lay_dim (e_Lc E))%nat -> double (jump_part (fz 0) fadd E x m J).
  Proof.
    intros H0 Hm J HJ. destruct (dof_of E 2 nc_coup _ J (eo_c _ HE) HJ) as [j0 [i0 [l0 [H1 [H2 [H3 ->]]]]]].
    rewrite (part_start (fz 0) fadd E x m HE H0 Hm) by assumption. apply Dx. apply (dof_lt E 4 (nc_full (e_c E))); auto; [apply (eo_f _ HE)|].
    apply (up_coup_lt (e_c E) m); auto. apply in_coup_idx. auto.
  Qed.
  (** a row of a matrix *)
  Lemma mult_app d M y0 I : size d M -> doubles d M r -> (forall J, (J < d)%nat -> double (y0 J)) -> (I < d)%nat ->
    app (f_mult M y0 I) (r_mult M (fun J => fr (y0 J)) I) (a_mult M (fun J => Rabs (fr (y0 J))) I) (S r) r (row_finite y0 (M I)) (row_nan y0 (M I)).
  Proof.
    intros HS HD Hy HI. destruct (HD I HI) as [D1 D2]. eapply app_mono; [..|apply row_app]; [lia|exact D2|apply Rle_refl|exact D1|].
    intros p Hp. apply Hy. specialize (HS I HI). rewrite List.Forall_forall in HS. apply HS. exact Hp.
  Qed.
  Lemma entry_app : exists fin nn : Prop, (fin <-> reads E A B x n j i l row_finite) /\ (some_reads E A B x n j i l row_nan -> nn)
    /\ app (f_apply E A B x v1 w1 (row_of E n j i l)) (exact_apply E A B x (row_of E n j i l)) (magnitude E A B x (row_of E n j i l)) (r + 4) (3 * r) fin nn.
  Proof.
    destruct Hi as [Hn [Hj [Hii Hl]]].
    unfold f_apply, exact_apply, magnitude, row_of.
    rewrite (loops_entry (fz 0) fadd E HE _ _ (f_mult_local _ _ HA) (f_mult_local _ _ HB)) by assumption.
    rewrite (loops_entry 0 Rplus E HE _ _ (r_mult_local _ _ HA) (r_mult_local _ _ HB)) by assumption.
    rewrite (loops_entry 0 Rplus E HE _ _ (a_mult_local _ _ HA) (a_mult_local _ _ HB)) by assumption.
    unfold entry_after. destruct (Nat.ltb_spec n (c_N (e_c E))); [|lia]. cbv zeta.
    set (b1 := Nat.ltb 0 n && Nat.ltb j 2 && Nat.eqb i 0). set (b2 := Nat.ltb (S n) (c_N (e_c E)) && Nat.ltb j 2 && Nat.eqb i (c_q (e_c E))).
    assert (E1 : Nat.ltb 0 n && first j i = b1) by (unfold first, b1; rewrite andb_assoc; reflexivity).
    assert (E2 : Nat.ltb (S n) (c_N (e_c E)) && last (e_c E) j i = b2) by (unfold last, b2; rewrite andb_assoc; reflexivity).
    assert (IA : (dof (e_Lp E) j i l < lay_dim (e_Lp E))%nat) by (apply (dof_lt E 4 (nc_pre (e_c E))); auto; apply (eo_p _ HE)).
    rewrite (r_mult_local _ _ HA _ (fun J => fr (y J)) (fr_slab (fun v => fr v)) _ IA).
    rewrite (a_mult_local _ _ HA _ (fun J => Rabs (fr (y J))) (fr_slab (fun v => Rabs (fr v))) _ IA).
    assert (YU : forall y0, on_slab E n x y0 -> forall J, (J < lay_dim (e_Lp E))%nat -> y0 J = y J) by (intros y0 H0; apply (slab_uniq E n x); auto; apply part_slab; assumption).
    assert (RF : forall d M y0 y1 I, size d M -> (I < d)%nat -> (forall J, (J < d)%nat -> y0 J = y1 J) -> row_finite y0 (M I) -> row_finite y1 (M I)).
    { intros d M y0 y1 I HS HI HJ HF. specialize (HS I HI). unfold row_finite in *. rewrite List.Forall_forall in *. intros p Hp. rewrite <- (HJ _ (HS p Hp)). apply HF, Hp. }
    assert (RN : forall d M y0 y1 I, size d M -> (I < d)%nat -> (forall J, (J < d)%nat -> y0 J = y1 J) -> row_nan y0 (M I) -> row_nan y1 (M I)).
    { intros d M y0 y1 I HS HI HJ HF. specialize (HS I HI). unfold row_nan in *. rewrite List.Forall_forall in HS. rewrite List.Exists_exists in *. destruct HF as [p [Hp HF]].
      exists p. split; [exact Hp|]. rewrite <- (HJ _ (HS p Hp)). exact HF. }
    pose proof (app_add _ _ _ _ _ _ _ _ _ _ _ _ _ _ app_zero (mult_app _ A y (dof (e_Lp E) j i l) HA DA y_double IA)) as P0.
    eapply (app_mono _ _ _ _ _ (r + 2) _ r) in P0; [|lia|lia|apply Rle_refl].
    (* the row at the start *)
    assert (P1 : exists fin nn : Prop, (fin <-> (row_finite y (A (dof (e_Lp E) j i l)) /\ (b1 = true -> row_finite z (B (dof (e_Lc E) j 1 l)))))
      /\ (nn <-> (row_nan y (A (dof (e_Lp E) j i l)) \/ (b1 = true /\ row_nan z (B (dof (e_Lc E) j 1 l)))))
      /\ app (if b1 then fadd (fadd (fz 0) (f_mult A y (dof (e_Lp E) j i l))) (f_mult B z (dof (e_Lc E) j 1 l)) else fadd (fz 0) (f_mult A y (dof (e_Lp E) j i l)))
        (if b1 then 0 + r_mult A (fun J => fr (y J)) (dof (e_Lp E) j i l) + r_mult B (jump_part 0 Rplus E (fun J => fr (x J)) n) (dof (e_Lc E) j 1 l) else 0 + r_mult A (fun J => fr (y J)) (dof (e_Lp E) j i l))
        (if b1 then 0 + a_mult A (fun J => Rabs (fr (y J))) (dof (e_Lp E) j i l) + a_mult B (jump_part 0 Rplus E (fun J => Rabs (fr (x J))) n) (dof (e_Lc E) j 1 l) else 0 + a_mult A (fun J => Rabs (fr (y J))) (dof (e_Lp E) j i l))
        (r + 3) (2 * r) fin nn).
    { destruct b1 eqn:Eb1.
      - unfold b1 in Eb1. apply andb_prop in Eb1 as [Eb1 Ei0]. apply andb_prop in Eb1 as [En Ej]. apply Nat.ltb_lt in En. apply Nat.ltb_lt in Ej.
        assert (IB : (dof (e_Lc E) j 1 l < lay_dim (e_Lc E))%nat) by (apply (dof_lt E 2 nc_coup); auto; apply (eo_c _ HE)).
        rewrite (r_mult_local _ _ HB _ (fun J => fr (z J)) (fr_start (fun v => fr v) n En Hn) _ IB).
        rewrite (a_mult_local _ _ HB _ (fun J => Rabs (fr (z J))) (fr_start (fun v => Rabs (fr v)) n En Hn) _ IB).
        pose proof (app_add _ _ _ _ _ _ _ _ _ _ _ _ _ _ P0 (mult_app _ B z (dof (e_Lc E) j 1 l) HB DB (z_double n En Hn) IB)) as P1.
        eapply (app_mono _ _ _ _ _ (r + 3) _ (2 * r)) in P1; [|lia|lia|apply Rle_refl].
        eexists _, _. split; [|split; [|exact P1]]; tauto.
      - eapply (app_mono _ _ _ _ _ (r + 3) _ (2 * r)) in P0; [|lia|lia|apply Rle_refl].
        eexists _, _. split; [|split; [|exact P0]].
        + split; [intros [_ X]; split; [exact X|discriminate]|tauto].
        + split; [tauto|intros [X|[X _]]; [tauto|discriminate]]. }
    destruct P1 as [fin1 [nn1 [F1 [N1 P1]]]].
    assert (P2 : exists fin nn : Prop, (fin <-> (fin1 /\ (b2 = true -> row_finite z' (B (dof (e_Lc E) j 0 l)))))
      /\ (nn <-> (nn1 \/ (b2 = true /\ row_nan z' (B (dof (e_Lc E) j 0 l)))))
      /\ app (if b2 then fadd (if b1 then fadd (fadd (fz 0) (f_mult A y (dof (e_Lp E) j i l))) (f_mult B z (dof (e_Lc E) j 1 l)) else fadd (fz 0) (f_mult A y (dof (e_Lp E) j i l))) (f_mult B z' (dof (e_Lc E) j 0 l))
              else if b1 then fadd (fadd (fz 0) (f_mult A y (dof (e_Lp E) j i l))) (f_mult B z (dof (e_Lc E) j 1 l)) else fadd (fz 0) (f_mult A y (dof (e_Lp E) j i l)))
        (if b2 then (if b1 then 0 + r_mult A (fun J => fr (y J)) (dof (e_Lp E) j i l) + r_mult B (jump_part 0 Rplus E (fun J => fr (x J)) n) (dof (e_Lc E) j 1 l) else 0 + r_mult A (fun J => fr (y J)) (dof (e_Lp E) j i l))
              + r_mult B (jump_part 0 Rplus E (fun J => fr (x J)) (S n)) (dof (e_Lc E) j 0 l)
              else if b1 then 0 + r_mult A (fun J => fr (y J)) (dof (e_Lp E) j i l) + r_mult B (jump_part 0 Rplus E (fun J => fr (x J)) n) (dof (e_Lc E) j 1 l) else 0 + r_mult A (fun J => fr (y J)) (dof (e_Lp E) j i l))
        (if b2 then (if b1 then 0 + a_mult A (fun J => Rabs (fr (y J))) (dof (e_Lp E) j i l) + a_mult B (jump_part 0 Rplus E (fun J => Rabs (fr (x J))) n) (dof (e_Lc E) j 1 l) else 0 + a_mult A (fun J => Rabs (fr (y J))) (dof (e_Lp E) j i l))
              + a_mult B (jump_part 0 Rplus E (fun J => Rabs (fr (x J))) (S n)) (dof (e_Lc E) j 0 l)
              else if b1 then 0 + a_mult A (fun J => Rabs (fr (y J))) (dof (e_Lp E) j i l) + a_mult B (jump_part 0 Rplus E (fun J => Rabs (fr (x J))) n) (dof (e_Lc E) j 1 l) else 0 + a_mult A (fun J => Rabs (fr (y J))) (dof (e_Lp E) j i l))
        (r + 4) (3 * r) fin nn).
    { destruct b2 eqn:Eb2.
      - unfold b2 in Eb2. apply andb_prop in Eb2 as [Eb2 Ei0]. apply andb_prop in Eb2 as [En Ej]. apply Nat.ltb_lt in En. apply Nat.ltb_lt in Ej.
        assert (IB : (dof (e_Lc E) j 0 l < lay_dim (e_Lc E))%nat) by (apply (dof_lt E 2 nc_coup); unfold nc_coup; auto; apply (eo_c _ HE)).
        rewrite (r_mult_local _ _ HB _ (fun J => fr (z' J)) (fr_start (fun v => fr v) (S n) ltac:(lia) En) _ IB).
        rewrite (a_mult_local _ _ HB _ (fun J => Rabs (fr (z' J))) (fr_start (fun v => Rabs (fr v)) (S n) ltac:(lia) En) _ IB).
        pose proof (app_add _ _ _ _ _ _ _ _ _ _ _ _ _ _ P1 (mult_app _ B z' (dof (e_Lc E) j 0 l) HB DB (z_double (S n) ltac:(lia) En) IB)) as P2.
        eapply (app_mono _ _ _ _ _ (r + 4) _ (3 * r)) in P2; [|lia|lia|apply Rle_refl].
        eexists _, _. split; [|split; [|exact P2]]; tauto.
      - eapply (app_mono _ _ _ _ _ (r + 4) _ (3 * r)) in P1; [|lia|lia|apply Rle_refl].
        eexists _, _. split; [|split; [|exact P1]].
        + split; [intros X; split; [exact X|discriminate]|tauto].
        + split; [tauto|intros [X|[X _]]; [exact X|discriminate]]. }
    destruct P2 as [fin [nn [F2 [N2 P2]]]]. exists fin, nn.
    assert (ZU : b1 = true -> (dof (e_Lc E) j 1 l < lay_dim (e_Lc E))%nat /\ at_start E n x z /\ forall z0, at_start E n x z0 -> forall J, (J < lay_dim (e_Lc E))%nat -> z0 J = z J).
    { intro Eb1. unfold b1 in Eb1. apply andb_prop in Eb1 as [Eb1 _]. apply andb_prop in Eb1 as [En Ej]. apply Nat.ltb_lt in En. apply Nat.ltb_lt in Ej.
      assert (AZ : at_start E n x z) by (apply part_start; assumption).
      split; [apply (dof_lt E 2 nc_coup); auto; apply (eo_c _ HE)|]. split; [exact AZ|]. intros z0 H0. apply (start_uniq E n x); auto. }
    assert (ZU' : b2 = true -> (dof (e_Lc E) j 0 l < lay_dim (e_Lc E))%nat /\ at_start E (S n) x z' /\ forall z0, at_start E (S n) x z0 -> forall J, (J < lay_dim (e_Lc E))%nat -> z0 J = z' J).
    { intro Eb2. unfold b2 in Eb2. apply andb_prop in Eb2 as [Eb2 _]. apply andb_prop in Eb2 as [En Ej]. apply Nat.ltb_lt in En. apply Nat.ltb_lt in Ej.
      assert (AZ : at_start E (S n) x z') by (apply part_start; auto; lia).
      split; [apply (dof_lt E 2 nc_coup); unfold nc_coup; auto; apply (eo_c _ HE)|]. split; [exact AZ|]. intros z0 H0. apply (start_uniq E (S n) x); auto. }
    assert (YS : on_slab E n x y) by (apply part_slab; assumption).
    split; [|split; [|exact P2]].
    - unfold reads. rewrite E1, E2, F2, F1. split.
      + intros [[X1 X2] X3]. split; [|split].
        * intros y0 Hy0. apply (RF _ A y y0 _ HA IA); [intros J HJ; symmetry; apply YU; assumption|exact X1].
        * intros Hb z0 Hz0. destruct (ZU Hb) as [IB [_ U]]. apply (RF _ B z z0 _ HB IB); [intros J HJ; symmetry; apply U; assumption|exact (X2 Hb)].
        * intros Hb z0 Hz0. destruct (ZU' Hb) as [IB [_ U]]. apply (RF _ B z' z0 _ HB IB); [intros J HJ; symmetry; apply U; assumption|exact (X3 Hb)].
      + intros [X1 [X2 X3]]. split; [split|].
        * apply X1, YS.
        * intro Hb. apply X2; [exact Hb|]. apply (ZU Hb).
        * intro Hb. apply X3; [exact Hb|]. apply (ZU' Hb).
    - unfold some_reads. rewrite E1, E2, N2, N1. intros [[y0 [Hy0 X]]|[[Hb [z0 [Hz0 X]]]|[Hb [z0 [Hz0 X]]]]].
      + left. left. apply (RN _ A y0 y _ HA IA); [apply YU, Hy0|exact X].
      + left. right. split; [exact Hb|]. destruct (ZU Hb) as [IB [_ U]]. apply (RN _ B z0 z _ HB IB); [apply U, Hz0|exact X].
      + right. split; [exact Hb|]. destruct (ZU' Hb) as [IB [_ U]]. apply (RN _ B z0 z' _ HB IB); [apply U, Hz0|exact X].
  Qed.
End Accuracy.

(** the data: a valid space-time layout, matrices of its sizes, doubles everywhere (infinities and
    nan included) and rows of at most [r] stored entries *)
Definition data (E : env) (A B : frows) (x : nat -> spec_float) (r : nat) : Prop :=
  env_ok E /\ size (lay_dim (e_Lp E)) A /\ size (lay_dim (e_Lc E)) B
  /\ doubles (lay_dim (e_Lp E)) A r /\ doubles (lay_dim (e_Lc E)) B r /\ forall J, (J < lay_dim (e_Lf E))%nat -> double (x J).
(** A finite entry is the exact one up to the rounding errors: a factor (1 + 2^-53) for each of at
    most r + 4 operations in a row, relative to the sum of the absolute values of the products,
    and at most 2^-1075 for each product that underflows. *)
Theorem C92_accuracy E A B x v1 w1 r n j i l : data E A B x r -> index E n j i l ->
  finite (f_apply E A B x v1 w1 (row_of E n j i l)) ->
  Rabs (fr (f_apply E A B x v1 w1 (row_of E n j i l)) - exact_apply E A B x (row_of E n j i l))
  <= ((1 + u) ^ (r + 4) - 1) * magnitude E A B x (row_of E n j i l) + INR (3 * r) * bpow radix2 (-1075) * (1 + u) ^ (r + 4).
Proof.
  intros [HE [HA [HB [DA [DB Dx]]]]] Hi Hf. destruct (entry_app E A B x v1 w1 r n j i l HE HA HB DA DB Dx Hi) as [fin [nn [_ [_ P]]]].
  destruct P as [_ [_ [P _]]]. exact (proj2 (P Hf)).
Qed.
(** An entry is finite only if all the stored entries and the values that it reads are; ... *)
Theorem C92_finite E A B x v1 w1 r n j i l : data E A B x r -> index E n j i l ->
  finite (f_apply E A B x v1 w1 (row_of E n j i l)) -> reads E A B x n j i l row_finite.
Proof.
  intros [HE [HA [HB [DA [DB Dx]]]]] Hi Hf. destruct (entry_app E A B x v1 w1 r n j i l HE HA HB DA DB Dx Hi) as [fin [nn [F [_ P]]]].
  destruct P as [_ [_ [P _]]]. apply F. exact (proj1 (P Hf)).
Qed.
(** ... conversely, if they are, the entry is finite unless the sum of the absolute values is
    within rounding errors of 2^1024. *)
Theorem C92_no_overflow E A B x v1 w1 r n j i l : data E A B x r -> index E n j i l -> reads E A B x n j i l row_finite ->
  (1 + u) ^ (r + 4) * (magnitude E A B x (row_of E n j i l) + INR (3 * r) * bpow radix2 (-1075)) < bpow radix2 1024 ->
  finite (f_apply E A B x v1 w1 (row_of E n j i l)).
Proof.
  intros [HE [HA [HB [DA [DB Dx]]]]] Hi Hr HT. destruct (entry_app E A B x v1 w1 r n j i l HE HA HB DA DB Dx Hi) as [fin [nn [F [_ P]]]].
  destruct P as [_ [_ [_ [P _]]]]. apply P; [apply F, Hr|exact HT].
Qed.
(** A nan that is read gives nan, even if it is multiplied by 0. *)
Theorem C92_nan E A B x v1 w1 r n j i l : data E A B x r -> index E n j i l -> some_reads E A B x n j i l row_nan ->
  f_apply E A B x v1 w1 (row_of E n j i l) = S754_nan.
Proof.
  intros [HE [HA [HB [DA [DB Dx]]]]] Hi Hr. destruct (entry_app E A B x v1 w1 r n j i l HE HA HB DA DB Dx Hi) as [fin [nn [_ [N P]]]].
  destruct P as [_ [_ [_ [_ P]]]]. apply P, N, Hr.
Qed.

(** Zeros of either sign give a zero: underflow does not matter. *)
Lemma zero_add a b : is_dbl a 0 -> is_dbl b 0 -> is_dbl (fadd a b) 0.
Proof. intros H1 H2. rewrite <- rnd_0. replace 0 with (0 + 0) by ring. apply fadd_ok; [exact H1|exact H2|]. rewrite Rplus_0_l, rnd_0, Rabs_R0. apply bpow_gt_0. Qed.
Lemma zero_mult A y I : (forall p, In p (A I) -> double (snd p) /\ finite (snd p) /\ is_dbl (y (fst p)) 0) -> is_dbl (f_mult A y I) 0.
Proof.
  unfold f_mult. pose proof (fz_ok 0 ltac:(lia)) as H0. change (IZR 0) with 0 in H0. revert H0. generalize (fz 0). induction (A I) as [|[J a] row IH]; intros s Hs H; [exact Hs|].
  cbn [fold_left]. apply IH; [|intros p Hp; apply H; right; exact Hp]. destruct (H (J, a) (or_introl eq_refl)) as [X1 [X2 X3]]. cbn [fst snd] in *.
  apply zero_add; [exact Hs|]. rewrite <- rnd_0. replace 0 with (fr a * 0) by ring. apply fmul_ok; [apply finite_dbl; assumption|exact X3|].
  rewrite Rmult_0_r, rnd_0, Rabs_R0. apply bpow_gt_0.
Qed.
Definition all_finite (d : nat) (A : frows) : Prop := forall I, (I < d)%nat -> List.Forall (fun p => finite (snd p)) (A I).
Theorem C92_zero E A B x v1 w1 r n j i l : data E A B x r -> index E n j i l -> all_finite (lay_dim (e_Lp E)) A -> all_finite (lay_dim (e_Lc E)) B ->
  (forall J, (J < lay_dim (e_Lf E))%nat -> is_dbl (x J) 0) -> is_dbl (f_apply E A B x v1 w1 (row_of E n j i l)) 0.
Proof.
  intros [HE [HA [HB [DA [DB _]]]]] Hi FA FB Hx. destruct Hi as [Hn [Hj [Hii Hl]]]. unfold f_apply, row_of.
  rewrite (loops_entry (fz 0) fadd E HE _ _ (f_mult_local _ _ HA) (f_mult_local _ _ HB)) by assumption. unfold entry_after.
  destruct (Nat.ltb_spec n (c_N (e_c E))); [|lia]. cbv zeta.
  assert (ZR : forall d M y I, size d M -> doubles d M r -> all_finite d M -> (forall J, (J < d)%nat -> is_dbl (y J) 0) -> (I < d)%nat -> is_dbl (f_mult M y I) 0).
  { intros d M y I HS HD HF Hy HI. apply zero_mult. intros p Hp. specialize (HS I HI). specialize (HF I HI). destruct (HD I HI) as [D1 _]. unfold row_double in D1.
    rewrite List.Forall_forall in *. auto. }
  assert (ZB : forall m k, (0 < m)%nat -> (m < c_N (e_c E))%nat -> (j < 2)%nat -> (k < 2)%nat -> is_dbl (f_mult B (jump_part (fz 0) fadd E x m) (dof (e_Lc E) j k l)) 0).
  { intros m k H0 Hm Hj2 Hk. apply (ZR (lay_dim (e_Lc E))); auto; [|apply (dof_lt E 2 nc_coup); auto; apply (eo_c _ HE)].
    intros J HJ. destruct (dof_of E 2 nc_coup _ J (eo_c _ HE) HJ) as [j0 [i0 [l0 [H1 [H2 [H3 ->]]]]]].
    rewrite (part_start (fz 0) fadd E x m HE H0 Hm) by assumption. apply Hx. apply (dof_lt E 4 (nc_full (e_c E))); auto; [apply (eo_f _ HE)|].
    apply (up_coup_lt (e_c E) m); auto. apply in_coup_idx. auto. }
  assert (ZA : is_dbl (fadd (fz 0) (f_mult A (slab_part (fz 0) fadd E x n) (dof (e_Lp E) j i l))) 0).
  { apply zero_add; [apply (fz_ok 0); lia|]. apply (ZR (lay_dim (e_Lp E))); auto; [|apply (dof_lt E 4 (nc_pre (e_c E))); auto; apply (eo_p _ HE)].
    intros J HJ. destruct (dof_of E 4 (nc_pre (e_c E)) _ J (eo_p _ HE) HJ) as [j0 [i0 [l0 [H1 [H2 [H3 ->]]]]]].
    rewrite (part_slab (fz 0) fadd E x n HE Hn) by assumption. apply Hx. apply (dof_lt E 4 (nc_full (e_c E))); auto; [apply (eo_f _ HE)|]. unfold nc_full, nc_pre in *. nia. }
  destruct (Nat.ltb_spec 0 n) as [H0|H0]; destruct (Nat.ltb_spec (S n) (c_N (e_c E))) as [H1|H1]; destruct (Nat.ltb_spec j 2) as [H2|H2]; cbn [andb]; try exact ZA;
    destruct (Nat.eqb i 0); destruct (Nat.eqb i (c_q (e_c E))); repeat (apply zero_add; [|apply ZB; lia]); exact ZA.
Qed.

(** ** The loops are those of the model over the reals *)
Lemma moves acc Ld Ls prs src dst : move acc Ld Ls prs src dst = copies Rplus acc Ld Ls prs src dst.
Proof. destruct acc; reflexivity. Qed.
Section Reals.
  Variables (E : env) (A B : matrix) (vi vo : nat).
  Hypothesis Hv : vi <> vo.
  Notation c := (e_c E).
  Let mA := mult (lay_dim (e_Lp E)) A.
  Let mB := mult (lay_dim (e_Lc E)) B.
  Definition holds (x : vec) (st : vec * vec * vec) (s : state) : Prop :=
    let '(v1, w1, out) := st in
    s_fes s = true /\ s_njm s = Some A /\ s_vs1 s = Some v1 /\ s_heap s vi = x /\ s_heap s vo = out
    /\ ((1 < c_N c)%nat -> s_com s = Some B /\ s_vc1 s = Some w1).
  Lemma pass_real x st s n k : (n < c_N c)%nat -> holds x st s -> exists s', apply_slab E vi vo n k s = (Ok tt, s') /\ holds x (pass Rplus E mA mB x n k st) s'.
  Proof.
    intros Hn. destruct st as [[v1 w1] out]. intros [Hf [Hm [H1 [Hx [Ho Hc]]]]].
    unfold apply_slab, need_fes, err_if, bind, get, need, modify, ret, raise.
    rewrite Hf. cbn [negb]. cbv beta iota zeta. rewrite H1. cbv beta iota zeta.
    cbn [s_njm w_vs1 w_vs2 put w_heap s_heap]. rewrite Hm. cbv beta iota zeta.
    cbn [s_heap w_vs1 w_vs2 s_vc1 w_heap put]. rewrite Hx, Ho.
    unfold pass. rewrite !moves. fold mA mB.
    destruct (Nat.ltb_spec 0 n) as [H0|H0].
    - destruct (Hc ltac:(lia)) as [Hb H2].
      match goal with |- context [s_vc1 (put ?a ?b (w_vs2 ?p (w_vs1 ?q s)))] => change (s_vc1 (put a b (w_vs2 p (w_vs1 q s)))) with (s_vc1 s) end.
      rewrite H2. cbv beta iota zeta.
      match goal with |- context [s_com ?t] => change (s_com t) with (s_com s) end.
      rewrite Hb. cbv beta iota zeta.
      match goal with |- context [s_heap (w_vc2 ?a (w_vc1 ?b ?t))] => change (s_heap (w_vc2 a (w_vc1 b t))) with (s_heap t) end.
      rewrite put_same. rewrite put_other by exact Hv. cbn [s_heap w_vs1 w_vs2]. rewrite Hx.
      eexists. split; [reflexivity|]. rewrite !moves. fold mB. unfold holds. repeat split.
      + exact Hf.
      + exact Hm.
      + rewrite put_other by exact Hv. cbn [s_heap w_vc1 w_vc2]. rewrite put_other by exact Hv. exact Hx.
      + rewrite put_same. reflexivity.
      + exact Hb.
    - eexists. split; [reflexivity|]. unfold holds. repeat split.
      + exact Hf.
      + exact Hm.
      + rewrite put_other by exact Hv. exact Hx.
      + rewrite put_same. reflexivity.
      + apply Hc. assumption.
      + apply Hc. assumption.
  Qed.
  Lemma passes_real x ns : forall st s k, (forall n, In n ns -> (n < c_N c)%nat) -> holds x st s ->
    exists s', slabs c (apply_slab E vi vo) ns k s = (Ok tt, s') /\ holds x (passes Rplus E mA mB x ns k st) s'.
  Proof.
    induction ns as [|n ns IH]; intros st s k Hns H; [exists s; split; [reflexivity|exact H]|].
    destruct (pass_real x st s n k (Hns n (or_introl eq_refl)) H) as [s1 [E1 H1]].
    destruct (IH _ s1 (cnt_next c k) (fun m Hm => Hns m (or_intror Hm)) H1) as [s' [E' H']]. exists s'. split; [|exact H'].
    cbn [slabs]. unfold bind. rewrite E1. exact E'.
  Qed.
  (** With real numbers the loops compute what apply_spacetime_matrix of SpaceTimeModel.v does. *)
  Theorem C92_reals s v1 w1 : s_fes s = true -> s_njm s = Some A -> s_vs1 s = Some v1 -> ((1 < c_N c)%nat -> s_com s = Some B /\ s_vc1 s = Some w1) ->
    exists s', apply_spacetime_matrix E vi vo s = (Ok tt, s')
      /\ s_heap s' vo = apply_loops 0 Rplus E (mult (lay_dim (e_Lp E)) A) (mult (lay_dim (e_Lc E)) B) (s_heap s vi) v1 w1.
  Proof.
    intros Hf Hm H1 Hc. unfold apply_spacetime_matrix. unfold bind at 1, modify.
    destruct (passes_real (s_heap s vi) (seq 0 (c_N c)) (v1, w1, fun _ => 0) (put vo vzero s) cnt0) as [s' [E' H']].
    - intros n Hn. apply in_seq in Hn. lia.
    - unfold holds. split; [exact Hf|]. split; [exact Hm|]. split; [exact H1|]. split; [apply put_other; exact Hv|]. split; [apply put_same|]. exact Hc.
    - exists s'. split; [exact E'|]. unfold apply_loops. destruct (passes Rplus E mA mB (s_heap s vi) (seq 0 (c_N c)) cnt0 (v1, w1, fun _ => 0)) as [[a b] o] eqn:EP.
      destruct H' as [_ [_ [_ [_ [H' _]]]]]. rewrite H'. transitivity (snd (a, b, o)); [reflexivity|]. rewrite <- EP. reflexivity.
  Qed.
End Reals.

(** ** Examples *)
Definition exA : frows := fun _ => [(0%nat, fz 1); (1%nat, fz 1); (2%nat, fz 1)].
Definition exB : frows := fun I => [(I, fz 2); (0%nat, fz (-1))].
Lemma ex_rows d : (3 <= d)%nat -> size d exA /\ size d exB /\ doubles d exA 3 /\ doubles d exB 3.
Proof.
  intro Hd. split; [|split; [|split]]; intros I HI; [repeat constructor; cbn; lia..| |].
  - split; [repeat constructor|cbn; lia].
  - split; [repeat constructor|cbn; lia].
Qed.
Lemma ex_env q N : (q <= 3)%nat -> (1 <= N)%nat -> exists c, construct (exP q q N false false) = Ok c /\ c_N c = N /\ c_q c = q /\ c_qs c = q.
Proof.
  intros Hq HN. destruct (exP_ok q q N false false Hq Hq HN) as [c HC]. exists c. pose proof (construct_inv _ _ HC) as HB. split; [exact HC|].
  rewrite (bu_NP _ _ HB), (bu_cq _ _ HB), (bu_cqs _ _ HB). cbn [p_N p_q p_qstar exP]. rewrite Nat2Z.id. auto.
Qed.
Definition ex_x (J : nat) : spec_float := fn J.
(** Two slabs of linear elements in time, matrices with several entries in a row: the hypotheses
    hold and an entry between the slabs has three terms. *)
Theorem C92_nonvacuous : exists c, let E := exE exI c in data E exA exB ex_x 3 /\ index E 0 0 1 2 /\ index E 1 0 0 2
  /\ finite (f_apply E exA exB ex_x ex_x ex_x (row_of E 0 0 1 2)) /\ reads E exA exB ex_x 0 0 1 2 row_finite
  /\ f_apply E exA exB ex_x ex_x ex_x (row_of E 0 0 1 2) = fz 10
  /\ f_apply E exA exB ex_x ex_x ex_x (row_of E 1 0 0 2) = fz 34.
Proof.
  destruct (ex_env 1 2) as [c [_ [H1 [H2 H3]]]]; try lia. exists c. cbv zeta.
  destruct c as [cq cqs ck cks cN cT ct cdt clam cst cj cwp cel cqr cqh cph cdp csm cep cv cdv]. cbn in H1, H2, H3. subst cq cqs cN.
  set (c := mkCfg _ _ _ _ _ _ _ _ _ _ _ _ _ _ _ _ _ _ _ _ _). set (E := exE exI c).
  assert (L1 : lay_dim (e_Lp E) = 24%nat) by (vm_compute; reflexivity). assert (L2 : lay_dim (e_Lc E) = 12%nat) by (vm_compute; reflexivity).
  assert (L3 : lay_dim (e_Lf E) = 48%nat) by (vm_compute; reflexivity).
  assert (HD : data E exA exB ex_x 3).
  { split; [apply exE_ok; cbn; lia|]. rewrite L1, L2, L3. destruct (ex_rows 24) as [R1 [_ [R3 _]]]; [lia|]. destruct (ex_rows 12) as [_ [R2 [_ R4]]]; [lia|].
    split; [exact R1|]. split; [exact R2|]. split; [exact R3|]. split; [exact R4|]. intros J HJ. apply dbl_double with (a := INR J). apply fn_ok. lia. }
  assert (I1 : index E 0 0 1 2) by (vm_compute; lia). assert (I2 : index E 1 0 0 2) by (vm_compute; lia).
  assert (V1 : f_apply E exA exB ex_x ex_x ex_x (row_of E 0 0 1 2) = fz 10) by (vm_compute; reflexivity).
  assert (V2 : f_apply E exA exB ex_x ex_x ex_x (row_of E 1 0 0 2) = fz 34) by (vm_compute; reflexivity).
  assert (F : finite (f_apply E exA exB ex_x ex_x ex_x (row_of E 0 0 1 2))) by (rewrite V1; repeat split; discriminate).
  split; [exact HD|]. split; [exact I1|]. split; [exact I2|]. split; [exact F|]. split; [apply (C92_finite E exA exB ex_x ex_x ex_x 3 0 0 1 2 HD I1 F)|]. split; [exact V1|exact V2].
Qed.
(** The operator in doubles is not additive, even without overflow and underflow: with x the unit
    vector times 2^53 and y twice the entry 1, the two small entries are lost one by one. *)
Definition ex_big (J : nat) : spec_float := match J with 0%nat => fz (2 ^ 53) | _ => fz 0 end.
Definition ex_small (J : nat) : spec_float := match J with 1%nat | 2%nat => fz 1 | _ => fz 0 end.
Theorem C92_additive_refuted : exists c, let E := exE exI c in data E exA exB ex_big 3 /\ data E exA exB ex_small 3 /\ index E 0 0 0 0
  /\ fadd (f_apply E exA exB ex_big ex_x ex_x (row_of E 0 0 0 0)) (f_apply E exA exB ex_small ex_x ex_x (row_of E 0 0 0 0))
     <> f_apply E exA exB (fun J => fadd (ex_big J) (ex_small J)) ex_x ex_x (row_of E 0 0 0 0).
Proof.
  destruct (ex_env 1 1) as [c [_ [H1 [H2 H3]]]]; try lia. exists c. cbv zeta.
  destruct c as [cq cqs ck cks cN cT ct cdt clam cst cj cwp cel cqr cqh cph cdp csm cep cv cdv]. cbn in H1, H2, H3. subst cq cqs cN.
  set (c := mkCfg _ _ _ _ _ _ _ _ _ _ _ _ _ _ _ _ _ _ _ _ _). set (E := exE exI c).
  assert (L1 : lay_dim (e_Lp E) = 24%nat) by (vm_compute; reflexivity). assert (L2 : lay_dim (e_Lc E) = 12%nat) by (vm_compute; reflexivity).
  assert (HD : forall x, (forall J, double (x J)) -> data E exA exB x 3).
  { intros x Hx. split; [apply exE_ok; cbn; lia|]. rewrite L1, L2. destruct (ex_rows 24) as [R1 [_ [R3 _]]]; [lia|]. destruct (ex_rows 12) as [_ [R2 [_ R4]]]; [lia|].
    split; [exact R1|]. split; [exact R2|]. split; [exact R3|]. split; [exact R4|]. intros J _. apply Hx. }
  split; [apply HD; intros [|J]; reflexivity|]. split; [apply HD; intros [|[|[|J]]]; reflexivity|]. split; [vm_compute; lia|].
  vm_compute. discriminate.
Qed.

Print Assumptions C92_terms.
Print Assumptions C92_scratch.
Print Assumptions C92_accuracy.
Print Assumptions C92_finite.
Print Assumptions C92_no_overflow.
Print Assumptions C92_nan.
Print Assumptions C92_zero.
Print Assumptions C92_reals.
Print Assumptions C92_additive_refuted.
