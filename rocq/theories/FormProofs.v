(** FormProofs.v -- algebra of the forms of FormModel.v: bilinearity, locality,
    assembly, and shifting a form from one time slab to another. *)
From Coq Require Import Reals List ZArith Lra Lia Bool Permutation.
From Verif Require Import Base FormModel FormSpec.
Import ListNotations.
Open Scope R_scope.

(** * Spatial bilinear functionals *)

Lemma integ_ext D m w nc f g f' g' :
  (forall p c, (c < nc)%nat -> f p c = f' p c) -> (forall p c, (c < nc)%nat -> g p c = g' p c) ->
  integ D m w nc f g = integ D m w nc f' g'.
Proof.
  intros Hf Hg. unfold integ. apply Rsum_ext; intro p. f_equal.
  apply sumn_ext; intros c Hc. rewrite Hf, Hg by exact Hc. reflexivity.
Qed.
Lemma integ_sum1 {A} D m w nc (l : list A) (r : A -> R) (F : A -> nat -> nat -> R) g :
  integ D m w nc (fun p c => Rsum l (fun a => r a * F a p c)) g
  = Rsum l (fun a => r a * integ D m w nc (F a) g).
Proof.
  unfold integ. erewrite Rsum_ext.
  2: { intro p. rewrite (Rsum_ext _ _ (fun c => Rsum l (fun a => r a * (F a p c * g p c)))).
       2: { intro c. rewrite <- Rsum_scal_r. apply Rsum_ext; intro; ring. }
       rewrite Rsum_swap, <- Rsum_scal. reflexivity. }
  rewrite Rsum_swap. apply Rsum_ext; intro a. rewrite <- Rsum_scal. apply Rsum_ext; intro p.
  rewrite Rsum_scal. ring.
Qed.
Lemma integ_comm D m w nc f g : integ D m w nc f g = integ D m w nc g f.
Proof.
  unfold integ. apply Rsum_ext; intro p. f_equal. apply Rsum_ext; intro; ring.
Qed.
Lemma integ_sum2 {A} D m w nc (l : list A) (r : A -> R) (F : A -> nat -> nat -> R) g :
  integ D m w nc g (fun p c => Rsum l (fun a => r a * F a p c))
  = Rsum l (fun a => r a * integ D m w nc g (F a)).
Proof.
  rewrite integ_comm, integ_sum1. apply Rsum_ext; intro. rewrite integ_comm. reflexivity.
Qed.
Lemma fev_ext D m s o a a' p c :
  (forall l, (l < d_dim D s)%nat -> a l = a' l) -> fev D m s o a p c = fev D m s o a' p c.
Proof. intro H. unfold fev. apply sumn_ext; intros l Hl. rewrite H by exact Hl. reflexivity. Qed.
Lemma fev_sum {A} D m s o (l : list A) (r : A -> R) (F : A -> vec) p c :
  fev D m s o (fun k => Rsum l (fun a => r a * F a k)) p c
  = Rsum l (fun a => r a * fev D m s o (F a) p c).
Proof.
  unfold fev. rewrite (Rsum_ext _ _ (fun k => Rsum l (fun a => r a * (F a k * d_tab D m s o k p c)))).
  2: { intro k. rewrite <- Rsum_scal_r. apply Rsum_ext; intro; ring. }
  rewrite Rsum_swap. apply Rsum_ext; intro a. rewrite Rsum_scal. reflexivity.
Qed.
Lemma sp_ext D m w o1 s1 o2 s2 a b a' b' :
  (forall l, (l < d_dim D s1)%nat -> a l = a' l) -> (forall l, (l < d_dim D s2)%nat -> b l = b' l) ->
  sp D m w o1 s1 o2 s2 a b = sp D m w o1 s1 o2 s2 a' b'.
Proof. intros Ha Hb. apply integ_ext; intros; apply fev_ext; assumption. Qed.
Lemma sp_sum1 {A} D m w o1 s1 o2 s2 (l : list A) (r : A -> R) (F : A -> vec) b :
  sp D m w o1 s1 o2 s2 (fun k => Rsum l (fun a => r a * F a k)) b
  = Rsum l (fun a => r a * sp D m w o1 s1 o2 s2 (F a) b).
Proof.
  unfold sp. rewrite <- integ_sum1. apply integ_ext; intros; [apply fev_sum|reflexivity].
Qed.
Lemma sp_sum2 {A} D m w o1 s1 o2 s2 (l : list A) (r : A -> R) (F : A -> vec) b :
  sp D m w o1 s1 o2 s2 b (fun k => Rsum l (fun a => r a * F a k))
  = Rsum l (fun a => r a * sp D m w o1 s1 o2 s2 b (F a)).
Proof.
  unfold sp. rewrite <- integ_sum2. apply integ_ext; intros; [reflexivity|apply fev_sum].
Qed.
(** swapping the factors; the operators must have the same shape *)
Lemma sp_comm D m w o1 s1 o2 s2 a b :
  ncomp D o1 = ncomp D o2 -> sp D m w o1 s1 o2 s2 a b = sp D m w o2 s2 o1 s1 b a.
Proof. intro H. unfold sp. rewrite integ_comm, H. reflexivity. Qed.
Lemma sp_sub1 D m w o1 s1 o2 s2 a a' b :
  sp D m w o1 s1 o2 s2 (fun l => a l - a' l) b
  = sp D m w o1 s1 o2 s2 a b - sp D m w o1 s1 o2 s2 a' b.
Proof.
  pose proof (sp_sum1 D m w o1 s1 o2 s2 [(1, a); (-1, a')] fst snd b) as H.
  rewrite !Rsum_cons, Rsum_nil in H; cbn [fst snd] in H.
  transitivity (1 * sp D m w o1 s1 o2 s2 a b + (-1 * sp D m w o1 s1 o2 s2 a' b + 0)); [|ring].
  rewrite <- H. apply sp_ext; intros; [|reflexivity].
  rewrite !Rsum_cons, Rsum_nil; cbn; ring.
Qed.
Lemma sp_sub2 D m w o1 s1 o2 s2 a a' b :
  sp D m w o1 s1 o2 s2 b (fun l => a l - a' l)
  = sp D m w o1 s1 o2 s2 b a - sp D m w o1 s1 o2 s2 b a'.
Proof.
  pose proof (sp_sum2 D m w o1 s1 o2 s2 [(1, a); (-1, a')] fst snd b) as H.
  rewrite !Rsum_cons, Rsum_nil in H; cbn [fst snd] in H.
  transitivity (1 * sp D m w o1 s1 o2 s2 b a + (-1 * sp D m w o1 s1 o2 s2 b a' + 0)); [|ring].
  rewrite <- H. apply sp_ext; intros; [reflexivity|].
  rewrite !Rsum_cons, Rsum_nil; cbn; ring.
Qed.
Lemma sp_scal1 D m w o1 s1 o2 s2 k a b :
  sp D m w o1 s1 o2 s2 (fun l => k * a l) b = k * sp D m w o1 s1 o2 s2 a b.
Proof.
  pose proof (sp_sum1 D m w o1 s1 o2 s2 [(k, a)] fst snd b) as H.
  rewrite !Rsum_cons, Rsum_nil in H; cbn [fst snd] in H.
  rewrite Rplus_0_r in H. rewrite <- H. apply sp_ext; intros; [|reflexivity].
  rewrite !Rsum_cons, Rsum_nil; cbn; ring.
Qed.
Lemma sp_scal2 D m w o1 s1 o2 s2 k a b :
  sp D m w o1 s1 o2 s2 b (fun l => k * a l) = k * sp D m w o1 s1 o2 s2 b a.
Proof.
  pose proof (sp_sum2 D m w o1 s1 o2 s2 [(k, a)] fst snd b) as H.
  rewrite !Rsum_cons, Rsum_nil in H; cbn [fst snd] in H.
  rewrite Rplus_0_r in H. rewrite <- H. apply sp_ext; intros; [reflexivity|].
  rewrite !Rsum_cons, Rsum_nil; cbn; ring.
Qed.
Lemma sp_add1 D m w o1 s1 o2 s2 a a' b :
  sp D m w o1 s1 o2 s2 (fun l => a l + a' l) b
  = sp D m w o1 s1 o2 s2 a b + sp D m w o1 s1 o2 s2 a' b.
Proof.
  pose proof (sp_sum1 D m w o1 s1 o2 s2 [(1, a); (1, a')] fst snd b) as H.
  rewrite !Rsum_cons, Rsum_nil in H; cbn [fst snd] in H.
  transitivity (1 * sp D m w o1 s1 o2 s2 a b + (1 * sp D m w o1 s1 o2 s2 a' b + 0)); [|ring].
  rewrite <- H. apply sp_ext; intros; [|reflexivity].
  rewrite !Rsum_cons, Rsum_nil; cbn; ring.
Qed.
(** nonnegativity of squares *)
Definition nonneg_disc (D : disc) (m : meas) (w : weight) : Prop :=
  forall p, In p (d_pts D m) -> 0 <= d_w D m p * wval D m w p.
Lemma sp_nonneg D m w o s a : nonneg_disc D m w -> 0 <= sp D m w o s o s a a.
Proof.
  intro H. unfold sp, integ. apply Rsum_nonneg; intros p Hp.
  apply Rmult_le_pos; [apply H; exact Hp|].
  apply Rsum_nonneg; intros c _. apply Rle_0_sqr.
Qed.

(** * Terms as combinations of [sp] *)

Lemma eval_t_sum D X Y t :
  eval_t D X Y t
  = b_coef t * Rsum (b_a1 t) (fun '(r1, (v1, i1)) => r1 * Rsum (b_a2 t) (fun '(r2, (v2, i2)) => r2 *
      sp D (b_m t) (b_wt t) (b_o1 t) (spc (blk v1)) (b_o2 t) (spc (blk v2))
        (pick X Y v1 (blk v1) (Z.to_nat i1)) (pick X Y v2 (blk v2) (Z.to_nat i2)))).
Proof.
  unfold eval_t. f_equal. unfold argval.
  transitivity (integ D (b_m t) (b_wt t) (ncomp D (b_o1 t))
    (fun p c => Rsum (b_a1 t) (fun x => fst x *
        fev D (b_m t) (spc (blk (fst (snd x)))) (b_o1 t)
          (pick X Y (fst (snd x)) (blk (fst (snd x))) (Z.to_nat (snd (snd x)))) p c))
    (fun p c => Rsum (b_a2 t) (fun x => fst x *
        fev D (b_m t) (spc (blk (fst (snd x)))) (b_o2 t)
          (pick X Y (fst (snd x)) (blk (fst (snd x))) (Z.to_nat (snd (snd x)))) p c))).
  { apply integ_ext; intros; apply Rsum_ext; intros [r [v i]]; reflexivity. }
  rewrite integ_sum1. apply Rsum_ext; intros [r1 [v1 i1]]; cbn [fst snd]. f_equal.
  rewrite integ_sum2. apply Rsum_ext; intros [r2 [v2 i2]]. reflexivity.
Qed.
Lemma eval_nil D X Y : eval D [] X Y = 0.
Proof. reflexivity. Qed.
Lemma eval_cons D t f X Y : eval D (t :: f) X Y = eval_t D X Y t + eval D f X Y.
Proof. reflexivity. Qed.
Lemma eval_app D f g X Y : eval D (f ++ g) X Y = eval D f X Y + eval D g X Y.
Proof. apply Rsum_app. Qed.
Lemma eval_flat_map {A} D (h : A -> bform) l X Y :
  eval D (flat_map h l) X Y = Rsum l (fun a => eval D (h a) X Y).
Proof. apply Rsum_flat_map. Qed.

(** * Proper terms and bilinearity *)

Definition all_trial (a : arg) : Prop := forall r v i, In (r, (v, i)) a -> is_trial v = true.
Definition all_test (a : arg) : Prop := forall r v i, In (r, (v, i)) a -> is_trial v = false.
Definition proper (t : bterm) : Prop :=
  (all_trial (b_a1 t) /\ all_test (b_a2 t)) \/ (all_test (b_a1 t) /\ all_trial (b_a2 t)).

Lemma argval_trial D m o X Y Y' a p c :
  all_trial a -> argval D m o X Y a p c = argval D m o X Y' a p c.
Proof.
  intro H. unfold argval. apply Rsum_ext_in; intros [r [v i]] Hin.
  unfold pick. rewrite (H _ _ _ Hin). reflexivity.
Qed.
Lemma argval_test D m o X X' Y a p c :
  all_test a -> argval D m o X Y a p c = argval D m o X' Y a p c.
Proof.
  intro H. unfold argval. apply Rsum_ext_in; intros [r [v i]] Hin.
  unfold pick. rewrite (H _ _ _ Hin). reflexivity.
Qed.
Lemma argval_sumX {A} D m o (l : list A) (r : A -> R) (F : A -> field) Y a p c :
  all_trial a ->
  argval D m o (fun j i k => Rsum l (fun x => r x * F x j i k)) Y a p c
  = Rsum l (fun x => r x * argval D m o (F x) Y a p c).
Proof.
  intro H. unfold argval.
  transitivity (Rsum a (fun y => Rsum l (fun x => r x * (fst y *
     fev D m (spc (blk (fst (snd y)))) o (F x (blk (fst (snd y))) (Z.to_nat (snd (snd y)))) p c)))).
  - apply Rsum_ext_in; intros [s [v i]] Hin. unfold pick. rewrite (H _ _ _ Hin). cbn [fst snd].
    rewrite (fev_sum D m (spc (blk v)) o l r (fun x => F x (blk v) (Z.to_nat i))).
    rewrite <- Rsum_scal. apply Rsum_ext; intro; ring.
  - rewrite Rsum_swap. apply Rsum_ext; intro x. rewrite Rsum_scal. f_equal.
    apply Rsum_ext_in; intros [s [v i]] Hin. unfold pick. rewrite (H _ _ _ Hin). reflexivity.
Qed.
Lemma argval_sumY {A} D m o (l : list A) (r : A -> R) (F : A -> field) X a p c :
  all_test a ->
  argval D m o X (fun j i k => Rsum l (fun x => r x * F x j i k)) a p c
  = Rsum l (fun x => r x * argval D m o X (F x) a p c).
Proof.
  intro H. unfold argval.
  transitivity (Rsum a (fun y => Rsum l (fun x => r x * (fst y *
     fev D m (spc (blk (fst (snd y)))) o (F x (blk (fst (snd y))) (Z.to_nat (snd (snd y)))) p c)))).
  - apply Rsum_ext_in; intros [s [v i]] Hin. unfold pick. rewrite (H _ _ _ Hin). cbn [fst snd].
    rewrite (fev_sum D m (spc (blk v)) o l r (fun x => F x (blk v) (Z.to_nat i))).
    rewrite <- Rsum_scal. apply Rsum_ext; intro; ring.
  - rewrite Rsum_swap. apply Rsum_ext; intro x. rewrite Rsum_scal. f_equal.
    apply Rsum_ext_in; intros [s [v i]] Hin. unfold pick. rewrite (H _ _ _ Hin). reflexivity.
Qed.

Lemma eval_t_linX {A} D t (l : list A) (r : A -> R) (F : A -> field) Y :
  proper t ->
  eval_t D (fun j i k => Rsum l (fun x => r x * F x j i k)) Y t
  = Rsum l (fun x => r x * eval_t D (F x) Y t).
Proof.
  intros [[H1 H2]|[H1 H2]]; unfold eval_t.
  - transitivity (b_coef t * integ D (b_m t) (b_wt t) (ncomp D (b_o1 t))
      (fun p c => Rsum l (fun x => r x * argval D (b_m t) (b_o1 t) (F x) Y (b_a1 t) p c))
      (argval D (b_m t) (b_o2 t) Y Y (b_a2 t))).
    + f_equal. apply integ_ext; intros; [apply argval_sumX; exact H1|].
      apply argval_test; exact H2.
    + rewrite integ_sum1, <- Rsum_scal. apply Rsum_ext; intro x.
      rewrite <- Rmult_assoc, (Rmult_comm (b_coef t) (r x)), Rmult_assoc. do 2 f_equal.
      apply integ_ext; intros; [reflexivity|apply argval_test; exact H2].
  - transitivity (b_coef t * integ D (b_m t) (b_wt t) (ncomp D (b_o1 t))
      (argval D (b_m t) (b_o1 t) Y Y (b_a1 t))
      (fun p c => Rsum l (fun x => r x * argval D (b_m t) (b_o2 t) (F x) Y (b_a2 t) p c))).
    + f_equal. apply integ_ext; intros; [apply argval_test; exact H1|].
      apply argval_sumX; exact H2.
    + rewrite integ_sum2, <- Rsum_scal. apply Rsum_ext; intro x.
      rewrite <- Rmult_assoc, (Rmult_comm (b_coef t) (r x)), Rmult_assoc. do 2 f_equal.
      apply integ_ext; intros; [apply argval_test; exact H1|reflexivity].
Qed.
Lemma eval_t_linY {A} D t (l : list A) (r : A -> R) (F : A -> field) X :
  proper t ->
  eval_t D X (fun j i k => Rsum l (fun x => r x * F x j i k)) t
  = Rsum l (fun x => r x * eval_t D X (F x) t).
Proof.
  intros [[H1 H2]|[H1 H2]]; unfold eval_t.
  - transitivity (b_coef t * integ D (b_m t) (b_wt t) (ncomp D (b_o1 t))
      (argval D (b_m t) (b_o1 t) X X (b_a1 t))
      (fun p c => Rsum l (fun x => r x * argval D (b_m t) (b_o2 t) X (F x) (b_a2 t) p c))).
    + f_equal. apply integ_ext; intros; [apply argval_trial; exact H1|].
      apply argval_sumY; exact H2.
    + rewrite integ_sum2, <- Rsum_scal. apply Rsum_ext; intro x.
      rewrite <- Rmult_assoc, (Rmult_comm (b_coef t) (r x)), Rmult_assoc. do 2 f_equal.
      apply integ_ext; intros; [apply argval_trial; exact H1|reflexivity].
  - transitivity (b_coef t * integ D (b_m t) (b_wt t) (ncomp D (b_o1 t))
      (fun p c => Rsum l (fun x => r x * argval D (b_m t) (b_o1 t) X (F x) (b_a1 t) p c))
      (argval D (b_m t) (b_o2 t) X X (b_a2 t))).
    + f_equal. apply integ_ext; intros; [apply argval_sumY; exact H1|].
      apply argval_trial; exact H2.
    + rewrite integ_sum1, <- Rsum_scal. apply Rsum_ext; intro x.
      rewrite <- Rmult_assoc, (Rmult_comm (b_coef t) (r x)), Rmult_assoc. do 2 f_equal.
      apply integ_ext; intros; [reflexivity|apply argval_trial; exact H2].
Qed.
Definition properF (f : bform) : Prop := Forall proper f.
Lemma eval_linX {A} D f (l : list A) (r : A -> R) (F : A -> field) Y :
  properF f ->
  eval D f (fun j i k => Rsum l (fun x => r x * F x j i k)) Y
  = Rsum l (fun x => r x * eval D f (F x) Y).
Proof.
  unfold eval. induction 1 as [|t f Ht Hf IH].
  - symmetry. apply Rsum_zero; intros. rewrite Rsum_nil. ring.
  - rewrite Rsum_cons, IH, eval_t_linX by exact Ht. rewrite <- Rsum_plus.
    apply Rsum_ext; intro. rewrite Rsum_cons. ring.
Qed.
Lemma eval_linY {A} D f (l : list A) (r : A -> R) (F : A -> field) X :
  properF f ->
  eval D f X (fun j i k => Rsum l (fun x => r x * F x j i k))
  = Rsum l (fun x => r x * eval D f X (F x)).
Proof.
  unfold eval. induction 1 as [|t f Ht Hf IH].
  - symmetry. apply Rsum_zero; intros. rewrite Rsum_nil. ring.
  - rewrite Rsum_cons, IH, eval_t_linY by exact Ht. rewrite <- Rsum_plus.
    apply Rsum_ext; intro. rewrite Rsum_cons. ring.
Qed.

(** * Well-formed forms are proper and local *)

Lemma wf_arg_all nb nc b a : wf_arg nb nc b a = true ->
  forall r v i, In (r, (v, i)) a ->
    is_trial v = b /\ (blk v < nb)%nat /\ (0 <= i)%Z /\ (Z.to_nat i < nc (blk v))%nat.
Proof.
  unfold wf_arg. intros H r v i Hin. apply andb_true_iff in H; destruct H as [_ H].
  rewrite forallb_forall in H. specialize (H _ Hin). cbn beta iota in H.
  repeat (apply andb_true_iff in H; let X := fresh in destruct H as [H X]).
  apply eqb_prop in H. apply Nat.ltb_lt in H2. apply Z.leb_le in H1. apply Z.ltb_lt in H0.
  repeat split; [exact H|exact H2|exact H1|lia].
Qed.
Lemma wf_bterm_proper nb nc t : wf_bterm nb nc t = true -> proper t.
Proof.
  unfold wf_bterm. intro H. apply andb_true_iff in H; destruct H as [_ H].
  apply orb_true_iff in H. destruct H as [H|H]; apply andb_true_iff in H; destruct H as [H1 H2].
  - left; split; intros r v i Hin; [apply (wf_arg_all _ _ _ _ H1 _ _ _ Hin)|apply (wf_arg_all _ _ _ _ H2 _ _ _ Hin)].
  - right; split; intros r v i Hin; [apply (wf_arg_all _ _ _ _ H1 _ _ _ Hin)|apply (wf_arg_all _ _ _ _ H2 _ _ _ Hin)].
Qed.
Lemma wf_bform_proper nb nc f : wf_bform nb nc f = true -> properF f.
Proof.
  unfold wf_bform. rewrite forallb_forall. intro H. apply Forall_forall. intros t Ht.
  apply (wf_bterm_proper nb nc). apply H; exact Ht.
Qed.

(** fields that agree on the components of the space *)
Definition feq (D : disc) (nb : nat) (nc : nat -> nat) (X X' : field) : Prop :=
  forall j i l, (j < nb)%nat -> (i < nc j)%nat -> (l < d_dim D (spc j))%nat -> X j i l = X' j i l.
Lemma feq_refl D nb nc X : feq D nb nc X X.
Proof. intros j i l _ _ _. reflexivity. Qed.

Lemma eval_t_ext D nb nc t X X' Y Y' :
  wf_bterm nb nc t = true -> feq D nb nc X X' -> feq D nb nc Y Y' ->
  eval_t D X Y t = eval_t D X' Y' t.
Proof.
  intros H HX HY. rewrite !eval_t_sum. f_equal.
  unfold wf_bterm in H. apply andb_true_iff in H; destruct H as [_ H].
  assert (G : forall r v i, In (r, (v, i)) (b_a1 t) \/ In (r, (v, i)) (b_a2 t) ->
    forall l, (l < d_dim D (spc (blk v)))%nat ->
    pick X Y v (blk v) (Z.to_nat i) l = pick X' Y' v (blk v) (Z.to_nat i) l).
  { intros r v i Hin l Hl.
    assert (B : (blk v < nb)%nat /\ (Z.to_nat i < nc (blk v))%nat).
    { apply orb_true_iff in H. destruct H as [H|H]; apply andb_true_iff in H; destruct H as [H1 H2];
      destruct Hin as [Hin|Hin];
      [ pose proof (wf_arg_all _ _ _ _ H1 _ _ _ Hin) | pose proof (wf_arg_all _ _ _ _ H2 _ _ _ Hin)
      | pose proof (wf_arg_all _ _ _ _ H1 _ _ _ Hin) | pose proof (wf_arg_all _ _ _ _ H2 _ _ _ Hin)];
      tauto. }
    unfold pick. destruct (is_trial v); [apply HX|apply HY]; tauto. }
  apply Rsum_ext_in; intros [r1 [v1 i1]] H1. f_equal.
  apply Rsum_ext_in; intros [r2 [v2 i2]] H2. f_equal.
  apply sp_ext; intros l Hl; [apply (G r1)|apply (G r2)]; auto.
Qed.
Lemma eval_ext D nb nc f X X' Y Y' :
  wf_bform nb nc f = true -> feq D nb nc X X' -> feq D nb nc Y Y' ->
  eval D f X Y = eval D f X' Y'.
Proof.
  unfold wf_bform. rewrite forallb_forall. intros H HX HY.
  apply Rsum_ext_in; intros t Ht. apply (eval_t_ext D nb nc); auto.
Qed.

(** linear forms *)
Lemma leval_t_sum D Y t :
  leval_t D Y t
  = l_coef t * Rsum (l_a t) (fun '(r, (v, i)) => r *
      integ D (l_m t) (l_wt t) (ncomp D (l_o t)) (l_f t)
        (fev D (l_m t) (spc (blk v)) (l_o t) (Y (blk v) (Z.to_nat i)))).
Proof.
  unfold leval_t. f_equal.
  transitivity (integ D (l_m t) (l_wt t) (ncomp D (l_o t)) (l_f t)
    (fun p c => Rsum (l_a t) (fun x => fst x *
        fev D (l_m t) (spc (blk (fst (snd x)))) (l_o t)
          (Y (blk (fst (snd x))) (Z.to_nat (snd (snd x)))) p c))).
  { apply integ_ext; intros; [reflexivity|]. apply Rsum_ext; intros [r [v i]].
    unfold pick. destruct (is_trial v); reflexivity. }
  rewrite integ_sum2. apply Rsum_ext; intros [r [v i]]. reflexivity.
Qed.
Lemma leval_cons D t f Y : leval D (t :: f) Y = leval_t D Y t + leval D f Y.
Proof. reflexivity. Qed.
Lemma leval_app D f g Y : leval D (f ++ g) Y = leval D f Y + leval D g Y.
Proof. apply Rsum_app. Qed.
Lemma leval_ext D nb nc f Y Y' :
  wf_lform nb nc f = true -> feq D nb nc Y Y' -> leval D f Y = leval D f Y'.
Proof.
  unfold wf_lform. rewrite forallb_forall. intros H HY.
  apply Rsum_ext_in; intros t Ht. specialize (H t Ht). unfold wf_lterm in H.
  apply andb_true_iff in H; destruct H as [_ H].
  rewrite !leval_t_sum. f_equal. apply Rsum_ext_in; intros [r [v i]] Hin. f_equal.
  apply integ_ext; intros; [reflexivity|]. apply fev_ext; intros l Hl.
  destruct (wf_arg_all _ _ _ _ H _ _ _ Hin) as [_ [B [_ C]]]. apply HY; assumption.
Qed.
Lemma leval_linY {A} D f (l : list A) (r : A -> R) (F : A -> field) :
  leval D f (fun j i k => Rsum l (fun x => r x * F x j i k))
  = Rsum l (fun x => r x * leval D f (F x)).
Proof.
  unfold leval. rewrite (Rsum_ext l _ (fun x => Rsum f (fun t => r x * leval_t D (F x) t)))
    by (intro; symmetry; apply Rsum_scal).
  rewrite Rsum_swap. apply Rsum_ext; intro t. rewrite leval_t_sum.
  rewrite (Rsum_ext l _ (fun x => l_coef t * Rsum (l_a t) (fun y => r x * (fst y *
      integ D (l_m t) (l_wt t) (ncomp D (l_o t)) (l_f t)
        (fev D (l_m t) (spc (blk (fst (snd y)))) (l_o t) (F x (blk (fst (snd y))) (Z.to_nat (snd (snd y))))))))).
  2: { intro x. rewrite leval_t_sum, Rsum_scal. 
       rewrite <- Rmult_assoc, (Rmult_comm (r x)), Rmult_assoc. do 2 f_equal.
       apply Rsum_ext; intros [s [v i]]; reflexivity. }
  rewrite Rsum_scal. f_equal. rewrite Rsum_swap. apply Rsum_ext; intros [s [v i]]. cbn [fst snd].
  transitivity (s * integ D (l_m t) (l_wt t) (ncomp D (l_o t)) (l_f t)
     (fun p c => Rsum l (fun x => r x * fev D (l_m t) (spc (blk v)) (l_o t) (F x (blk v) (Z.to_nat i)) p c))).
  { f_equal. apply integ_ext; intros; [reflexivity|].
    apply (fev_sum D (l_m t) (spc (blk v)) (l_o t) l r (fun x => F x (blk v) (Z.to_nat i))). }
  rewrite integ_sum2, <- Rsum_scal. apply Rsum_ext; intro.
  rewrite <- !Rmult_assoc, (Rmult_comm s). reflexivity.
Qed.

(** * Assembly *)

Definition lay_ok (D : disc) (nb : nat) (nc : nat -> nat) (L : layout) : Prop :=
  wf_layout nb nc (fun j => d_dim D (spc j)) L.

Lemma in_all_dofs nb nc L j i k :
  (j < nb)%nat -> (i < nc j)%nat -> In k (lay_sub L j i) -> In k (all_dofs nb nc L).
Proof.
  intros Hj Hi Hk. unfold all_dofs. apply in_flat_map. exists j. split; [apply in_seq; lia|].
  apply in_flat_map. exists i. split; [apply in_seq; lia|exact Hk].
Qed.
Lemma dof_lt D nb nc L j i l :
  lay_ok D nb nc L -> (j < nb)%nat -> (i < nc j)%nat -> (l < d_dim D (spc j))%nat ->
  (dof L j i l < lay_dim L)%nat.
Proof.
  intros H Hj Hi Hl. apply (wl_range _ _ _ _ H). apply in_all_dofs with (j := j) (i := i); auto.
  apply nth_In. rewrite (wl_len _ _ _ _ H) by assumption. exact Hl.
Qed.
Lemma field_of_units D nb nc L x :
  lay_ok D nb nc L ->
  feq D nb nc (field_of L x)
    (fun j i l => sumn (lay_dim L) (fun J => x J * field_of L (unitv J) j i l)).
Proof.
  intros H j i l Hj Hi Hl. unfold field_of, unitv.
  rewrite (sumn_ext _ _ (fun J => delta (dof L j i l) J * x J)).
  - rewrite sumn_delta; [reflexivity|]. eapply dof_lt; eauto.
  - intros J _. rewrite (delta_sym J). ring.
Qed.
(** (A x)_I is the form at x and the I-th basis function *)
Lemma mult_assemble D nb nc L f x I :
  lay_ok D nb nc L -> wf_bform nb nc f = true ->
  mult (lay_dim L) (assemble D L f) x I = eval D f (field_of L x) (field_of L (unitv I)).
Proof.
  intros HL Hf. unfold mult, assemble.
  rewrite (eval_ext D nb nc f (field_of L x)
    (fun j i l => sumn (lay_dim L) (fun J => x J * field_of L (unitv J) j i l))
    (field_of L (unitv I)) (field_of L (unitv I)) Hf (field_of_units D nb nc L x HL) (feq_refl _ _ _ _)).
  rewrite (eval_linX D f (seq 0 (lay_dim L)) x (fun J => field_of L (unitv J)))
    by (apply (wf_bform_proper nb nc); exact Hf).
  apply Rsum_ext; intro; ring.
Qed.
(** y . (A x) *)
Lemma dot_assemble D nb nc L f x y :
  lay_ok D nb nc L -> wf_bform nb nc f = true ->
  sumn (lay_dim L) (fun I => y I * mult (lay_dim L) (assemble D L f) x I)
  = eval D f (field_of L x) (field_of L y).
Proof.
  intros HL Hf.
  rewrite (eval_ext D nb nc f (field_of L x) (field_of L x) (field_of L y)
    (fun j i l => sumn (lay_dim L) (fun J => y J * field_of L (unitv J) j i l))
    Hf (feq_refl _ _ _ _) (field_of_units D nb nc L y HL)).
  rewrite (eval_linY D f (seq 0 (lay_dim L)) y (fun J => field_of L (unitv J)))
    by (apply (wf_bform_proper nb nc); exact Hf).
  apply Rsum_ext; intro I. rewrite (mult_assemble D nb nc) by assumption. reflexivity.
Qed.
Lemma dot_assemble_vec D nb nc L f y :
  lay_ok D nb nc L -> wf_lform nb nc f = true ->
  sumn (lay_dim L) (fun I => y I * assemble_vec D L f I) = leval D f (field_of L y).
Proof.
  intros HL Hf.
  rewrite (leval_ext D nb nc f (field_of L y)
    (fun j i l => sumn (lay_dim L) (fun J => y J * field_of L (unitv J) j i l)) Hf
    (field_of_units D nb nc L y HL)).
  rewrite (leval_linY D f (seq 0 (lay_dim L)) y (fun J => field_of L (unitv J))). reflexivity.
Qed.

(** ** Dof numbering: every dof has one (block, component, local) address *)
Lemma NoDup_app_remove_l (l l' : list nat) : NoDup (l ++ l') -> NoDup l'.
Proof. induction l as [|x l IH]; cbn; intro H; [exact H|]. inversion H; auto. Qed.
Lemma NoDup_app_remove_r (l l' : list nat) : NoDup (l ++ l') -> NoDup l.
Proof.
  induction l as [|x l IH]; cbn; intro H; [constructor|]. inversion H; subst.
  constructor; [|auto]. intro Hx; apply H2, in_or_app; left; exact Hx.
Qed.
Lemma lay_sub_nodup D nb nc L j i :
  lay_ok D nb nc L -> (j < nb)%nat -> (i < nc j)%nat -> NoDup (lay_sub L j i).
Proof.
  intros H Hj Hi. pose proof (wl_nodup _ _ _ _ H) as Hn. unfold all_dofs in Hn.
  assert (G : forall (A : Type) (h : A -> list nat) l a, NoDup (flat_map h l) -> In a l -> NoDup (h a)).
  { intros A h l; induction l as [|b l IH]; intros a Hd Ha; [destruct Ha|].
    cbn in Hd. destruct Ha as [->|Ha].
    - eapply NoDup_app_remove_r; exact Hd.
    - apply IH; [eapply NoDup_app_remove_l; exact Hd|exact Ha]. }
  apply (G _ (fun i => lay_sub L j i) (seq 0 (nc j))); [|apply in_seq; lia].
  apply (G _ _ _ j Hn). apply in_seq; lia.
Qed.
Lemma NoDup_flat_map_inj {A} (h : A -> list nat) l a b k :
  NoDup (flat_map h l) -> NoDup l -> In a l -> In b l -> In k (h a) -> In k (h b) -> a = b.
Proof.
  induction l as [|c l IH]; intros Hd Hl Ha Hb Hka Hkb; [destruct Ha|].
  cbn in Hd. inversion Hl; subst.
  assert (X : forall d, In d l -> In k (h d) -> ~ In k (h c)).
  { intros d Hdl Hkd Hkc. 
    assert (Hin : In k (flat_map h l)) by (apply in_flat_map; exists d; auto).
    clear - Hd Hkc Hin. induction (h c) as [|x xs IHx]; [destruct Hkc|].
    cbn in Hd. inversion Hd; subst. destruct Hkc as [->|Hkc]; [|auto].
    apply H1. apply in_or_app; right; exact Hin. }
  destruct Ha as [->|Ha]; destruct Hb as [->|Hb]; auto.
  - exfalso; eapply X; eauto.
  - exfalso; eapply X; eauto.
  - apply IH; auto. eapply NoDup_app_remove_l; exact Hd.
Qed.
Lemma dof_inj D nb nc L j i l j' i' l' :
  lay_ok D nb nc L ->
  (j < nb)%nat -> (i < nc j)%nat -> (l < d_dim D (spc j))%nat ->
  (j' < nb)%nat -> (i' < nc j')%nat -> (l' < d_dim D (spc j'))%nat ->
  dof L j i l = dof L j' i' l' -> j = j' /\ i = i' /\ l = l'.
Proof.
  intros H Hj Hi Hl Hj' Hi' Hl' E.
  pose proof (wl_nodup _ _ _ _ H) as Hn. unfold all_dofs in Hn.
  assert (I1 : In (dof L j i l) (lay_sub L j i))
    by (apply nth_In; rewrite (wl_len _ _ _ _ H) by assumption; exact Hl).
  assert (I2 : In (dof L j i l) (lay_sub L j' i'))
    by (rewrite E; apply nth_In; rewrite (wl_len _ _ _ _ H) by assumption; exact Hl').
  assert (Ej : j = j').
  { apply (NoDup_flat_map_inj (fun j => flat_map (fun i => lay_sub L j i) (seq 0 (nc j)))
      (seq 0 nb) j j' (dof L j i l) Hn (seq_NoDup _ _)); try (apply in_seq; lia);
    apply in_flat_map; [exists i|exists i']; (split; [apply in_seq; lia|assumption]). }
  subst j'. split; [reflexivity|].
  assert (Ei : i = i').
  { assert (Hn' : NoDup (flat_map (fun i => lay_sub L j i) (seq 0 (nc j)))).
    { clear - Hn Hj. assert (Hs : In j (seq 0 nb)) by (apply in_seq; lia).
      induction (seq 0 nb) as [|b s IH]; [destruct Hs|]. cbn in Hn. destruct Hs as [->|Hs].
      - eapply NoDup_app_remove_r; exact Hn.
      - apply IH; [eapply NoDup_app_remove_l; exact Hn|exact Hs]. }
    apply (NoDup_flat_map_inj (fun i => lay_sub L j i) (seq 0 (nc j)) i i' (dof L j i l) Hn' (seq_NoDup _ _));
      try (apply in_seq; lia); assumption. }
  subst i'. split; [reflexivity|].
  unfold dof in E. apply (proj1 (NoDup_nth (lay_sub L j i) 0%nat)) in E;
    [exact E|eapply lay_sub_nodup; eauto| |]; rewrite (wl_len _ _ _ _ H) by assumption; assumption.
Qed.
Lemma dof_surj D nb nc L I :
  lay_ok D nb nc L -> (I < lay_dim L)%nat ->
  exists j i l, (j < nb)%nat /\ (i < nc j)%nat /\ (l < d_dim D (spc j))%nat /\ I = dof L j i l.
Proof.
  intros H HI. apply (wl_range _ _ _ _ H) in HI. unfold all_dofs in HI.
  apply in_flat_map in HI; destruct HI as [j [Hj HI]]. apply in_seq in Hj.
  apply in_flat_map in HI; destruct HI as [i [Hi HI]]. apply in_seq in Hi.
  destruct (In_nth _ _ 0%nat HI) as [l [Hl E]].
  rewrite (wl_len _ _ _ _ H) in Hl by lia.
  exists j, i, l. repeat split; try lia; auto.
Qed.
(** two vectors with the same field agree on all dofs *)
Lemma field_of_inj D nb nc L x y :
  lay_ok D nb nc L -> feq D nb nc (field_of L x) (field_of L y) ->
  forall I, (I < lay_dim L)%nat -> x I = y I.
Proof.
  intros H E I HI. destruct (dof_surj D nb nc L I H HI) as [j [i [l [Hj [Hi [Hl ->]]]]]].
  apply (E j i l); assumption.
Qed.

(** * Symmetric forms: exchanging trial and test functions *)
Definition swap_var (v : var) : var := match v with Tr j => Te j | Te j => Tr j end.
Lemma pick_swap X Y v : pick X Y (swap_var v) = pick Y X v.
Proof. destruct v; reflexivity. Qed.
Lemma blk_swap v : blk (swap_var v) = blk v.
Proof. destruct v; reflexivity. Qed.

(** * Moving a form from slab 0 to slab n *)
Section Shift.
  Variable nt : nat -> nat.   (* components per slab in each block *)
  Definition sh_arg (n : nat) (a : arg) : arg :=
    map (fun '(r, (v, i)) => (r, (v, (i + Z.of_nat (n * nt (blk v)))%Z))) a.
  Definition sh_t (n : nat) (t : bterm) : bterm :=
    mkB (b_coef t) (b_wt t) (b_m t) (b_o1 t) (sh_arg n (b_a1 t)) (b_o2 t) (sh_arg n (b_a2 t)).
  Definition sh (n : nat) (f : bform) : bform := map (sh_t n) f.
  (** the part of a function on slab n *)
  Definition restr (n : nat) (X : field) : field := fun j i l => X j (n * nt j + i)%nat l.

  Definition nonneg_arg (a : arg) : Prop := forall r v i, In (r, (v, i)) a -> (0 <= i)%Z.
  Definition nonneg_t (t : bterm) : Prop := nonneg_arg (b_a1 t) /\ nonneg_arg (b_a2 t).

  Lemma argval_sh D m o X Y n a p c : nonneg_arg a ->
    argval D m o X Y (sh_arg n a) p c = argval D m o (restr n X) (restr n Y) a p c.
  Proof.
    intro H. unfold argval, sh_arg. rewrite Rsum_map. apply Rsum_ext_in; intros [r [v i]] Hin.
    specialize (H _ _ _ Hin). f_equal. apply fev_ext; intros l _.
    unfold pick, restr. destruct (is_trial v);
    replace (Z.to_nat (i + Z.of_nat (n * nt (blk v)))) with (n * nt (blk v) + Z.to_nat i)%nat by lia;
    reflexivity.
  Qed.
  Lemma eval_sh D X Y n f : Forall nonneg_t f ->
    eval D (sh n f) X Y = eval D f (restr n X) (restr n Y).
  Proof.
    unfold eval, sh. rewrite Rsum_map. intro H. apply Rsum_ext_in; intros t Ht.
    rewrite Forall_forall in H. destruct (H t Ht) as [H1 H2]. unfold eval_t; cbn.
    f_equal. apply integ_ext; intros; apply argval_sh; assumption.
  Qed.
End Shift.
