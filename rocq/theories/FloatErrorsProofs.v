(** FloatErrorsProofs.v -- signs, nan and rounding in the sums of measured_errors. *)
From Coq Require Import ZArith Reals List Bool Lia Lra.
From Coq Require Import Floats.SpecFloat.
From Flocq Require Import Core IEEE754.BinarySingleNaN Relative Plus_error.
From Verif Require Import Base FloatModel FloatRound FloatSamples FloatTime FloatLocal FloatErrors.
Import ListNotations.
Local Open Scope R_scope.

Lemma sqrt_eq (x : dbl) : np_sqrt (B2SF x) = B2SF (Bsqrt mode_NE x).
Proof.
  unfold np_sqrt. case x as [[|]|[|]| |[|] mx ex Bx]; try reflexivity.
  cbn [B2SF SFsqrt Bsqrt]. rewrite B2SF_SF2B.
  set (melz := SFsqrt_core_binary _ _ _ _). case melz as [[mz ez] lz]. apply round_aux_eq.
Qed.

Definition pinf : spec_float := S754_infinity false.
(** a double that is not negative: a finite one with value [a] and positive sign *)
Definition posd (x : spec_float) (a : R) : Prop :=
  exists b : dbl, B2SF b = x /\ is_finite b = true /\ Bsign b = false /\ B2R b = a.
(** not negative and not nan *)
Definition nonneg (x : spec_float) : Prop := x = pinf \/ exists a, posd x a.

Lemma posd_dbl x a : posd x a -> is_dbl x a.
Proof. intros [b [? [? [? ?]]]]. exists b. auto. Qed.
Lemma sign_le (b : dbl) : Bsign b = false -> 0 <= B2R b.
Proof.
  destruct b as [s|s| |s m e H]; cbn; try lra. intros ->. apply F2R_ge_0. cbn. lia.
Qed.
Lemma posd_nonneg x a : posd x a -> 0 <= a.
Proof. intros [b [_ [_ [H <-]]]]. apply sign_le, H. Qed.
Lemma posd_fmt x a : posd x a -> dfmt a.
Proof. intro H. apply (is_dbl_fmt x), posd_dbl, H. Qed.
Lemma posd_of x a : is_dbl x a -> 0 < a -> posd x a.
Proof.
  intros [b [E1 [E2 E3]]] H. exists b. split; [exact E1|]. split; [exact E2|]. split; [|exact E3].
  destruct b as [s|s| |s m e Hb]; cbn in *; try lra; try discriminate. destruct s; [|reflexivity]. exfalso.
  assert (F2R (Float radix2 (Z.neg m) e) < 0) by (apply F2R_lt_0; cbn; lia). cbn in E3. lra.
Qed.
Lemma nonneg_not_nan x : nonneg x -> x <> S754_nan.
Proof.
  intros [->|[a [b [<- [H _]]]]]; [discriminate|]. destruct b; cbn in *; try discriminate.
Qed.
Lemma posd_not_inf x a : posd x a -> x <> pinf.
Proof. intros [b [<- [H _]]]. destruct b; cbn in *; try discriminate. Qed.
Lemma fz_zero : posd (fz 0) 0.
Proof. exists (B754_zero false). repeat split. Qed.

(** ** addition *)
Lemma add_fin x y a b : posd x a -> posd y b ->
  (Rabs (rnd (a + b)) < top /\ posd (fadd x y) (rnd (a + b))) \/ (top <= Rabs (rnd (a + b)) /\ fadd x y = pinf).
Proof.
  intros [bx [<- [Fx [Sx <-]]]] [b' [<- [Fy [Sy <-]]]]. rewrite add_eq.
  pose proof (Bplus_correct 53 1024 _ _ mode_NE bx b' Fx Fy) as C.
  match type of C with context [Rlt_bool ?u ?v] => change u with (Rabs (rnd (B2R bx + B2R b'))) in C; change v with top in C end.
  destruct (Rlt_bool_spec (Rabs (rnd (B2R bx + B2R b'))) top) as [H|H].
  - left. split; [exact H|]. destruct C as [C1 [C2 C3]]. exists (Bplus mode_NE bx b'). repeat split; [exact C2| |exact C1].
    rewrite C3, Sx, Sy. pose proof (sign_le _ Sx). pose proof (sign_le _ Sy).
    destruct (Rcompare_spec (B2R bx + B2R b') 0); [lra|reflexivity|reflexivity].
  - right. split; [exact H|]. destruct C as [C _]. rewrite C, Sx. reflexivity.
Qed.
Lemma add_nonneg x y : nonneg x -> nonneg y -> nonneg (fadd x y).
Proof.
  intros [->|[a Ha]] [->|[b Hb]].
  - left. reflexivity.
  - left. destruct Hb as [b' [<- [F _]]]. destruct b'; try discriminate; reflexivity.
  - left. destruct Ha as [b' [<- [F _]]]. destruct b'; try discriminate; reflexivity.
  - destruct (add_fin _ _ _ _ Ha Hb) as [[_ H]|[_ H]]; [right; eexists; exact H|left; exact H].
Qed.
(** a finite sum has finite parts *)
Lemma add_finite_inv x y : nonneg x -> nonneg y -> fadd x y <> pinf -> exists a b, posd x a /\ posd y b /\ posd (fadd x y) (rnd (a + b)).
Proof.
  intros [->|[a Ha]] [->|[b Hb]] N.
  - exfalso. apply N. reflexivity.
  - exfalso. apply N. destruct Hb as [b' [<- [F _]]]. destruct b'; try discriminate; reflexivity.
  - exfalso. apply N. destruct Ha as [b' [<- [F _]]]. destruct b'; try discriminate; reflexivity.
  - destruct (add_fin _ _ _ _ Ha Hb) as [[_ H]|[_ H]]; [exists a, b; auto|contradiction].
Qed.
Lemma add_nan_l x : fadd S754_nan x = S754_nan.
Proof. destruct x; reflexivity. Qed.
Lemma add_nan_r x : fadd x S754_nan = S754_nan.
Proof. destruct x as [[]|[]| |[]]; reflexivity. Qed.
Lemma mul_nan_l x : fmul S754_nan x = S754_nan.
Proof. destruct x; reflexivity. Qed.
Lemma mul_nan_r x : fmul x S754_nan = S754_nan.
Proof. destruct x as [[]|[]| |[]]; reflexivity. Qed.

(** ** multiplication *)
Lemma mul_fin x y a b : posd x a -> posd y b ->
  (Rabs (rnd (a * b)) < top /\ posd (fmul x y) (rnd (a * b))) \/ (top <= Rabs (rnd (a * b)) /\ fmul x y = pinf).
Proof.
  intros [bx [<- [Fx [Sx <-]]]] [b' [<- [Fy [Sy <-]]]]. rewrite mul_eq.
  pose proof (Bmult_correct 53 1024 _ _ mode_NE bx b') as C.
  match type of C with context [Rlt_bool ?u ?v] => change u with (Rabs (rnd (B2R bx * B2R b'))) in C; change v with top in C end.
  destruct (Rlt_bool_spec (Rabs (rnd (B2R bx * B2R b'))) top) as [H|H].
  - left. split; [exact H|]. destruct C as [C1 [C2 C3]]. rewrite Fx, Fy in C2. exists (Bmult mode_NE bx b'). repeat split; [exact C2| |exact C1].
    rewrite C3, Sx, Sy; [reflexivity|]. destruct (Bmult mode_NE bx b'); try discriminate; reflexivity.
  - right. split; [exact H|]. rewrite C, Sx, Sy. reflexivity.
Qed.
(** times a positive weight *)
Lemma mul_weight x y b : nonneg x -> posd y b -> 0 < b -> nonneg (fmul x y).
Proof.
  intros [->|[a Ha]] Hb B.
  - left. destruct Hb as [b' [<- [F [S E]]]]. destruct b' as [s|s| |s m e H]; try discriminate; cbn in *; [lra|]. subst s. reflexivity.
  - destruct (mul_fin _ _ _ _ Ha Hb) as [[_ H]|[_ H]]; [right; eexists; exact H|left; exact H].
Qed.
(** a square *)
Lemma mul_square (b : dbl) : is_nan b = false -> nonneg (fmul (B2SF b) (B2SF b)).
Proof.
  intro N. destruct (is_finite b) eqn:F.
  - rewrite mul_eq. pose proof (Bmult_correct 53 1024 _ _ mode_NE b b) as C.
    match type of C with context [Rlt_bool ?u ?v] => change u with (Rabs (rnd (B2R b * B2R b))) in C; change v with top in C end.
    destruct (Rlt_bool_spec (Rabs (rnd (B2R b * B2R b))) top) as [H|H].
    + destruct C as [C1 [C2 C3]]. rewrite F in C2. right. exists (rnd (B2R b * B2R b)), (Bmult mode_NE b b). repeat split; [exact C2| |exact C1].
      rewrite C3; [apply xorb_nilpotent|]. destruct (Bmult mode_NE b b); try discriminate; reflexivity.
    + left. rewrite C, xorb_nilpotent. reflexivity.
  - left. destruct b as [s|s| |s m e H]; try discriminate. destruct s; reflexivity.
Qed.
Lemma square_fin x a : is_dbl x a -> fmul x x <> pinf -> posd (fmul x x) (rnd (a * a)).
Proof.
  intros [b [<- [F <-]]] N. rewrite mul_eq in *. pose proof (Bmult_correct 53 1024 _ _ mode_NE b b) as C.
  match type of C with context [Rlt_bool ?u ?v] => change u with (Rabs (rnd (B2R b * B2R b))) in C; change v with top in C end.
  destruct (Rlt_bool_spec (Rabs (rnd (B2R b * B2R b))) top) as [H|H].
  - destruct C as [C1 [C2 C3]]. rewrite F in C2. exists (Bmult mode_NE b b). repeat split; [exact C2| |exact C1].
    rewrite C3; [apply xorb_nilpotent|]. destruct (Bmult mode_NE b b); try discriminate; reflexivity.
  - exfalso. apply N. rewrite C, xorb_nilpotent. reflexivity.
Qed.

(** ** square root *)
Lemma sqrt_fin x a : posd x a -> posd (np_sqrt x) (rnd (sqrt a)).
Proof.
  intros [b [<- [F [S <-]]]]. rewrite sqrt_eq. destruct (Bsqrt_correct 53 1024 _ _ mode_NE b) as [C1 [C2 C3]].
  assert (F' : is_finite (Bsqrt mode_NE b) = true).
  { rewrite C2. destruct b as [s|s| |s m e H]; try discriminate; [reflexivity|]. cbn in S. subst s. reflexivity. }
  exists (Bsqrt mode_NE b). repeat split; [exact F'| |exact C1].
  rewrite C3, S; [reflexivity|]. destruct (Bsqrt mode_NE b); try discriminate; reflexivity.
Qed.
Lemma sqrt_nonneg x : nonneg x -> nonneg (np_sqrt x).
Proof. intros [->|[a H]]; [left; reflexivity|right; eexists; apply sqrt_fin, H]. Qed.
Lemma sqrt_finite_inv x : nonneg x -> np_sqrt x <> pinf -> x <> pinf.
Proof. intros _ N ->. apply N. reflexivity. Qed.
(** not nan, not negative: math.sqrt returns *)
Lemma math_sqrt_ok x : nonneg x -> math_sqrt x = Ok (np_sqrt x).
Proof.
  unfold math_sqrt. intros [->|[a [b [<- [F [S _]]]]]]; [reflexivity|].
  destruct b as [s|s| |s m e H]; try discriminate; cbn in S; subst; reflexivity.
Qed.
Lemma math_sqrt_nan : math_sqrt S754_nan = Ok S754_nan.
Proof. reflexivity. Qed.

(** ** points and integrals *)
(** a double of the computation: any bit pattern, nan and infinities included *)
Definition double (x : spec_float) : Prop := valid_binary 53 1024 x = true.
Definition weight (x : spec_float) : Prop := exists a, is_dbl x a /\ 0 < a.
Definition good (p : fpoint) : Prop := weight (fp_det p) /\ weight (fp_w p) /\ double (fp_d p).
Definition good_field (F : field) : Prop := Forall (Forall good) F.
(** some difference is nan *)
Definition has_nan (F : field) : Prop := exists ps p, In ps F /\ In p ps /\ fp_d p = S754_nan.

Lemma double_b x : double x -> exists b : dbl, B2SF b = x.
Proof. intro H. exists (SF2B x H). apply B2SF_SF2B. Qed.
Lemma weight_pos x : weight x -> exists a, posd x a /\ 0 < a.
Proof. intros [a [H P]]. exists a. split; [apply posd_of; assumption|exact P]. Qed.
Lemma nan_dec x : x = S754_nan \/ x <> S754_nan.
Proof. destruct x; [right|right|left|right]; congruence. Qed.

Lemma term_nan p : fp_d p = S754_nan -> f_term p = S754_nan.
Proof. intro E. unfold f_term. rewrite E, !mul_nan_l. reflexivity. Qed.
Lemma term_nonneg p : good p -> fp_d p <> S754_nan -> nonneg (f_term p).
Proof.
  intros [H1 [H2 H3]] N. destruct (weight_pos _ H1) as [a1 [A1 P1]], (weight_pos _ H2) as [a2 [A2 P2]], (double_b _ H3) as [b Eb].
  unfold f_term. apply (mul_weight _ _ a2); [|exact A2|exact P2]. apply (mul_weight _ _ a1); [|exact A1|exact P1].
  rewrite <- Eb. apply mul_square. destruct b; try reflexivity. exfalso. apply N. rewrite <- Eb. reflexivity.
Qed.

Section Sums.
  Context {A : Type}.
  Variable f : A -> spec_float.
  Lemma sum_nan l a : (a = S754_nan \/ exists x, In x l /\ f x = S754_nan) -> fold_left (fun a x => fadd a (f x)) l a = S754_nan.
  Proof.
    revert a. induction l as [|x l IH]; intros a [H|[y [H1 H2]]]; cbn [fold_left].
    - exact H.
    - destruct H1.
    - apply IH. left. rewrite H. apply add_nan_l.
    - apply IH. destruct H1 as [<-|H1]; [left; rewrite H2; apply add_nan_r|right; eauto].
  Qed.
  Lemma sum_nonneg l a : nonneg a -> (forall x, In x l -> nonneg (f x)) -> nonneg (fold_left (fun a x => fadd a (f x)) l a).
  Proof.
    revert a. induction l as [|x l IH]; intros a Ha H; cbn [fold_left]; [exact Ha|].
    apply IH; [apply add_nonneg; [exact Ha|apply H; left; reflexivity]|intros y Hy; apply H; right; exact Hy].
  Qed.
End Sums.

Lemma l2sq_nan F : has_nan F -> f_l2sq F = S754_nan.
Proof.
  intros [ps [p [H1 [H2 H3]]]]. apply sum_nan. right. exists ps. split; [exact H1|].
  apply sum_nan. right. exists p. split; [exact H2|]. apply term_nan, H3.
Qed.
Lemma l2sq_nonneg F : good_field F -> ~ has_nan F -> nonneg (f_l2sq F).
Proof.
  intros G N. apply sum_nonneg; [right; exists 0; apply fz_zero|]. intros ps Hps.
  apply sum_nonneg; [right; exists 0; apply fz_zero|]. intros p Hp. apply term_nonneg.
  - unfold good_field in G. rewrite List.Forall_forall in G. specialize (G ps Hps). rewrite List.Forall_forall in G. apply G, Hp.
  - intro E. apply N. exists ps, p. auto.
Qed.
Lemma has_nan_dec F : has_nan F \/ ~ has_nan F.
Proof.
  assert (D : forall (P : fpoint -> Prop), (forall p, P p \/ ~ P p) -> forall ps, (exists p, In p ps /\ P p) \/ ~ (exists p, In p ps /\ P p)).
  { intros P DP ps. induction ps as [|p ps IH]; [right; intros [p [[] _]]|].
    destruct (DP p) as [H|H]; [left; exists p; cbn; auto|]. destruct IH as [[p' [I1 I2]]|IH]; [left; exists p'; cbn; auto|].
    right. intros [p' [[<-|I1] I2]]; [contradiction|]. apply IH. eauto. }
  induction F as [|ps F IH]; [right; intros [ps [p [[] _]]]|].
  destruct (D (fun p => fp_d p = S754_nan) (fun p => nan_dec (fp_d p)) ps) as [[p [H1 H2]]|H].
  - left. exists ps, p. cbn. auto.
  - destruct IH as [[ps' [p [I1 [I2 I3]]]]|IH]; [left; exists ps', p; cbn; auto|].
    right. intros [ps' [p [[<-|I1] [I2 I3]]]]; [apply H; eauto|]. apply IH. exists ps', p. auto.
Qed.
Lemma l2sq_nan_iff F : good_field F -> (f_l2sq F = S754_nan <-> has_nan F).
Proof.
  intro G. split; [|apply l2sq_nan]. intro E. destruct (has_nan_dec F) as [H|H]; [exact H|].
  exfalso. exact (nonneg_not_nan _ (l2sq_nonneg F G H) E).
Qed.
Lemma sqrt_nan : np_sqrt S754_nan = S754_nan. Proof. reflexivity. Qed.
Lemma norm_nan_iff F : good_field F -> (np_sqrt (f_l2sq F) = S754_nan <-> has_nan F).
Proof.
  intro G. split; intro H.
  - destruct (has_nan_dec F) as [N|N]; [exact N|]. exfalso. exact (nonneg_not_nan _ (sqrt_nonneg _ (l2sq_nonneg F G N)) H).
  - rewrite l2sq_nan by exact H. reflexivity.
Qed.
Lemma norm_nonneg F : good_field F -> ~ has_nan F -> nonneg (np_sqrt (f_l2sq F)).
Proof. intros G N. apply sqrt_nonneg, l2sq_nonneg; assumption. Qed.

(** ** comparisons and maxima *)
Lemma flt_fin x y a b : posd x a -> posd y b -> flt x y = Rlt_bool a b.
Proof. intros [bx [<- [Fx [_ <-]]]] [b' [<- [Fy [_ <-]]]]. exact (Bltb_correct 53 1024 bx b' Fx Fy). Qed.
Lemma fle_fin x y a b : posd x a -> posd y b -> (fle x y = true <-> a <= b).
Proof. intros H1 H2. apply fle_true; apply posd_dbl; assumption. Qed.
Lemma fle_inf x : nonneg x -> fle x pinf = true.
Proof. intros [->|[a [b [<- [F _]]]]]; [reflexivity|]. destruct b as [[]|[]| |[]]; try discriminate; reflexivity. Qed.
Lemma inf_fle x a : posd x a -> fle pinf x = false.
Proof. intros [b [<- [F [S _]]]]. destruct b as [[]|[]| |[]]; try discriminate; reflexivity. Qed.
Lemma inf_flt x : nonneg x -> flt pinf x = false.
Proof. intros [->|[a [b [<- [F _]]]]]; [reflexivity|]. destruct b as [[]|[]| |[]]; try discriminate; reflexivity. Qed.
Lemma flt_inf x a : posd x a -> flt x pinf = true.
Proof. intros [b [<- [F [S _]]]]. destruct b as [[]|[]| |[]]; try discriminate; reflexivity. Qed.
Lemma fle_refl x : nonneg x -> fle x x = true.
Proof. intros [->|[a H]]; [reflexivity|]. apply (fle_fin _ _ _ _ H H). lra. Qed.
Lemma fle_trans x y z : nonneg x -> nonneg y -> nonneg z -> fle x y = true -> fle y z = true -> fle x z = true.
Proof.
  intros Hx Hy [->|[c Hc]] H1 H2; [apply fle_inf, Hx|].
  destruct Hy as [->|[b Hb]]; [rewrite (inf_fle _ _ Hc) in H2; discriminate|].
  destruct Hx as [->|[a Ha]]; [rewrite (inf_fle _ _ Hb) in H1; discriminate|].
  apply (fle_fin _ _ _ _ Ha Hb) in H1. apply (fle_fin _ _ _ _ Hb Hc) in H2. apply (fle_fin _ _ _ _ Ha Hc). lra.
Qed.
Lemma flt_true_le x y : nonneg x -> nonneg y -> flt x y = true -> fle x y = true.
Proof.
  intros Hx [->|[b Hb]] H; [apply fle_inf, Hx|]. destruct Hx as [->|[a Ha]]; [rewrite inf_flt in H by (right; eauto); discriminate|].
  rewrite (flt_fin _ _ _ _ Ha Hb) in H. apply (fle_fin _ _ _ _ Ha Hb). revert H. case Rlt_bool_spec; [lra|discriminate].
Qed.
Lemma flt_false_le x y : nonneg x -> nonneg y -> flt x y = false -> fle y x = true.
Proof.
  intros [->|[a Ha]] Hy H; [apply fle_inf, Hy|]. destruct Hy as [->|[b Hb]]; [rewrite (flt_inf _ _ Ha) in H; discriminate|].
  rewrite (flt_fin _ _ _ _ Ha Hb) in H. apply (fle_fin _ _ _ _ Hb Ha). revert H. case Rlt_bool_spec; [discriminate|lra].
Qed.
Lemma nan_flt x : flt S754_nan x = false. Proof. destruct x; reflexivity. Qed.
Lemma flt_nan x : flt x S754_nan = false. Proof. destruct x as [[]|[]| |[]]; reflexivity. Qed.

Definition nan_or (P : spec_float -> Prop) (x : spec_float) : Prop := x = S754_nan \/ P x.
Lemma max_fold_nan l : fold_left (fun m x => if flt m x then x else m) l S754_nan = S754_nan.
Proof. induction l as [|x l IH]; cbn [fold_left]; [reflexivity|]. rewrite nan_flt. exact IH. Qed.
Lemma max_fold l a : nonneg a -> Forall (nan_or nonneg) l ->
  let r := fold_left (fun m x => if flt m x then x else m) l a in
  nonneg r /\ In r (a :: l) /\ forall x, In x (a :: l) -> x <> S754_nan -> fle x r = true.
Proof.
  revert a. induction l as [|y l IH]; intros a Ha Hl.
  - cbn. split; [exact Ha|]. split; [auto|]. intros x [<-|[]] _. apply fle_refl, Ha.
  - cbn [fold_left]. apply List.Forall_cons_iff in Hl as [[->|Hy] Hl].
    + rewrite flt_nan. destruct (IH a Ha Hl) as [I1 [I2 I3]]. split; [exact I1|]. split.
      * destruct I2 as [I2|I2]; [left; exact I2|right; right; exact I2].
      * intros x [<-|[<-|Hx]] N; [apply I3; cbn; auto|congruence|apply I3; cbn; auto].
    + destruct (flt a y) eqn:E.
      * destruct (IH y Hy Hl) as [I1 [I2 I3]]. split; [exact I1|]. split; [right; exact I2|].
        intros x [<-|Hx] N; [|apply I3; assumption].
        apply (fle_trans _ y); [exact Ha|exact Hy|exact I1|apply flt_true_le; assumption|]. apply I3; [cbn; auto|]. apply nonneg_not_nan, Hy.
      * destruct (IH a Ha Hl) as [I1 [I2 I3]]. split; [exact I1|]. split.
        -- destruct I2 as [I2|I2]; [left; exact I2|right; right; exact I2].
        -- intros x [<-|[<-|Hx]] N; [apply I3; cbn; auto| |apply I3; cbn; auto].
           apply (fle_trans _ a); [exact Hy|exact Ha|exact I1|apply flt_false_le; assumption|]. apply I3; [cbn; auto|]. apply nonneg_not_nan, Ha.
Qed.

(** ** rounding errors *)
Lemma u_pos : 0 < u < 1. Proof. unfold u. lra. Qed.
(** [v] is [r] up to [k] roundings *)
Definition within (k : nat) (v r : R) : Prop := r * (1 - u) ^ k <= v <= r * (1 + u) ^ k.
Lemma within_mono k k' v r : 0 <= r -> (k <= k')%nat -> within k v r -> within k' v r.
Proof.
  intros Hr Hk [H1 H2]. pose proof u_pos. replace k' with (k + (k' - k))%nat by lia. unfold within. rewrite !pow_add.
  pose proof (pow_incr (1 - u) 1 (k' - k) ltac:(lra)) as L. rewrite pow1 in L.
  assert (U : 1 <= (1 + u) ^ (k' - k)) by (apply pow_R1_Rle; lra).
  assert (0 <= (1 - u) ^ k) by (apply pow_le; lra). assert (0 <= (1 + u) ^ k) by (apply pow_le; lra). split.
  - apply Rle_trans with (2 := H1). rewrite <- Rmult_assoc. rewrite <- (Rmult_1_r (r * (1 - u) ^ k)) at 2.
    apply Rmult_le_compat_l; [apply Rmult_le_pos; assumption|exact L].
  - apply Rle_trans with (1 := H2). rewrite <- Rmult_assoc. rewrite <- (Rmult_1_r (r * (1 + u) ^ k)) at 1.
    apply Rmult_le_compat_l; [apply Rmult_le_pos; assumption|exact U].
Qed.
Lemma within_round k v w r : 0 <= r -> within k v r -> v * (1 - u) <= w <= v * (1 + u) -> within (S k) w r.
Proof.
  intros Hr [H1 H2] [H3 H4]. pose proof u_pos. unfold within. cbn [pow]. split.
  - apply Rle_trans with (2 := H3). replace (r * ((1 - u) * (1 - u) ^ k)) with (r * (1 - u) ^ k * (1 - u)) by ring. apply Rmult_le_compat_r; lra.
  - apply Rle_trans with (1 := H4). replace (r * ((1 + u) * (1 + u) ^ k)) with (r * (1 + u) ^ k * (1 + u)) by ring. apply Rmult_le_compat_r; lra.
Qed.
Lemma within_add k v w r s : within k v r -> within k w s -> within k (v + w) (r + s).
Proof. intros [H1 H2] [H3 H4]. unfold within. split; [apply Rle_trans with (r * (1 - u) ^ k + s * (1 - u) ^ k)|apply Rle_trans with (r * (1 + u) ^ k + s * (1 + u) ^ k)]; lra. Qed.
Lemma within_mul k l v w r s : 0 <= r -> 0 <= s -> within k v r -> within l w s -> within (k + l) (v * w) (r * s).
Proof.
  intros Hr Hs [H1 H2] [H3 H4]. pose proof u_pos. unfold within. rewrite !pow_add.
  assert (0 <= (1 - u) ^ k) by (apply pow_le; lra). assert (0 <= (1 - u) ^ l) by (apply pow_le; lra). assert (0 <= (1 + u) ^ k) by (apply pow_le; lra). assert (0 <= (1 + u) ^ l) by (apply pow_le; lra).
  assert (0 <= r * (1 - u) ^ k) by (apply Rmult_le_pos; assumption). assert (0 <= s * (1 - u) ^ l) by (apply Rmult_le_pos; assumption). split.
  - replace (r * s * ((1 - u) ^ k * (1 - u) ^ l)) with (r * (1 - u) ^ k * (s * (1 - u) ^ l)) by ring. apply Rmult_le_compat; assumption.
  - replace (r * s * ((1 + u) ^ k * (1 + u) ^ l)) with (r * (1 + u) ^ k * (s * (1 + u) ^ l)) by ring. apply Rmult_le_compat; lra.
Qed.
Lemma within_exact r : within 0 r r. Proof. unfold within. cbn. lra. Qed.
(** one rounding without underflow *)
Lemma round_rel a : 0 <= a -> a = 0 \/ bpow radix2 (-1022) <= a -> a * (1 - u) <= rnd a <= a * (1 + u).
Proof.
  intros H [->|L]; [rewrite rnd_0; lra|].
  pose proof (relative_error_N_FLT radix2 (-1074) 53 eq_refl (fun z => negb (Z.even z)) a) as E.
  change (round radix2 (FLT_exp (-1074) 53) (Znearest (fun z => negb (Z.even z))) a) with (rnd a) in E.
  change (-1074 + 53 - 1)%Z with (-1022)%Z in E. rewrite (Rabs_pos_eq a H) in E. specialize (E L).
  replace (/ 2 * bpow radix2 (- (53) + 1)) with u in E by (rewrite <- u_eq; replace (/ 2) with (bpow radix2 (-1)) by (cbn; lra); rewrite <- bpow_plus; reflexivity).
  apply Rabs_le_inv in E. lra.
Qed.
(** addition has no underflow *)
Lemma round_sum a b : dfmt a -> dfmt b -> 0 <= a -> 0 <= b -> (a + b) * (1 - u) <= rnd (a + b) <= (a + b) * (1 + u).
Proof.
  intros Fa Fb Ha Hb. destruct (FLT_plus_error_N_ex radix2 (-1074) 53 (fun z => negb (Z.even z)) a b Fa Fb) as [eps [E1 E2]].
  change (round radix2 (FLT_exp (-1074) 53) (Znearest (fun z => negb (Z.even z))) (a + b)) with (rnd (a + b)) in E2. rewrite E2.
  assert (Eu : u_ro radix2 53 = u). { unfold u_ro. rewrite <- u_eq. replace (/ 2) with (bpow radix2 (-1)) by (cbn; lra). rewrite <- bpow_plus. reflexivity. }
  rewrite Eu in E1. pose proof u_pos.
  assert (E3 : Rabs eps <= u).
  { apply Rle_trans with (1 := E1). apply Rmult_le_reg_r with (1 + u); [lra|]. unfold Rdiv. rewrite Rmult_assoc, Rinv_l by lra.
    assert (0 <= u * u) by (apply Rmult_le_pos; lra). lra. }
  apply Rabs_le_inv in E3. split; apply Rmult_le_compat_l; lra.
Qed.
Lemma rnd_low a e : (-1074 <= e)%Z -> bpow radix2 e <= a -> bpow radix2 e <= rnd a.
Proof. intros He H. rewrite <- (rnd_id (bpow radix2 e)) by (apply fmt_bpow; exact He). apply rnd_le, H. Qed.

(** value of a finite double *)
Notation fr := (SF2R radix2).
Lemma posd_fr x a : posd x a -> fr x = a.
Proof. intros [b [<- [_ [_ <-]]]]. apply SF2R_B2SF. Qed.
Lemma dbl_fr x a : is_dbl x a -> fr x = a.
Proof. intros [b [<- [_ <-]]]. apply SF2R_B2SF. Qed.

Section SumError.
  Context {A : Type}.
  Variable f : A -> spec_float.
  Variable g : A -> R.
  Variable k : nat.
  (** a finite sum of doubles that are close to [g] *)
  Lemma sum_error l a s : nonneg a -> (forall x, In x l -> nonneg (f x)) -> (forall x, In x l -> 0 <= g x) ->
    (forall x, In x l -> f x <> pinf -> within k (fr (f x)) (g x)) ->
    0 <= s -> forall m, (k <= m)%nat -> (a <> pinf -> within m (fr a) s) ->
    fold_left (fun a x => fadd a (f x)) l a <> pinf ->
    within (m + List.length l) (fr (fold_left (fun a x => fadd a (f x)) l a)) (s + Rsum l g).
  Proof.
    revert a s. induction l as [|x l IH]; intros a s Ha Hf Hg Hw Hs m Hm HA N; cbn [fold_left Rsum List.length] in *.
    - rewrite Nat.add_0_r. replace (s + Rsum [] g) with s by (unfold Rsum; cbn; ring). apply HA, N.
    - assert (Hx := Hf x (or_introl eq_refl)).
      replace (s + Rsum (x :: l) g) with (s + g x + Rsum l g) by (unfold Rsum; cbn; ring).
      replace (m + S (List.length l))%nat with (S m + List.length l)%nat by lia.
      apply IH; [apply add_nonneg; assumption|intros y Hy; apply Hf; right; exact Hy|intros y Hy; apply Hg; right; exact Hy|intros y Hy; apply Hw; right; exact Hy| |lia| |exact N].
      + apply Rplus_le_le_0_compat; [exact Hs|apply Hg; left; reflexivity].
      + intro N2. destruct (add_finite_inv _ _ Ha Hx N2) as [p [q [P1 [P2 P3]]]].
        rewrite (posd_fr _ _ P3). apply (within_round _ (p + q)); [apply Rplus_le_le_0_compat; [exact Hs|apply Hg; left; reflexivity]| |].
        * apply within_add; [rewrite <- (posd_fr _ _ P1); apply HA, (posd_not_inf _ _ P1)|].
          apply (within_mono k); [apply Hg; left; reflexivity|exact Hm|]. rewrite <- (posd_fr _ _ P2). apply Hw; [left; reflexivity|exact (posd_not_inf _ _ P2)].
        * apply round_sum; [exact (posd_fmt _ _ P1)|exact (posd_fmt _ _ P2)|exact (posd_nonneg _ _ P1)|exact (posd_nonneg _ _ P2)].
  Qed.
End SumError.

(** no underflow in the products of a point *)
Definition safe (p : fpoint) : Prop :=
  bpow radix2 (-100) <= fr (fp_det p) /\ bpow radix2 (-100) <= fr (fp_w p)
  /\ (fr (fp_d p) = 0 \/ bpow radix2 (-350) <= Rabs (fr (fp_d p))).
Definition safe_field (F : field) : Prop := Forall (Forall safe) F.
(** the exact contribution and the exact integral *)
Definition exact_term (p : fpoint) : R := fr (fp_det p) * fr (fp_w p) * (fr (fp_d p) * fr (fp_d p)).
Definition exact (F : field) : R := Rsum F (fun ps => Rsum ps exact_term).

Lemma finite_of x : double x -> x <> S754_nan -> x <> S754_infinity true -> x <> pinf -> is_dbl x (fr x).
Proof.
  intros H N I1 I2. destruct (double_b _ H) as [b <-]. exists b. split; [reflexivity|]. split; [|symmetry; apply SF2R_B2SF].
  destruct b as [s|s| |s m e Hb]; try reflexivity; [destruct s; [exfalso; apply I1|exfalso; apply I2]; reflexivity|exfalso; apply N; reflexivity].
Qed.
Lemma weight_val x : weight x -> posd x (fr x) /\ 0 < fr x.
Proof. intro H. destruct (weight_pos _ H) as [a [A P]]. rewrite (posd_fr _ _ A). auto. Qed.
(** a product that is finite comes from a finite factor *)
Lemma mul_weight_inv x y b : nonneg x -> posd y b -> 0 < b -> fmul x y <> pinf -> exists a, posd x a /\ posd (fmul x y) (rnd (a * b)).
Proof.
  intros [->|[a Ha]] Hb B N.
  - exfalso. apply N. destruct Hb as [b' [<- [F [S E]]]]. destruct b' as [s|s| |s m e H]; try discriminate; cbn in *; [lra|]. subst s. reflexivity.
  - exists a. split; [exact Ha|]. destruct (mul_fin _ _ _ _ Ha Hb) as [[_ H]|[_ H]]; [exact H|contradiction].
Qed.
Lemma bpow_mul_le a b e1 e2 e : bpow radix2 e1 <= a -> bpow radix2 e2 <= b -> (e <= e1 + e2)%Z -> bpow radix2 e <= a * b.
Proof.
  intros Ha Hb He. apply Rle_trans with (bpow radix2 (e1 + e2)); [apply bpow_le; exact He|]. rewrite bpow_plus.
  apply Rmult_le_compat; auto using bpow_ge_0.
Qed.
(** the computed contribution: zero for a zero difference, else bounded below *)
Lemma term_error p : good p -> safe p -> fp_d p <> S754_nan -> f_term p <> pinf ->
  within 3 (fr (f_term p)) (exact_term p) /\ (fr (f_term p) = 0 \/ bpow radix2 (-900) <= fr (f_term p))
  /\ (fr (f_term p) = 0 -> fr (fp_d p) = 0).
Proof.
  intros [H1 [H2 H3]] [S1 [S2 S3]] N I. destruct (weight_val _ H1) as [A1 P1], (weight_val _ H2) as [A2 P2].
  unfold f_term in *. destruct (double_b _ H3) as [b Eb].
  assert (Q1 : nonneg (fmul (fp_d p) (fp_d p))).
  { rewrite <- Eb. apply mul_square. destruct b; try reflexivity. exfalso. apply N. rewrite <- Eb. reflexivity. }
  assert (Q2 := mul_weight _ _ _ Q1 A1 P1).
  destruct (mul_weight_inv _ _ _ Q2 A2 P2 I) as [x2 [X2 X3]].
  destruct (mul_weight_inv _ _ _ Q1 A1 P1 (posd_not_inf _ _ X2)) as [x1 [X1 X2']].
  assert (E2 : x2 = rnd (x1 * fr (fp_det p))) by (rewrite <- (posd_fr _ _ X2'); symmetry; apply posd_fr, X2). subst x2.
  assert (Fd : is_dbl (fp_d p) (fr (fp_d p))).
  { apply finite_of; [exact H3|exact N| |]; intro E; rewrite E in X1; apply (posd_not_inf _ _ X1); reflexivity. }
  assert (E1 : x1 = rnd (fr (fp_d p) * fr (fp_d p))).
  { rewrite <- (posd_fr _ _ X1). apply posd_fr, square_fin; [exact Fd|exact (posd_not_inf _ _ X1)]. } subst x1.
  rewrite (posd_fr _ _ X3). unfold exact_term. set (d := fr (fp_d p)) in *. set (J := fr (fp_det p)) in *. set (w := fr (fp_w p)) in *.
  assert (D2 : 0 <= d * d) by exact (Rle_0_sqr d).
  destruct S3 as [Z|S3].
  - rewrite Z. rewrite !Rmult_0_l, rnd_0, Rmult_0_l, rnd_0, Rmult_0_l, rnd_0, Rmult_0_r. split; [unfold within; rewrite !Rmult_0_l; lra|]. split; [left; reflexivity|reflexivity].
  - assert (L1 : bpow radix2 (-700) <= d * d).
    { rewrite <- (Rabs_pos_eq (d * d)) by exact D2. rewrite Rabs_mult. apply (bpow_mul_le _ _ (-350) (-350)); [exact S3|exact S3|lia]. }
    assert (L1' : bpow radix2 (-700) <= rnd (d * d)) by (apply rnd_low; [lia|exact L1]).
    assert (L2 : bpow radix2 (-800) <= rnd (d * d) * J) by (apply (bpow_mul_le _ _ (-700) (-100)); [exact L1'|exact S1|lia]).
    assert (L2' : bpow radix2 (-800) <= rnd (rnd (d * d) * J)) by (apply rnd_low; [lia|exact L2]).
    assert (L3 : bpow radix2 (-900) <= rnd (rnd (d * d) * J) * w) by (apply (bpow_mul_le _ _ (-800) (-100)); [exact L2'|exact S2|lia]).
    assert (L3' : bpow radix2 (-900) <= rnd (rnd (rnd (d * d) * J) * w)) by (apply rnd_low; [lia|exact L3]).
    assert (BP : forall e, (-1022 <= e)%Z -> bpow radix2 (-1022) <= bpow radix2 e) by (intros e He; apply bpow_le; exact He).
    pose proof (bpow_gt_0 radix2 (-700)). pose proof (bpow_gt_0 radix2 (-800)). pose proof (bpow_gt_0 radix2 (-900)).
    split; [|split; [right; exact L3'|intro Z; lra]].
    pose proof (round_rel (d * d) D2 (or_intror (Rle_trans _ _ _ (BP (-700)%Z ltac:(lia)) L1))) as R1.
    pose proof (round_rel (rnd (d * d) * J) ltac:(lra) (or_intror (Rle_trans _ _ _ (BP (-800)%Z ltac:(lia)) L2))) as R2.
    pose proof (round_rel (rnd (rnd (d * d) * J) * w) ltac:(lra) (or_intror (Rle_trans _ _ _ (BP (-900)%Z ltac:(lia)) L3))) as R3.
    replace (J * w * (d * d)) with (d * d * J * w) by ring.
    assert (W1 : within 1 (rnd (d * d)) (d * d)) by (apply (within_round 0 (d * d)); [exact D2|apply within_exact|exact R1]).
    assert (DJ : 0 <= d * d * J) by (apply Rmult_le_pos; lra).
    assert (DJw : 0 <= d * d * J * w) by (apply Rmult_le_pos; lra).
    assert (W2 : within 2 (rnd (rnd (d * d) * J)) (d * d * J)).
    { apply (within_round 1 (rnd (d * d) * J)); [exact DJ| |exact R2]. apply (within_mul 1 0); [exact D2|lra|exact W1|apply within_exact]. }
    apply (within_round 2 (rnd (rnd (d * d) * J) * w)); [exact DJw| |exact R3]. apply (within_mul 2 0); [exact DJ|lra|exact W2|apply within_exact].
Qed.
Lemma exact_term_nonneg p : good p -> 0 <= exact_term p.
Proof.
  intros [H1 [H2 _]]. destruct (weight_val _ H1) as [_ P1], (weight_val _ H2) as [_ P2]. unfold exact_term.
  apply Rmult_le_pos; [apply Rmult_le_pos; lra|apply Rle_0_sqr].
Qed.

Section Field.
  Variable F : field.
  Hypothesis G : good_field F.
  Hypothesis NN : ~ has_nan F.
  Lemma in_good ps p : In ps F -> In p ps -> good p /\ fp_d p <> S754_nan.
  Proof.
    intros H1 H2. split; [|intro E; apply NN; exists ps, p; auto].
    unfold good_field in G. rewrite List.Forall_forall in G. specialize (G ps H1). rewrite List.Forall_forall in G. apply G, H2.
  Qed.
  Lemma cell_nonneg ps : In ps F -> nonneg (f_cell ps).
  Proof.
    intro H. apply sum_nonneg; [right; exists 0; apply fz_zero|]. intros p Hp. destruct (in_good ps p H Hp). apply term_nonneg; assumption.
  Qed.
  Hypothesis S : safe_field F.
  Variable P : nat.
  Hypothesis HP : Forall (fun ps => (List.length ps <= P)%nat) F.
  Lemma in_safe ps p : In ps F -> In p ps -> safe p.
  Proof.
    intros H1 H2. unfold safe_field in S. rewrite List.Forall_forall in S. specialize (S ps H1). rewrite List.Forall_forall in S. apply S, H2.
  Qed.
  Lemma fz_fr : fr (fz 0) = 0. Proof. reflexivity. Qed.
  Lemma within_zero k : within k (fr (fz 0)) 0.
  Proof. rewrite fz_fr. unfold within. rewrite !Rmult_0_l. lra. Qed.
  Lemma cell_error ps : In ps F -> f_cell ps <> pinf -> within (3 + P) (fr (f_cell ps)) (Rsum ps exact_term).
  Proof.
    intros H N. apply (within_mono (3 + List.length ps)).
    - apply Rsum_nonneg. intros p Hp. apply exact_term_nonneg, (in_good ps p H Hp).
    - rewrite List.Forall_forall in HP. specialize (HP ps H). lia.
    - rewrite <- (Rplus_0_l (Rsum ps exact_term)). apply (sum_error f_term exact_term 3); [right; exists 0; apply fz_zero| | | |lra|lia|intros _; apply within_zero|exact N].
      + intros p Hp. destruct (in_good ps p H Hp). apply term_nonneg; assumption.
      + intros p Hp. apply exact_term_nonneg, (in_good ps p H Hp).
      + intros p Hp I. destruct (in_good ps p H Hp). apply term_error; auto. apply (in_safe ps); assumption.
  Qed.
  Lemma l2sq_error : f_l2sq F <> pinf -> within (3 + P + List.length F) (fr (f_l2sq F)) (exact F).
  Proof.
    intro N. unfold exact. rewrite <- (Rplus_0_l (Rsum F _)).
    apply (sum_error f_cell (fun ps => Rsum ps exact_term) (3 + P)); [right; exists 0; apply fz_zero| | | |lra|lia|intros _; apply within_zero|exact N].
    - intros ps Hps. apply cell_nonneg, Hps.
    - intros ps Hps. apply Rsum_nonneg. intros p Hp. apply exact_term_nonneg, (in_good ps p Hps Hp).
    - intros ps Hps I. apply cell_error; assumption.
  Qed.
  Lemma exact_nonneg : 0 <= exact F.
  Proof. apply Rsum_nonneg. intros ps Hps. apply Rsum_nonneg. intros p Hp. apply exact_term_nonneg, (in_good ps p Hps Hp). Qed.
End Field.

(** ** square roots *)
Lemma fmt_low a : dfmt a -> 0 < a -> bpow radix2 (-1074) <= a.
Proof.
  intros F P. apply (FLT_format_generic radix2 (-1074) 53) in F. destruct F as [[m e] E H1 H2]. cbn [Fnum Fexp] in *. rewrite E in *.
  assert (0 < m)%Z. { apply lt_IZR. unfold F2R in P. cbn [Fnum Fexp] in P. pose proof (bpow_gt_0 radix2 e). apply Rmult_lt_reg_r with (bpow radix2 e); [assumption|]. rewrite Rmult_0_l. exact P. }
  unfold F2R. cbn [Fnum Fexp]. apply Rle_trans with (1 * bpow radix2 e); [rewrite Rmult_1_l; apply bpow_le; exact H2|].
  apply Rmult_le_compat_r; [apply bpow_ge_0|]. apply (IZR_le 1). lia.
Qed.
Lemma sqrt_pow_le x k : 0 <= x -> 1 <= x -> sqrt (x ^ k) <= x ^ k.
Proof.
  intros H0 H1. assert (P : 1 <= x ^ k) by (apply pow_R1_Rle; exact H1). rewrite <- (sqrt_square (x ^ k)) at 2 by lra.
  apply sqrt_le_1_alt. rewrite <- (Rmult_1_r (x ^ k)) at 1. apply Rmult_le_compat_l; lra.
Qed.
Lemma sqrt_pow_ge x k : 0 <= x <= 1 -> x ^ k <= sqrt (x ^ k).
Proof.
  intros [H0 H1]. assert (P : 0 <= x ^ k) by (apply pow_le; exact H0). pose proof (pow_incr x 1 k (conj H0 H1)) as Q. rewrite pow1 in Q.
  rewrite <- (sqrt_square (x ^ k)) at 1 by lra. apply sqrt_le_1_alt. rewrite <- (Rmult_1_r (x ^ k)) at 3. apply Rmult_le_compat_l; lra.
Qed.
Lemma sqrt_error x v k r : posd x v -> 0 <= r -> within k v r -> within (S k) (fr (np_sqrt x)) (sqrt r).
Proof.
  intros H Hr [W1 W2]. rewrite (posd_fr _ _ (sqrt_fin _ _ H)). pose proof u_pos. pose proof (posd_nonneg _ _ H) as V.
  apply (within_round k (sqrt v)); [apply sqrt_pos| |].
  - assert (0 <= (1 - u) ^ k) by (apply pow_le; lra). assert (0 <= (1 + u) ^ k) by (apply pow_le; lra). split.
    + apply Rle_trans with (sqrt (r * (1 - u) ^ k)); [|apply sqrt_le_1_alt; exact W1]. rewrite sqrt_mult by assumption.
      apply Rmult_le_compat_l; [apply sqrt_pos|apply sqrt_pow_ge; lra].
    + apply Rle_trans with (sqrt (r * (1 + u) ^ k)); [apply sqrt_le_1_alt; exact W2|]. rewrite sqrt_mult by assumption.
      apply Rmult_le_compat_l; [apply sqrt_pos|apply sqrt_pow_le; lra].
  - apply round_rel; [apply sqrt_pos|]. destruct (Rle_lt_or_eq_dec 0 v V) as [P|<-]; [|left; apply sqrt_0].
    right. pose proof (fmt_low v (posd_fmt _ _ H) P) as L. apply Rle_trans with (bpow radix2 (-537)); [apply bpow_le; lia|].
    rewrite <- (sqrt_square (bpow radix2 (-537))) by apply bpow_ge_0. apply sqrt_le_1_alt. rewrite <- bpow_plus. exact L.
Qed.
