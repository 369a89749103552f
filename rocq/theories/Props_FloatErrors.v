(** Props_FloatErrors.v -- the reported errors in double precision (FloatErrors.v): when the
    measurement succeeds, when a nan is reported and when it is not, and how far the reported
    numbers are from the exact ones. *)
From Coq Require Import ZArith Reals List Bool Lia Lra.
From Coq Require Import Floats.SpecFloat.
From Flocq Require Import Core IEEE754.BinarySingleNaN.
From Verif Require Import Base FloatModel FloatRound FloatSamples FloatTime FloatLocal FloatErrors FloatErrorsProofs.
Import ListNotations.
Local Open Scope R_scope.

(** weights of the time quadrature and the slab length: of ordinary size *)
Definition plain (x : spec_float) : Prop := exists a, is_dbl x a /\ bpow radix2 (-50) <= a <= bpow radix2 50.
(** all weights are positive finite doubles, the differences are any doubles *)
Definition good_slab (s : fslab) : Prop :=
  Forall (fun '(om, F) => plain om /\ good_field F) (fs_quad s) /\ Forall (fun '(F, F') => good_field F /\ good_field F') (fs_samples s).
Definition good_run (dt : spec_float) (final : field) (slabs : list fslab) : Prop :=
  plain dt /\ good_field final /\ Forall good_slab slabs.

Definition qterm (dt : spec_float) (x : spec_float * field) : spec_float := let '(om, F) := x in fmul (fmul om dt) (f_l2sq F).
Definition f_total (dt : spec_float) (slabs : list fslab) : spec_float := fold_left (fun tot s => f_quad dt s tot) slabs (fz 0).
Lemma fold_ext {A B} (f g : A -> B -> A) l a : (forall a b, f a b = g a b) -> fold_left f l a = fold_left g l a.
Proof. intro H. revert a. induction l as [|b l IH]; intro a; cbn; [reflexivity|]. rewrite H. apply IH. Qed.
Lemma total_flat dt slabs : f_total dt slabs = fold_left (fun a x => fadd a (qterm dt x)) (flat_map fs_quad slabs) (fz 0).
Proof.
  unfold f_total. generalize (fz 0). induction slabs as [|s l IH]; intro a; cbn [fold_left flat_map]; [reflexivity|].
  rewrite fold_left_app, IH. f_equal. unfold f_quad. apply fold_ext. intros b [om F]. reflexivity.
Qed.

Section Run.
  Variables (dt : spec_float) (final : field) (slabs : list fslab).
  Hypothesis G : good_run dt final slabs.
  Let quads := flat_map fs_quad slabs.
  Let smp := flat_map fs_samples slabs.
  Let l1 := map (fun '(F, _) => np_sqrt (f_l2sq F)) smp.
  Let l2 := map (fun '(_, F) => np_sqrt (f_l2sq F)) smp.

  Lemma quads_good om F : In (om, F) quads -> plain om /\ good_field F.
  Proof.
    intro H. apply in_flat_map in H as [s [H1 H2]]. destruct G as [_ [_ G3]]. rewrite List.Forall_forall in G3. destruct (G3 s H1) as [G4 _].
    rewrite List.Forall_forall in G4. exact (G4 _ H2).
  Qed.
  Lemma smp_good F F' : In (F, F') smp -> good_field F /\ good_field F'.
  Proof.
    intro H. apply in_flat_map in H as [s [H1 H2]]. destruct G as [_ [_ G3]]. rewrite List.Forall_forall in G3. destruct (G3 s H1) as [_ G4].
    rewrite List.Forall_forall in G4. exact (G4 _ H2).
  Qed.
  Lemma omdt om : plain om -> posd (fmul om dt) (rnd (fr om * fr dt)) /\ bpow radix2 (-100) <= rnd (fr om * fr dt) /\ 0 < fr om /\ 0 < fr dt
    /\ within 1 (rnd (fr om * fr dt)) (fr om * fr dt).
  Proof.
    intros [a [A [A1 A2]]]. destruct G as [[b [B [B1 B2]]] _]. pose proof (bpow_gt_0 radix2 (-50)) as P.
    rewrite (dbl_fr _ _ A), (dbl_fr _ _ B).
    assert (L : bpow radix2 (-100) <= a * b) by (apply (bpow_mul_le _ _ (-50) (-50)); [exact A1|exact B1|lia]).
    assert (U : a * b <= bpow radix2 100) by (change 100%Z with (50 + 50)%Z; rewrite bpow_plus; apply Rmult_le_compat; lra).
    split; [|split; [apply rnd_low; [lia|exact L]|]].
    - apply posd_of; [|apply Rlt_le_trans with (1 := bpow_gt_0 radix2 (-100)), rnd_low; [lia|exact L]].
      apply fmul_ok; [exact A|exact B|]. rewrite Rabs_pos_eq by (apply rnd_nonneg, Rmult_le_pos; lra).
      apply Rle_lt_trans with (bpow radix2 100); [|apply bpow_top; lia]. rewrite <- (rnd_id (bpow radix2 100)) by (apply fmt_bpow; lia). apply rnd_le, U.
    - split; [lra|]. split; [lra|]. apply (within_round 0 (a * b)); [apply Rmult_le_pos; lra|apply within_exact|].
      apply round_rel; [apply Rmult_le_pos; lra|]. right. apply Rle_trans with (2 := L). apply bpow_le. lia.
  Qed.
  Lemma pos100 om : plain om -> 0 < rnd (fr om * fr dt).
  Proof. intro H. destruct (omdt om H) as [_ [L _]]. pose proof (bpow_gt_0 radix2 (-100)). lra. Qed.
  (** mul of a weight and a nonnegative number, in the order of the code *)
  Lemma mul_comm_nn x y b : nonneg y -> posd x b -> 0 < b -> nonneg (fmul x y).
  Proof.
    intros [->|[a Ha]] Hb B.
    - left. destruct Hb as [b' [<- [F [S E]]]]. destruct b' as [s|s| |s m e H]; try discriminate; cbn in *; [lra|]. subst s. reflexivity.
    - destruct (mul_fin _ _ _ _ Hb Ha) as [[_ H]|[_ H]]; [right; eexists; exact H|left; exact H].
  Qed.
  Lemma qterm_nonneg om F : In (om, F) quads -> ~ has_nan F -> nonneg (qterm dt (om, F)).
  Proof.
    intros H N. destruct (quads_good _ _ H) as [H1 H2]. apply (mul_comm_nn _ _ (rnd (fr om * fr dt))); [apply l2sq_nonneg; assumption|apply omdt, H1|apply pos100, H1].
  Qed.
  Lemma total_cases : (f_total dt slabs = S754_nan /\ exists om F, In (om, F) quads /\ has_nan F)
    \/ (nonneg (f_total dt slabs) /\ forall om F, In (om, F) quads -> ~ has_nan F).
  Proof.
    rewrite total_flat. change (flat_map fs_quad slabs) with quads.
    assert (D : (exists om F, In (om, F) quads /\ has_nan F) \/ forall om F, In (om, F) quads -> ~ has_nan F).
    { induction quads as [|[om F] l IH]; [right; intros ? ? []|]. destruct (has_nan_dec F) as [H|H]; [left; exists om, F; cbn; auto|].
      destruct IH as [[om' [F' [I1 I2]]]|IH]; [left; exists om', F'; cbn; auto|].
      right. intros om' F' [E|I]; [injection E as <- <-; exact H|apply (IH om' F' I)]. }
    destruct D as [[om [F [H1 H2]]]|D]; [left|right].
    - split; [|exists om, F; auto]. apply sum_nan. right. exists (om, F). split; [exact H1|]. unfold qterm. rewrite (l2sq_nan F H2). apply mul_nan_r.
    - split; [|exact D]. apply sum_nonneg; [right; exists 0; apply fz_zero|]. intros [om F] H. apply qterm_nonneg; [exact H|apply (D om), H].
  Qed.
  Lemma math_total : math_sqrt (f_total dt slabs) = Ok (np_sqrt (f_total dt slabs)).
  Proof. destruct total_cases as [[-> _]|[H _]]; [reflexivity|apply math_sqrt_ok, H]. Qed.
  Lemma l1_ok : Forall (nan_or nonneg) l1 /\ Forall (nan_or nonneg) l2.
  Proof.
    split; apply List.Forall_forall; intros x H; apply in_map_iff in H as [[F F'] [<- H]]; destruct (smp_good _ _ H) as [G1 G2].
    - destruct (has_nan_dec F) as [N|N]; [left; rewrite l2sq_nan by exact N; reflexivity|right; apply norm_nonneg; assumption].
    - destruct (has_nan_dec F') as [N|N]; [left; rewrite l2sq_nan by exact N; reflexivity|right; apply norm_nonneg; assumption].
  Qed.
  Lemma max_iff l a : Forall (nan_or nonneg) (a :: l) -> exists r, f_max (a :: l) = Ok r /\ nan_or nonneg r /\ (r = S754_nan <-> a = S754_nan)
    /\ (a <> S754_nan -> In r (a :: l) /\ forall x, In x (a :: l) -> x <> S754_nan -> fle x r = true).
  Proof.
    intro H. apply List.Forall_cons_iff in H as [Ha Hl]. eexists. split; [reflexivity|]. destruct Ha as [->|Ha].
    - rewrite max_fold_nan. split; [left; reflexivity|]. split; [tauto|congruence].
    - destruct (max_fold l a Ha Hl) as [M1 [M2 M3]]. split; [right; exact M1|]. split; [|auto].
      split; intro E; exfalso; [exact (nonneg_not_nan _ M1 E)|exact (nonneg_not_nan _ Ha E)].
  Qed.
End Run.

(** ** the integrals *)
Theorem C90_integral : forall F : field, good_field F ->
  (f_l2sq F = S754_nan <-> has_nan F) /\
  (~ has_nan F -> nonneg (f_l2sq F) /\ nonneg (np_sqrt (f_l2sq F)) /\ math_sqrt (f_l2sq F) = Ok (np_sqrt (f_l2sq F))).
Proof.
  intros F G. split; [apply l2sq_nan_iff, G|]. intro N. split; [apply l2sq_nonneg; assumption|].
  split; [apply norm_nonneg; assumption|apply math_sqrt_ok, l2sq_nonneg; assumption].
Qed.

(** ** what is reported *)
(** measured_errors fails only if there is no sample time, with the ValueError of max *)
Theorem C90_succeeds : forall dt final slabs, good_run dt final slabs ->
  (f_measured dt final slabs = Err ValueError /\ flat_map fs_samples slabs = []) \/
  (flat_map fs_samples slabs <> [] /\ exists e, f_measured dt final slabs = Ok e).
Proof.
  intros dt final slabs G. unfold f_measured. fold (f_total dt slabs). rewrite (math_total dt final slabs G).
  destruct (flat_map fs_samples slabs) as [|[F F'] l]; [left; split; reflexivity|right]. split; [discriminate|]. eexists. reflexivity.
Qed.
(** A nan in the data reaches the report at the final time and in the L2-L2 error.  Of the
    sample times only the first decides whether the maxima are nan. *)
Theorem C90_nan : forall dt final slabs e F0 F0' rest, good_run dt final slabs -> flat_map fs_samples slabs = (F0, F0') :: rest ->
  f_measured dt final slabs = Ok e ->
  (fe_T e = S754_nan <-> has_nan final) /\
  (fe_l2 e = S754_nan <-> exists om F, In (om, F) (flat_map fs_quad slabs) /\ has_nan F) /\
  (fe_inf e = S754_nan <-> has_nan F0) /\ (fe_dinf e = S754_nan <-> has_nan F0').
Proof.
  intros dt final slabs e F0 F0' rest G E H. unfold f_measured in H. fold (f_total dt slabs) in H. rewrite (math_total dt final slabs G) in H.
  destruct (l1_ok dt final slabs G) as [L1 L2]. destruct (smp_good dt final slabs G F0 F0') as [G1 G2]; [rewrite E; left; reflexivity|].
  rewrite E in H, L1, L2. cbn [map] in H, L1, L2.
  destruct (max_iff _ _ L1) as [r1 [M1 [_ [N1 _]]]]. destruct (max_iff _ _ L2) as [r2 [M2 [_ [N2 _]]]].
  rewrite M1, M2 in H. cbn [rbind] in H. injection H as <-. cbn [fe_T fe_inf fe_dinf fe_l2].
  destruct (proj2 G) as [GF _]. split; [apply norm_nan_iff, GF|]. split; [|rewrite N1, N2; split; apply norm_nan_iff; assumption].
  destruct (total_cases dt final slabs G) as [[T Q]|[T Q]].
  - rewrite T. split; [intros _; exact Q|reflexivity].
  - split; intro X; exfalso; [exact (nonneg_not_nan _ (sqrt_nonneg _ T) X)|]. destruct X as [om [F [I1 I2]]]. exact (Q om F I1 I2).
Qed.
(** everything reported is nan or not negative *)
Theorem C90_nonnegative : forall dt final slabs e, good_run dt final slabs -> f_measured dt final slabs = Ok e ->
  nan_or nonneg (fe_T e) /\ nan_or nonneg (fe_inf e) /\ nan_or nonneg (fe_dinf e) /\ nan_or nonneg (fe_l2 e).
Proof.
  intros dt final slabs e G H. unfold f_measured in H. fold (f_total dt slabs) in H. rewrite (math_total dt final slabs G) in H.
  destruct (l1_ok dt final slabs G) as [L1 L2]. destruct (flat_map fs_samples slabs) as [|[F0 F0'] rest]; [discriminate|]. cbn [map] in H, L1, L2.
  destruct (max_iff _ _ L1) as [r1 [M1 [K1 _]]]. destruct (max_iff _ _ L2) as [r2 [M2 [K2 _]]].
  rewrite M1, M2 in H. cbn [rbind] in H. injection H as <-. cbn [fe_T fe_inf fe_dinf fe_l2].
  destruct (proj2 G) as [GF _]. split; [|split; [exact K1|split; [exact K2|]]].
  - destruct (has_nan_dec final) as [N|N]; [left; rewrite l2sq_nan by exact N; reflexivity|right; apply norm_nonneg; assumption].
  - destruct (total_cases dt final slabs G) as [[T _]|[T _]]; [left; rewrite T; reflexivity|right; apply sqrt_nonneg, T].
Qed.
(** without nan at the first sample: the largest of the numbers, ignoring later nans *)
Theorem C90_maximum : forall dt final slabs e F0 F0' rest, good_run dt final slabs -> flat_map fs_samples slabs = (F0, F0') :: rest ->
  f_measured dt final slabs = Ok e ->
  (~ has_nan F0 -> (exists F F', In (F, F') (flat_map fs_samples slabs) /\ ~ has_nan F /\ fe_inf e = np_sqrt (f_l2sq F)) /\
    forall F F', In (F, F') (flat_map fs_samples slabs) -> ~ has_nan F -> fle (np_sqrt (f_l2sq F)) (fe_inf e) = true) /\
  (~ has_nan F0' -> (exists F F', In (F, F') (flat_map fs_samples slabs) /\ ~ has_nan F' /\ fe_dinf e = np_sqrt (f_l2sq F')) /\
    forall F F', In (F, F') (flat_map fs_samples slabs) -> ~ has_nan F' -> fle (np_sqrt (f_l2sq F')) (fe_dinf e) = true).
Proof.
  intros dt final slabs e F0 F0' rest G E H. unfold f_measured in H. fold (f_total dt slabs) in H. rewrite (math_total dt final slabs G) in H.
  destruct (l1_ok dt final slabs G) as [L1 L2]. destruct (smp_good dt final slabs G F0 F0') as [G1 G2]; [rewrite E; left; reflexivity|].
  assert (SG := smp_good dt final slabs G). rewrite E in *. cbn [map] in H, L1, L2.
  destruct (max_iff _ _ L1) as [r1 [M1 [_ [N1 K1]]]]. destruct (max_iff _ _ L2) as [r2 [M2 [_ [N2 K2]]]].
  rewrite M1, M2 in H. cbn [rbind] in H. injection H as <-. cbn [fe_T fe_inf fe_dinf fe_l2].
  split; intro N.
  - assert (N' : np_sqrt (f_l2sq F0) <> S754_nan) by (intro X; apply N, norm_nan_iff; assumption). destruct (K1 N') as [I1 I2].
    assert (R : r1 <> S754_nan) by (intro X; apply N', N1, X). split.
    + change (In r1 (map (fun '(F, _) => np_sqrt (f_l2sq F)) ((F0, F0') :: rest))) in I1. apply in_map_iff in I1 as [[F F'] [J1 J2]].
      exists F, F'. split; [exact J2|]. split; [|symmetry; exact J1]. intro X. apply R. rewrite <- J1, (l2sq_nan F X). reflexivity.
    + intros F F' HI HN. apply I2; [change (In (np_sqrt (f_l2sq F)) (map (fun '(F, _) => np_sqrt (f_l2sq F)) ((F0, F0') :: rest))); apply in_map_iff; exists (F, F'); auto|].
      intro X. apply HN, norm_nan_iff; [apply (SG F F' HI)|exact X].
  - assert (N' : np_sqrt (f_l2sq F0') <> S754_nan) by (intro X; apply N, norm_nan_iff; assumption). destruct (K2 N') as [I1 I2].
    assert (R : r2 <> S754_nan) by (intro X; apply N', N2, X). split.
    + change (In r2 (map (fun '(_, F) => np_sqrt (f_l2sq F)) ((F0, F0') :: rest))) in I1. apply in_map_iff in I1 as [[F F'] [J1 J2]].
      exists F, F'. split; [exact J2|]. split; [|symmetry; exact J1]. intro X. apply R. rewrite <- J1, (l2sq_nan F' X). reflexivity.
    + intros F F' HI HN. apply I2; [change (In (np_sqrt (f_l2sq F')) (map (fun '(_, F) => np_sqrt (f_l2sq F)) ((F0, F0') :: rest))); apply in_map_iff; exists (F, F'); auto|].
      intro X. apply HN, norm_nan_iff; [apply (SG F F' HI)|exact X].
Qed.

(** ** how accurate the reported numbers are *)
(** cells with at most [P] points, [C] cells: [4 + P + C] roundings, whatever cancels *)
Theorem C90_norm_accuracy : forall F P, good_field F -> ~ has_nan F -> safe_field F -> Forall (fun ps => (List.length ps <= P)%nat) F ->
  np_sqrt (f_l2sq F) <> pinf ->
  sqrt (exact F) * (1 - / 9007199254740992) ^ (4 + P + List.length F) <= fr (np_sqrt (f_l2sq F))
    <= sqrt (exact F) * (1 + / 9007199254740992) ^ (4 + P + List.length F).
Proof.
  intros F P G N SF HP I. change (within (S (3 + P + List.length F)) (fr (np_sqrt (f_l2sq F))) (sqrt (exact F))).
  assert (I' := sqrt_finite_inv _ (l2sq_nonneg F G N) I). destruct (l2sq_nonneg F G N) as [E|[v V]]; [contradiction|].
  apply (sqrt_error _ v); [exact V|exact (exact_nonneg F G N)|]. rewrite <- (posd_fr _ _ V). apply l2sq_error; assumption.
Qed.
(** the reported error at the final time *)
Theorem C90_final_accuracy : forall dt final slabs e P, f_measured dt final slabs = Ok e ->
  good_field final -> ~ has_nan final -> safe_field final -> Forall (fun ps => (List.length ps <= P)%nat) final -> fe_T e <> pinf ->
  sqrt (exact final) * (1 - / 9007199254740992) ^ (4 + P + List.length final) <= fr (fe_T e)
    <= sqrt (exact final) * (1 + / 9007199254740992) ^ (4 + P + List.length final).
Proof.
  intros dt final slabs e P H G N SF HP I. assert (E : fe_T e = np_sqrt (f_l2sq final)).
  { unfold f_measured in H. destruct (f_max _); [|discriminate]. cbn [rbind] in H. destruct (f_max _); [|discriminate]. cbn [rbind] in H.
    destruct (math_sqrt _); [|discriminate]. injection H as <-. reflexivity. }
  rewrite E in *. apply C90_norm_accuracy; assumption.
Qed.
Lemma sum_low {A} (f : A -> spec_float) e l a : (-1074 <= e)%Z -> nonneg a -> (forall x, In x l -> nonneg (f x)) ->
  (forall x, In x l -> f x <> pinf -> fr (f x) = 0 \/ bpow radix2 e <= fr (f x)) -> (a <> pinf -> fr a = 0 \/ bpow radix2 e <= fr a) ->
  fold_left (fun a x => fadd a (f x)) l a <> pinf ->
  fr (fold_left (fun a x => fadd a (f x)) l a) = 0 \/ bpow radix2 e <= fr (fold_left (fun a x => fadd a (f x)) l a).
Proof.
  intro He. revert a. induction l as [|x l IH]; intros a Ha Hf Hl H0 N; cbn [fold_left] in *; [apply H0, N|].
  assert (Hx := Hf x (or_introl eq_refl)).
  apply IH; [apply add_nonneg; assumption|intros y Hy; apply Hf; right; exact Hy|intros y Hy; apply Hl; right; exact Hy| |exact N].
  intro N2. destruct (add_finite_inv _ _ Ha Hx N2) as [p [q [P1 [P2 P3]]]]. rewrite (posd_fr _ _ P3).
  pose proof (H0 (posd_not_inf _ _ P1)) as Q1. pose proof (Hl x (or_introl eq_refl) (posd_not_inf _ _ P2)) as Q2.
  rewrite (posd_fr _ _ P1) in Q1. rewrite (posd_fr _ _ P2) in Q2. pose proof (posd_nonneg _ _ P1). pose proof (posd_nonneg _ _ P2).
  destruct Q1 as [->|Q1]; [destruct Q2 as [->|Q2]|].
  - left. rewrite Rplus_0_l. apply rnd_0.
  - right. apply rnd_low; [exact He|lra].
  - right. apply rnd_low; [exact He|lra].
Qed.
Lemma l2sq_low F : good_field F -> ~ has_nan F -> safe_field F -> f_l2sq F <> pinf -> fr (f_l2sq F) = 0 \/ bpow radix2 (-900) <= fr (f_l2sq F).
Proof.
  intros G N SF I. apply sum_low; [lia|right; exists 0; apply fz_zero|intros ps H; apply (cell_nonneg F G N ps H)| |left; reflexivity|exact I].
  intros ps H I2. apply sum_low; [lia|right; exists 0; apply fz_zero| | |left; reflexivity|exact I2].
  - intros p Hp. destruct (in_good F G N ps p H Hp). apply term_nonneg; assumption.
  - intros p Hp I3. destruct (in_good F G N ps p H Hp). apply term_error; auto. apply (in_safe F SF ps); assumption.
Qed.
(** the exact squared L2-L2 error *)
Definition exact_total (dt : spec_float) (slabs : list fslab) : R :=
  Rsum (flat_map fs_quad slabs) (fun '(om, F) => fr om * fr dt * exact F).
(** [K] quadrature times, cells with at most [P] points, at most [C] cells *)
Theorem C90_l2_accuracy : forall dt final slabs e P C, good_run dt final slabs ->
  (forall om F, In (om, F) (flat_map fs_quad slabs) ->
     ~ has_nan F /\ safe_field F /\ Forall (fun ps => (List.length ps <= P)%nat) F /\ (List.length F <= C)%nat) ->
  f_measured dt final slabs = Ok e -> fe_l2 e <> pinf ->
  let k := (6 + P + C + List.length (flat_map fs_quad slabs))%nat in
  sqrt (exact_total dt slabs) * (1 - / 9007199254740992) ^ k <= fr (fe_l2 e) <= sqrt (exact_total dt slabs) * (1 + / 9007199254740992) ^ k.
Proof.
  intros dt final slabs e P C G Q H I k. assert (E : fe_l2 e = np_sqrt (f_total dt slabs)).
  { unfold f_measured in H. fold (f_total dt slabs) in H. rewrite (math_total dt final slabs G) in H.
    destruct (f_max _); [|discriminate]. cbn [rbind] in H. destruct (f_max _); [|discriminate]. cbn [rbind] in H. injection H as <-. reflexivity. }
  rewrite E in *. change (within k (fr (np_sqrt (f_total dt slabs))) (sqrt (exact_total dt slabs))).
  assert (T : nonneg (f_total dt slabs)).
  { destruct (total_cases dt final slabs G) as [[_ [om [F [I1 I2]]]]|[T _]]; [exfalso; apply (Q om F I1), I2|exact T]. }
  assert (I' := sqrt_finite_inv _ T I). destruct T as [X|[v V]]; [contradiction|].
  assert (T0 : 0 <= exact_total dt slabs).
  { apply Rsum_nonneg. intros [om F] HI. destruct (quads_good dt final slabs G om F HI) as [G1 G2]. destruct (omdt dt final slabs G om G1) as [_ [_ [P1 [P2 _]]]].
    apply Rmult_le_pos; [apply Rmult_le_pos; lra|]. apply exact_nonneg; [exact G2|apply (Q om F HI)]. }
  replace k with (S (5 + P + C + List.length (flat_map fs_quad slabs)))%nat by (unfold k; lia).
  apply (sqrt_error _ v); [exact V|exact T0|]. rewrite <- (posd_fr _ _ V). rewrite total_flat in *. unfold exact_total. rewrite <- (Rplus_0_l (Rsum _ _)).
  apply (sum_error (qterm dt) (fun '(om, F) => fr om * fr dt * exact F) (5 + P + C)); [right; exists 0; apply fz_zero| | | |lra|lia|intros _; apply within_zero|exact I'].
  - intros [om F] HI. apply (qterm_nonneg dt final slabs G); [exact HI|apply (Q om F HI)].
  - intros [om F] HI. destruct (quads_good dt final slabs G om F HI) as [G1 G2]. destruct (omdt dt final slabs G om G1) as [_ [_ [P1 [P2 _]]]].
    apply Rmult_le_pos; [apply Rmult_le_pos; lra|]. apply exact_nonneg; [exact G2|apply (Q om F HI)].
  - intros [om F] HI J. destruct (quads_good dt final slabs G om F HI) as [G1 G2]. destruct (omdt dt final slabs G om G1) as [O1 [O2 [P1 [P2 W]]]].
    destruct (Q om F HI) as [N [SF [HP HC]]]. unfold qterm in *. pose proof (bpow_gt_0 radix2 (-100)) as B100.
    destruct (l2sq_nonneg F G2 N) as [X|[x X]].
    + exfalso. apply J. rewrite X. clear - O1 O2 B100. destruct O1 as [b' [<- [Fb [Sb Eb]]]]. destruct b' as [s|s| |s m e H]; try discriminate; cbn in *; [lra|]. subst s. reflexivity.
    + destruct (mul_fin _ _ _ _ O1 X) as [[_ Y]|[_ Y]]; [|contradiction]. rewrite (posd_fr _ _ Y).
      assert (XI := posd_not_inf _ _ X). assert (X0 := posd_nonneg _ _ X).
      pose proof (l2sq_error F G2 N SF P HP XI) as WX. rewrite (posd_fr _ _ X) in WX.
      pose proof (l2sq_low F G2 N SF XI) as LX. rewrite (posd_fr _ _ X) in LX.
      assert (EN := exact_nonneg F G2 N). assert (OD : 0 <= fr om * fr dt) by (apply Rmult_le_pos; lra).
      apply (within_round (4 + P + C) (rnd (fr om * fr dt) * x)); [apply Rmult_le_pos; assumption| |].
      * apply (within_mono (1 + (3 + P + List.length F))); [apply Rmult_le_pos; assumption|lia|]. apply within_mul; assumption.
      * apply round_rel; [apply Rmult_le_pos; lra|]. destruct LX as [->|LX]; [left; ring|right]. apply (bpow_mul_le _ _ (-100) (-900)); [exact O2|exact LX|lia].
Qed.
(** a reported zero: all differences are zero, if they are not tiny *)
Theorem C90_zero : forall F, good_field F -> ~ has_nan F -> safe_field F -> np_sqrt (f_l2sq F) = fz 0 ->
  forall ps p, In ps F -> In p ps -> fr (fp_d p) = 0.
Proof.
  intros F G N SF E ps p H1 H2.
  assert (HP : Forall (fun ps => (List.length ps <= fold_right (fun ps n => Nat.max (List.length ps) n) 0 F)%nat) F).
  { clear. induction F as [|a F IH]; constructor; cbn [fold_right]; [lia|]. apply List.Forall_impl with (2 := IH). intros b Hb. lia. }
  destruct (C90_norm_accuracy F _ G N SF HP) as [L _]; [rewrite E; discriminate|]. rewrite E, fz_fr in L.
  assert (Z : sqrt (exact F) = 0).
  { apply Rle_antisym; [|apply sqrt_pos]. apply Rmult_le_reg_r with ((1 - / 9007199254740992) ^ (4 + fold_right (fun ps n => Nat.max (List.length ps) n) 0%nat F + List.length F)); [apply pow_lt; lra|].
    rewrite Rmult_0_l. exact L. }
  apply sqrt_eq_0 in Z; [|exact (exact_nonneg F G N)]. unfold exact in Z.
  assert (ZP : Rsum ps exact_term = 0).
  { apply (Rsum_nonneg_zero F (fun ps => Rsum ps exact_term)); [|exact Z|exact H1]. intros qs Hq. apply Rsum_nonneg. intros q Hq2. apply exact_term_nonneg, (in_good F G N qs q Hq Hq2). }
  assert (ZT : exact_term p = 0).
  { apply (Rsum_nonneg_zero ps exact_term); [|exact ZP|exact H2]. intros q Hq. apply exact_term_nonneg, (in_good F G N ps q H1 Hq). }
  destruct (in_good F G N ps p H1 H2) as [[W1 [W2 _]] _]. destruct (weight_val _ W1) as [_ P1], (weight_val _ W2) as [_ P2].
  unfold exact_term in ZT. apply Rmult_integral in ZT as [ZT|ZT]; [apply Rmult_integral in ZT; lra|]. apply Rmult_integral in ZT. tauto.
Qed.

(** ** concrete runs *)
Definition one : spec_float := fz 1.
Definition pt (d : spec_float) : fpoint := mkFP one one d.
(** 2^-600 *)
Definition tiny : spec_float := S754_finite false 4503599627370496 (-652).
Lemma one_ok : is_dbl one 1. Proof. apply (fz_ok 1). lia. Qed.
Lemma one_weight : weight one. Proof. exists 1. split; [apply one_ok|lra]. Qed.
Lemma one_plain : plain one.
Proof.
  exists 1. split; [apply one_ok|]. change 1 with (bpow radix2 0). split; apply bpow_le; lia.
Qed.
Lemma pt_good d : double d -> good (pt d).
Proof. intro H. split; [apply one_weight|split; [apply one_weight|exact H]]. Qed.
Lemma field_good ds : Forall double ds -> good_field [map pt ds].
Proof. intro H. constructor; [|constructor]. apply List.Forall_map, (List.Forall_impl _ pt_good H). Qed.
Ltac field_tac := apply (field_good [_]) || apply (field_good [_; _]); repeat constructor.

(** a nan at the second sample time: the reported maxima are 1 and 1, all reported numbers are finite *)
Theorem C90_nan_hidden_refuted : exists dt final slabs e F F',
  good_run dt final slabs /\ In (F, F') (flat_map fs_samples slabs) /\ has_nan F /\ has_nan F' /\
  f_measured dt final slabs = Ok e /\ e = mkFErr one one one one.
Proof.
  exists one, [[pt one]], [mkFSlab [(one, [[pt one]])] [([[pt one]], [[pt one]]); ([[pt S754_nan]], [[pt S754_nan]])]], (mkFErr one one one one), [[pt S754_nan]], [[pt S754_nan]].
  split; [|split; [cbn; auto|split; [|split; [|split; [vm_compute; reflexivity|reflexivity]]]]].
  - split; [apply one_plain|]. split; [field_tac|]. constructor; [|constructor]. split; cbn [fs_quad fs_samples].
    + constructor; [split; [apply one_plain|field_tac]|constructor].
    + constructor; [split; field_tac|]. constructor; [split; field_tac|constructor].
  - exists [pt S754_nan], (pt S754_nan). cbn. auto.
  - exists [pt S754_nan], (pt S754_nan). cbn. auto.
Qed.
(** the order of the samples matters: the same data in the other order report nan *)
Theorem C90_order_refuted : exists dt final A B,
  f_measured dt final [mkFSlab [] [A; B]] = Ok (mkFErr one one one (fz 0)) /\
  f_measured dt final [mkFSlab [] [B; A]] = Ok (mkFErr one S754_nan S754_nan (fz 0)).
Proof.
  exists one, [[pt one]], ([[pt one]], [[pt one]]), ([[pt S754_nan]], [[pt S754_nan]]). split; vm_compute; reflexivity.
Qed.
(** differences of 2^-600 are reported as an error of zero *)
Theorem C90_zero_refuted : exists F ps p, good_field F /\ ~ has_nan F /\ In ps F /\ In p ps /\ 0 < fr (fp_d p) /\ np_sqrt (f_l2sq F) = fz 0.
Proof.
  exists [[pt tiny]], [pt tiny], (pt tiny). split; [field_tac|]. split; [|split; [cbn; auto|split; [cbn; auto|split]]].
  - intros [ps [p [[<-|[]] [[<-|[]] H]]]]. discriminate H.
  - cbn [fp_d pt tiny SF2R]. apply F2R_gt_0. reflexivity.
  - vm_compute. reflexivity.
Qed.
(** hypotheses of the accuracy theorems can be met: differences 1 and -3, error sqrt 10 *)
Definition F13 : field := [[pt one; pt (fz (-3))]].
Theorem C90_nonvacuous : good_field F13 /\ ~ has_nan F13 /\ safe_field F13 /\ Forall (fun ps => (List.length ps <= 2)%nat) F13 /\
  np_sqrt (f_l2sq F13) <> pinf /\ exact F13 = 10 /\
  exists e, good_run one F13 [mkFSlab [(one, F13)] [(F13, F13)]] /\ f_measured one F13 [mkFSlab [(one, F13)] [(F13, F13)]] = Ok e /\ fe_l2 e <> pinf.
Proof.
  assert (G : good_field F13) by field_tac.
  assert (E1 : fr one = 1) by (apply dbl_fr, one_ok). assert (E3 : fr (fz (-3)) = -3) by (apply dbl_fr, (fz_ok (-3)); lia).
  split; [exact G|]. split; [|split; [|split; [|split; [|split]]]].
  - intros [ps [p [[<-|[]] [[<-|[<-|[]]] H]]]]; discriminate H.
  - constructor; [|constructor]. assert (B : bpow radix2 (-100) <= 1) by (change 1 with (bpow radix2 0); apply bpow_le; lia).
    assert (B' : bpow radix2 (-350) <= 1) by (change 1 with (bpow radix2 0); apply bpow_le; lia).
    constructor; [|constructor; [|constructor]]; (split; [|split]); cbn [fp_det fp_w fp_d pt]; rewrite ?E1, ?E3; try exact B; right; [rewrite Rabs_R1; exact B'|rewrite Rabs_left by lra; lra].
  - constructor; [cbn; lia|constructor].
  - vm_compute. discriminate.
  - unfold exact, F13. rewrite !Rsum_cons, !Rsum_nil. unfold exact_term. cbn [fp_det fp_w fp_d pt]. rewrite E1, E3. ring.
  - eexists. split; [|split; [vm_compute; reflexivity|vm_compute; discriminate]].
    split; [apply one_plain|]. split; [exact G|]. constructor; [|constructor]. split; cbn [fs_quad fs_samples].
    + constructor; [split; [apply one_plain|exact G]|constructor].
    + constructor; [split; exact G|constructor].
Qed.

Print Assumptions C90_integral.
Print Assumptions C90_succeeds.
Print Assumptions C90_nan.
Print Assumptions C90_nonnegative.
Print Assumptions C90_maximum.
Print Assumptions C90_norm_accuracy.
Print Assumptions C90_final_accuracy.
Print Assumptions C90_l2_accuracy.
Print Assumptions C90_zero.
Print Assumptions C90_nan_hidden_refuted.
Print Assumptions C90_order_refuted.
Print Assumptions C90_zero_refuted.
Print Assumptions C90_nonvacuous.
