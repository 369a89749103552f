(** Props_Float.v -- property C43 in double precision: which sample times of
    measured_errors are evaluated, for every final time and number of slabs. *)
From Coq Require Import ZArith Reals List Bool Lia Lra.
From Coq Require Import Floats.SpecFloat.
From Flocq Require Import Core IEEE754.BinarySingleNaN.
From Verif Require Import FloatModel FloatRound FloatSamples.
Import ListNotations.
Open Scope R_scope.

(** [value x r]: [x] is a binary64 number, neither infinite nor a NaN, and equal
    to the real [r] *)
Definition value (x : spec_float) (r : R) : Prop :=
  valid_binary 53 1024 x = true /\ is_finite_SF x = true /\ SF2R radix2 x = r.
Lemma value_dbl x r : value x r -> is_dbl x r.
Proof.
  intros [H1 [H2 H3]]. exists (SF2B x H1). split; [apply B2SF_SF2B|]. split; [rewrite is_finite_SF2B; exact H2|].
  rewrite B2R_SF2B. exact H3.
Qed.

(** The slabs evaluate all samples before the final time.  They evaluate the
    final time exactly when the end of the last slab, (N-1)*delta_t + delta_t in
    doubles, is not below it. *)
Theorem C43_doubles : forall T r N, value T r -> bpow radix2 (-900) <= r <= bpow radix2 1000 ->
  (1 <= N)%nat -> (Z.of_nat N <= 2 ^ 53)%Z ->
  let delta_t := fdiv T (fn N) in
  let last := fadd (fmul (fn (N - 1)) delta_t) delta_t in
  length (f_samples T) = 105%nat /\ nth 104 (f_samples T) (fn 0) = T /\
  (forall i, (i < 104)%nat -> exists n, (n < N)%nat /\ f_in_slab T N n (nth i (f_samples T) (fn 0)) = true) /\
  (fle T last = true -> exists n, (n < N)%nat /\ f_in_slab T N n T = true) /\
  (fle T last = false -> forall n, (n < N)%nat -> f_in_slab T N n T = false).
Proof.
  intros T r N HT [H1 H2] HN HN2 delta_t last. apply value_dbl in HT.
  assert (EV : forall y, f_evaluated T N y = true <-> exists n, (n < N)%nat /\ f_in_slab T N n y = true).
  { intro y. unfold f_evaluated. rewrite existsb_exists. split; intros [n [Hn H]]; exists n; (split; [|exact H]);
      [apply in_seq in Hn; lia|apply in_seq; lia]. }
  assert (HL : fle T last = true <-> r <= en r N (N - 1)).
  { apply fle_true; [exact HT|]. apply (en_ok T r N HT H1 H2 HN HN2). lia. }
  pose proof (evaluated_sample T r N HT H1 H2 HN HN2) as ES.
  split; [unfold f_samples; rewrite app_length, map_length, seq_length; reflexivity|].
  split; [reflexivity|].
  split; [intros i Hi; apply EV, ES; [lia|left; exact Hi]|].
  pose proof (ES 104%nat (le_n 104)) as E. change (nth 104 (f_samples T) (fn 0)) with T in E.
  split.
  - intro H. apply EV, E. right. apply HL, H.
  - intros H n Hn. destruct (f_in_slab T N n T) eqn:Q; [|reflexivity]. exfalso.
    assert (F : f_evaluated T N T = true) by (apply EV; exists n; split; assumption).
    destruct (proj1 E F) as [G|G]; [lia|]. apply HL in G. congruence.
Qed.

(** Every sample is evaluated when the slab length d = T/N is a double and so
    are its multiples up to T: d = m 2^e with N m <= 2^53. *)
Theorem C43_doubles_exact : forall T N m e, (1 <= N)%nat -> (0 < m)%Z -> (Z.of_nat N * m <= 2 ^ 53)%Z -> (-900 <= e <= 900)%Z ->
  value T (INR N * (IZR m * bpow radix2 e)) ->
  forall i, (i <= 104)%nat -> exists n, (n < N)%nat /\ f_in_slab T N n (nth i (f_samples T) (fn 0)) = true.
Proof.
  intros T N m e HN Hm Hb He HT i Hi.
  set (r := INR N * (IZR m * bpow radix2 e)) in *.
  assert (Hr : bpow radix2 (-900) <= r <= bpow radix2 1000).
  { unfold r. rewrite <- Rmult_assoc, INR_IZR_INZ, <- mult_IZR. pose proof (bpow_gt_0 radix2 e) as B. split.
    - apply Rle_trans with (1 * bpow radix2 e); [rewrite Rmult_1_l; apply bpow_le; lia|].
      apply Rmult_le_compat_r; [lra|]. apply IZR_le. nia.
    - apply Rle_trans with (bpow radix2 53 * bpow radix2 e); [|rewrite <- bpow_plus; apply bpow_le; lia].
      apply Rmult_le_compat_r; [lra|]. change (bpow radix2 53) with (IZR (2 ^ 53)). apply IZR_le, Hb. }
  assert (HN2 : (Z.of_nat N <= 2 ^ 53)%Z) by nia.
  destruct (C43_doubles T r N HT Hr HN HN2) as [_ [L [A [B _]]]].
  destruct (Nat.eq_dec i 104) as [->|Hne]; [|apply A; lia]. rewrite L. apply B.
  apply value_dbl in HT. apply (fle_true _ _ r (en r N (N - 1)) HT).
  - apply (en_ok T r N HT (proj1 Hr) (proj2 Hr) HN HN2). lia.
  - unfold r. rewrite exact_end by lia. lra.
Qed.
(** In particular for a final time 2^j and a number of slabs 2^k. *)
Theorem C43_doubles_powers : forall T j k, (0 <= k <= 53)%Z -> (-800 <= j <= 800)%Z -> value T (bpow radix2 j) ->
  forall i, (i <= 104)%nat ->
    exists n, (n < Z.to_nat (2 ^ k))%nat /\ f_in_slab T (Z.to_nat (2 ^ k)) n (nth i (f_samples T) (fn 0)) = true.
Proof.
  intros T j k Hk Hj HT.
  assert (P1 : (1 <= 2 ^ k)%Z) by (change 1%Z with (2 ^ 0)%Z; apply Z.pow_le_mono_r; lia).
  assert (P2 : (2 ^ k <= 2 ^ 53)%Z) by (apply Z.pow_le_mono_r; lia).
  apply (C43_doubles_exact T (Z.to_nat (2 ^ k)) 1 (j - k)); [lia|lia|rewrite Z2Nat.id by lia; lia|lia|].
  rewrite INR_IZR_INZ, Z2Nat.id by lia.
  replace (IZR (2 ^ k) * (1 * bpow radix2 (j - k))) with (bpow radix2 j); [exact HT|].
  rewrite Rmult_1_l. change 2%Z with (radix_val radix2). rewrite IZR_Zpower by lia. rewrite <- bpow_plus. f_equal. lia.
Qed.

Lemma pow_value e : SF2R radix2 (S754_finite false 4503599627370496 e) = bpow radix2 (52 + e).
Proof.
  rewrite bpow_plus. change (bpow radix2 52) with (IZR 4503599627370496). reflexivity.
Qed.
(** The final times 1, 2 and 1/2 of the project's drivers are such doubles; six
    slabs on [0,1] show that the last case of C43_doubles does occur. *)
Example C43_doubles_nonvacuous :
  value (fn 1) (bpow radix2 0) /\ value (fn 2) (bpow radix2 1) /\ value (fdiv (fn 1) (fn 2)) (bpow radix2 (-1)) /\
  bpow radix2 (-900) <= bpow radix2 0 <= bpow radix2 1000 /\
  (fle (fn 1) (fadd (fmul (fn 5) (fdiv (fn 1) (fn 6))) (fdiv (fn 1) (fn 6))) = false) /\
  (fle (fn 1) (fadd (fmul (fn 4) (fdiv (fn 1) (fn 5))) (fdiv (fn 1) (fn 5))) = true) /\
  f_missed (fn 1) 32 = [] /\ f_missed (fn 3) 3 = [].
Proof.
  split; [|split; [|split; [|split; [|split; [|split; [|split]]]]]].
  - split; [reflexivity|split; [reflexivity|]].
    change (fn 1) with (S754_finite false 4503599627370496 (-52)). apply pow_value.
  - split; [reflexivity|split; [reflexivity|]].
    change (fn 2) with (S754_finite false 4503599627370496 (-51)). apply pow_value.
  - split; [reflexivity|split; [reflexivity|]].
    change (fdiv (fn 1) (fn 2)) with (S754_finite false 4503599627370496 (-53)). apply pow_value.
  - split; apply bpow_le; lia.
  - vm_compute. reflexivity.
  - vm_compute. reflexivity.
  - apply (missed_exact (fn 1) 32 1 (-5)); [lia|lia|cbn; lia|lia| |].
    + replace (INR 32 * (IZR 1 * bpow radix2 (-5))) with (INR 1) by (rewrite !INR_IZR_INZ; cbn; lra). apply fn_ok. cbn. lia.
    + replace (INR 32 * (IZR 1 * bpow radix2 (-5))) with (bpow radix2 0) by (rewrite !INR_IZR_INZ; cbn; lra). split; apply bpow_le; lia.
  - apply (missed_exact (fn 3) 3 1 0); [lia|lia|cbn; lia|lia| |].
    + replace (INR 3 * (IZR 1 * bpow radix2 0)) with (INR 3) by (rewrite !INR_IZR_INZ; cbn; lra). apply fn_ok. cbn. lia.
    + replace (INR 3 * (IZR 1 * bpow radix2 0)) with 3 by (rewrite !INR_IZR_INZ; cbn; lra).
      split; [apply Rle_trans with (bpow radix2 0); [apply bpow_le; lia|cbn; lra]|].
      apply Rle_trans with (bpow radix2 2); [cbn; lra|apply bpow_le; lia].
Qed.
Print Assumptions C43_doubles.
Print Assumptions C43_doubles_exact.
Print Assumptions C43_doubles_powers.
