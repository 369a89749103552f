(** FloatSamples.v -- which of the 105 sample times the slabs of measured_errors
    cover in double precision, for every final time and number of slabs
    (space_time.py:117, 224, 1480, 1521-1522). *)
From Coq Require Import ZArith Reals List Bool Lia Lra Psatz.
From Coq Require Import Floats.SpecFloat.
From Flocq Require Import Core IEEE754.BinarySingleNaN Relative.
From Verif Require Import FloatModel FloatRound.
Import ListNotations.
Local Open Scope R_scope.

(** no double lies strictly between the end of a slab and the start of the next *)
Lemma no_between a dt f : 0 <= a -> 0 < dt -> dfmt f ->
  let e := rnd (rnd a + dt) in let b := rnd (a + dt) in f <= e \/ b <= f.
Proof.
  intros Ha Hdt Hf e b. destruct (Rle_lt_dec f e) as [H1|H1]; [left; exact H1|].
  destruct (Rle_lt_dec b f) as [H2|H2]; [right; exact H2|]. exfalso.
  set (x := rnd a + dt) in *. set (y := a + dt) in *.
  assert (Hx : x < f).
  { destruct (Rlt_le_dec x f) as [H|H]; [exact H|]. apply rnd_le in H. fold e in H. rewrite (rnd_id f Hf) in H. lra. }
  assert (Hy : f < y).
  { destruct (Rlt_le_dec f y) as [H|H]; [exact H|]. apply rnd_le in H. fold b in H. rewrite (rnd_id f Hf) in H. lra. }
  assert (Hra : rnd a < f) by (unfold x in Hx; lra).
  assert (Haf : a < f).
  { destruct (Rlt_le_dec a f) as [H|H]; [exact H|]. apply rnd_le in H. rewrite (rnd_id f Hf) in H. lra. }
  (* nearest *)
  assert (Nx : Rabs (e - x) <= Rabs (f - x)).
  { destruct (round_N_pt radix2 dexp (fun z => negb (Z.even z)) x) as [_ N]. exact (N f Hf). }
  assert (Ny : Rabs (b - y) <= Rabs (f - y)).
  { destruct (round_N_pt radix2 dexp (fun z => negb (Z.even z)) y) as [_ N]. exact (N f Hf). }
  rewrite (Rabs_pos_eq (f - x)) in Nx by lra. rewrite (Rabs_left (f - y)) in Ny by lra.
  apply Rabs_le_inv in Nx. apply Rabs_le_inv in Ny.
  (* distances *)
  assert (E0 : 0 <= e). { apply rnd_nonneg. unfold x. pose proof (rnd_nonneg a Ha). lra. }
  assert (Ue : 0 < ulp radix2 dexp e).
  { apply Rlt_le_trans with (bpow radix2 (-1074)); [apply bpow_gt_0|].
    apply ulp_ge_FLT_min || idtac.
    rewrite <- (ulp_FLT_0 radix2 (-1074) 53). apply ulp_le; auto with typeclass_instances. rewrite Rabs_R0. apply Rabs_pos. }
  assert (Sf : e + ulp radix2 dexp e <= f).
  { rewrite <- succ_eq_pos by exact E0. apply succ_le_lt; auto with typeclass_instances. apply rnd_fmt. }
  assert (Sb : f + ulp radix2 dexp f <= b).
  { rewrite <- succ_eq_pos by lra. apply succ_le_lt; auto with typeclass_instances. apply rnd_fmt. }
  assert (Ea : Rabs (rnd a - a) <= / 2 * ulp radix2 dexp a) by (apply error_le_half_ulp; auto with typeclass_instances).
  assert (Ua : ulp radix2 dexp a <= ulp radix2 dexp f).
  { apply ulp_le; auto with typeclass_instances. rewrite !Rabs_pos_eq; lra. }
  apply Rabs_le_inv in Ea. unfold x, y in *. lra.
Qed.

Section Run.
Variables (x : spec_float) (t : R) (N : nat).
Hypothesis Hx : is_dbl x t.
Hypothesis Hlo : bpow radix2 (-900) <= t.
Hypothesis Hhi : t <= bpow radix2 1000.
Hypothesis HN : (1 <= N)%nat.
Hypothesis HN2 : (Z.of_nat N <= 2 ^ 53)%Z.

Definition dt : R := rnd (t / INR N).
Definition tn (n : nat) : R := rnd (INR n * dt).
Definition en (n : nat) : R := rnd (tn n + dt).
Definition step : R := rnd (t / INR 104).
Definition sm (i : nat) : R := if (i =? 104)%nat then t else rnd (INR i * step).

Lemma t_pos : 0 < t. Proof. pose proof (bpow_gt_0 radix2 (-900)). lra. Qed.
Lemma N_pos : 1 <= INR N. Proof. change 1 with (INR 1). apply le_INR, HN. Qed.
Lemma N_le : INR N <= bpow radix2 53.
Proof. rewrite INR_IZR_INZ. change (bpow radix2 53) with (IZR (2 ^ 53)). apply IZR_le, HN2. Qed.
Lemma quot_lo k : 1 <= k -> k <= bpow radix2 53 -> bpow radix2 (-1022) <= t / k.
Proof.
  intros H1 H2. apply Rle_trans with (bpow radix2 (-900) / bpow radix2 53).
  - unfold Rdiv. rewrite <- bpow_opp, <- bpow_plus. apply bpow_le. lia.
  - unfold Rdiv. apply Rmult_le_compat; [apply bpow_ge_0|left; apply Rinv_0_lt_compat, bpow_gt_0|exact Hlo|].
    apply Rinv_le_contravar; lra.
Qed.
Lemma eps_small : 0 < eps0 <= / 1000000.
Proof.
  unfold eps0. split; [apply bpow_gt_0|]. apply Rle_trans with (bpow radix2 (-20)); [apply bpow_le; lia|].
  cbn. lra.
Qed.
Lemma quot_rel k : 1 <= k -> k <= bpow radix2 53 ->
  (1 - eps0) * t <= k * rnd (t / k) <= (1 + eps0) * t.
Proof.
  intros H1 H2. pose proof (rnd_rel _ (quot_lo k H1 H2)) as R. apply Rabs_le_inv in R.
  assert (E : k * (t / k) = t) by (field; lra).
  split; apply Rmult_le_reg_l with (/ k); try (apply Rinv_0_lt_compat; lra);
    rewrite <- (Rmult_assoc (/ k) k), Rinv_l, Rmult_1_l by lra;
    [replace (/ k * ((1 - eps0) * t)) with ((1 - eps0) * (t / k)) by (field; lra)
    |replace (/ k * ((1 + eps0) * t)) with ((1 + eps0) * (t / k)) by (field; lra)]; lra.
Qed.
Lemma dt_rel : (1 - eps0) * t <= INR N * dt <= (1 + eps0) * t.
Proof. apply quot_rel; [exact N_pos|exact N_le]. Qed.
Lemma n104 : INR 104 = 104. Proof. rewrite INR_IZR_INZ. reflexivity. Qed.
Lemma step_rel : (1 - eps0) * t <= 104 * step <= (1 + eps0) * t.
Proof.
  unfold step. rewrite n104. apply quot_rel; [lra|].
  apply Rle_trans with (bpow radix2 10); [cbn; lra|apply bpow_le; lia].
Qed.
Lemma dt_pos : 0 < dt.
Proof.
  pose proof dt_rel as [H _]. pose proof t_pos. pose proof eps_small. pose proof N_pos.
  destruct (Rlt_le_dec 0 dt) as [H3|H3]; [exact H3|]. exfalso.
  assert (INR N * dt <= 0) by (apply Rmult_le_0_l || nra). nra.
Qed.
Lemma step_nonneg : 0 <= step.
Proof. apply rnd_nonneg. pose proof t_pos. apply Rmult_le_pos; [lra|]. left. apply Rinv_0_lt_compat. rewrite n104. lra. Qed.

(** no overflow *)
Lemma rnd_bound a e : (-1074 <= e)%Z -> 0 <= a <= bpow radix2 e -> 0 <= rnd a <= bpow radix2 e.
Proof.
  intros He [H1 H2]. split; [apply rnd_nonneg, H1|]. rewrite <- (rnd_id (bpow radix2 e)); [apply rnd_le, H2|].
  apply fmt_bpow, He.
Qed.
Lemma rnd_top a e : (-1074 <= e <= 1023)%Z -> 0 <= a <= bpow radix2 e -> Rabs (rnd a) < top.
Proof.
  intros He H. destruct (rnd_bound a e (proj1 He) H) as [B1 B2]. rewrite Rabs_pos_eq by exact B1.
  apply Rle_lt_trans with (1 := B2). apply bpow_top. lia.
Qed.
Lemma twice e : 2 * bpow radix2 e = bpow radix2 (e + 1).
Proof. rewrite bpow_plus. cbn [bpow radix2 Z.pow_pos Pos.iter radix_val Z.mul]. cbn. ring. Qed.
Lemma n_dt n : (n <= N)%nat -> 0 <= INR n * dt <= bpow radix2 1001.
Proof.
  intro Hn. pose proof dt_pos. pose proof dt_rel as [_ R]. pose proof t_pos. pose proof eps_small.
  split; [apply Rmult_le_pos; [apply pos_INR|lra]|]. apply Rle_trans with (INR N * dt).
  - apply Rmult_le_compat_r; [lra|]. apply le_INR, Hn.
  - apply Rle_trans with (1 := R). change (bpow radix2 1001) with (bpow radix2 (1000 + 1)); rewrite <- (twice 1000). nra.
Qed.
Lemma dt_hi : dt <= bpow radix2 1001.
Proof.
  pose proof (n_dt 1 HN) as H. cbn [INR] in H. lra.
Qed.

Lemma f_dt_ok : is_dbl (f_dt x N) dt.
Proof.
  unfold f_dt, dt. apply fdiv_ok; [exact Hx|apply fn_ok, HN2|pose proof N_pos; lra|].
  apply (rnd_top _ 1000); [lia|]. pose proof t_pos. pose proof N_pos. split.
  - apply Rmult_le_pos; [lra|]. left. apply Rinv_0_lt_compat. lra.
  - apply Rle_trans with (2 := Hhi). rewrite <- (Rmult_1_r t) at 2. unfold Rdiv.
    apply Rmult_le_compat_l; [lra|]. rewrite <- Rinv_1. apply Rinv_le_contravar; lra.
Qed.
Lemma tn_ok n : (n < N)%nat -> is_dbl (fmul (fn n) (f_dt x N)) (tn n).
Proof.
  intro Hn. unfold tn. apply fmul_ok; [apply fn_ok; lia|apply f_dt_ok|].
  apply (rnd_top _ 1001); [lia|]. apply n_dt. lia.
Qed.
Lemma tn_bound n : (n < N)%nat -> 0 <= tn n <= bpow radix2 1001.
Proof. intro Hn. apply rnd_bound; [lia|]. apply n_dt. lia. Qed.
Lemma en_ok n : (n < N)%nat -> is_dbl (fadd (fmul (fn n) (f_dt x N)) (f_dt x N)) (en n).
Proof.
  intro Hn. unfold en. apply fadd_ok; [apply tn_ok, Hn|apply f_dt_ok|].
  apply (rnd_top _ 1002); [lia|]. change (bpow radix2 1002) with (bpow radix2 (1001 + 1)); rewrite <- (twice 1001). pose proof (tn_bound n Hn). pose proof dt_pos. pose proof dt_hi. lra.
Qed.
Lemma sm_ok i : (i <= 104)%nat -> is_dbl (nth i (f_samples x) (fn 0)) (sm i).
Proof.
  intro Hi. unfold f_samples, sm. destruct (Nat.eqb_spec i 104) as [->|Hne]; [exact Hx|].
  rewrite app_nth1 by (rewrite map_length, seq_length; lia).
  rewrite (nth_indep _ (fn 0) (fadd (fmul (fn 0) (fdiv (fsub x (fn 0)) (fn 104))) (fn 0))) by (rewrite map_length, seq_length; lia).
  rewrite (map_nth (fun i => fadd (fmul (fn i) (fdiv (fsub x (fn 0)) (fn 104))) (fn 0))).
  rewrite seq_nth by lia. cbn [Nat.add].
  pose proof t_pos as Ht. pose proof (is_dbl_fmt _ _ Hx) as Ft. pose proof eps_small as He.
  assert (H0 : is_dbl (fn 0) 0) by (apply (fn_ok 0); cbn; lia).
  assert (Hs : is_dbl (fsub x (fn 0)) t).
  { replace t with (rnd (t - 0)) by (rewrite Rminus_0_r; apply rnd_id, Ft).
    apply fsub_ok; [exact Hx|exact H0|]. apply (rnd_top _ 1000); [lia|]. lra. }
  assert (Hst : is_dbl (fdiv (fsub x (fn 0)) (fn 104)) step).
  { unfold step. apply fdiv_ok; [exact Hs|apply fn_ok; cbn; lia|rewrite n104; lra|].
    apply (rnd_top _ 1000); [lia|]. rewrite n104. lra. }
  assert (Hb : 0 <= INR i * step <= bpow radix2 1001).
  { pose proof step_nonneg. pose proof step_rel as [_ R]. split; [apply Rmult_le_pos; [apply pos_INR|assumption]|].
    apply Rle_trans with (104 * step).
    - apply Rmult_le_compat_r; [assumption|]. rewrite <- n104. apply le_INR. lia.
    - apply Rle_trans with (1 := R). change (bpow radix2 1001) with (bpow radix2 (1000 + 1)); rewrite <- (twice 1000). nra. }
  assert (Hm : is_dbl (fmul (fn i) (fdiv (fsub x (fn 0)) (fn 104))) (rnd (INR i * step))).
  { apply fmul_ok; [apply fn_ok; lia|exact Hst|]. apply (rnd_top _ 1001); [lia|exact Hb]. }
  pose proof (fadd_ok _ _ _ _ Hm H0) as A. rewrite Rplus_0_r in A. rewrite (rnd_id (rnd (INR i * step)) (rnd_fmt _)) in A.
  apply A. rewrite Rabs_pos_eq by (apply rnd_nonneg; lra).
  apply Rle_lt_trans with (bpow radix2 1001); [|apply bpow_top; lia]. apply rnd_bound; [lia|exact Hb].
Qed.
Lemma sm_fmt i : dfmt (sm i).
Proof. unfold sm. destruct (i =? 104)%nat; [apply (is_dbl_fmt _ _ Hx)|apply rnd_fmt]. Qed.
Lemma sm_nonneg i : 0 <= sm i.
Proof.
  unfold sm. destruct (i =? 104)%nat; [pose proof t_pos; lra|]. apply rnd_nonneg.
  apply Rmult_le_pos; [apply pos_INR|apply step_nonneg].
Qed.

(** a double from 0 up to the end of the last slab lies in some slab *)
Lemma slab_of f : dfmt f -> 0 <= f -> f <= en (N - 1) -> exists n, (n < N)%nat /\ tn n <= f <= en n.
Proof.
  intros Hf H0 Hend.
  assert (G : forall k, (k < N)%nat -> f <= en k -> exists n, (n < N)%nat /\ tn n <= f <= en n).
  { induction k as [|k IH]; intros Hk He.
    - exists 0%nat. split; [lia|]. split; [|exact He]. unfold tn. cbn [INR]. rewrite Rmult_0_l, rnd_0. exact H0.
    - destruct (Rle_lt_dec (tn (S k)) f) as [H|H]; [exists (S k); split; [lia|split; assumption]|].
      apply IH; [lia|].
      destruct (no_between (INR k * dt) dt f) as [B|B];
        [apply (proj1 (n_dt k (Nat.lt_le_incl _ _ (Nat.lt_trans _ _ _ (Nat.lt_succ_diag_r k) Hk))))|apply dt_pos|exact Hf|exact B|].
      exfalso. replace (INR k * dt + dt) with (INR (S k) * dt) in B by (rewrite S_INR; ring). unfold tn in H. lra. }
  apply (G (N - 1)%nat); [lia|exact Hend].
Qed.
Lemma en_le n m : (n <= m)%nat -> en n <= en m.
Proof.
  intro H. unfold en. apply rnd_le. apply Rplus_le_compat_r. unfold tn. apply rnd_le.
  apply Rmult_le_compat_r; [pose proof dt_pos; lra|apply le_INR, H].
Qed.
(** the end of the last slab is at least (1 - 4 eps) T *)
Lemma en_last : (1 - 4 * eps0) * t <= en (N - 1).
Proof.
  pose proof dt_rel as [R _]. pose proof dt_pos as Hd. pose proof t_pos. pose proof eps_small as He.
  assert (Ed : bpow radix2 (-1022) <= dt).
  { unfold dt. apply Rle_trans with (rnd (bpow radix2 (-1022))); [rewrite rnd_id; [lra|apply fmt_bpow; lia]|].
    apply rnd_le, quot_lo; [apply N_pos|apply N_le]. }
  assert (Ht : (1 - eps0) * (INR (N - 1) * dt) <= tn (N - 1)).
  { destruct (Nat.eq_dec (N - 1) 0) as [E|E].
    - rewrite E. unfold tn. cbn [INR]. rewrite Rmult_0_l, rnd_0. lra.
    - unfold tn. pose proof (rnd_rel (INR (N - 1) * dt)) as Q.
      assert (H1 : 1 <= INR (N - 1)) by (change 1 with (INR 1); apply le_INR; lia).
      assert (bpow radix2 (-1022) <= INR (N - 1) * dt) as B by nra.
      apply Q, Rabs_le_inv in B. lra. }
  assert (Hs : dt <= tn (N - 1) + dt) by (pose proof (proj1 (tn_bound (N - 1) (Nat.sub_lt N 1 HN Nat.lt_0_1))); lra).
  pose proof (rnd_rel (tn (N - 1) + dt) (Rle_trans _ _ _ Ed Hs)) as Q. apply Rabs_le_inv in Q.
  unfold en. rewrite minus_INR in Ht by exact HN. cbn [INR] in Ht.
  set (s := tn (N - 1)) in *. set (q := rnd (s + dt)) in *. clearbody s q.
  assert (A1 : (1 - eps0) * ((1 - eps0) * t) <= s + dt).
  { apply Rle_trans with ((1 - eps0) * (INR N * dt)); [apply Rmult_le_compat_l; lra|].
    assert (0 <= eps0 * dt) by (apply Rmult_le_pos; lra). lra. }
  assert (A2 : (1 - eps0) * (s + dt) <= q) by lra.
  apply Rle_trans with (2 := A2). apply Rle_trans with ((1 - eps0) * ((1 - eps0) * ((1 - eps0) * t))).
  - assert (0 <= eps0 * eps0) by nra. assert (eps0 * (eps0 * eps0) <= eps0 * eps0) by nra. nra.
  - apply Rmult_le_compat_l; lra.
Qed.
Lemma sm_inner i : (i < 104)%nat -> sm i <= en (N - 1).
Proof.
  intro Hi. unfold sm. rewrite (proj2 (Nat.eqb_neq i 104)) by lia.
  pose proof step_nonneg as Hs. pose proof step_rel as [_ R]. pose proof t_pos. pose proof eps_small as He.
  assert (Q : 0 <= INR i * step <= 103 * step).
  { split; [apply Rmult_le_pos; [apply pos_INR|assumption]|]. apply Rmult_le_compat_r; [assumption|].
    replace 103 with (INR 103) by (rewrite INR_IZR_INZ; reflexivity). apply le_INR. lia. }
  apply Rle_trans with (rnd (103 * step)); [apply rnd_le, Q|].
  assert (B : bpow radix2 (-1022) <= 103 * step).
  { unfold step. apply Rle_trans with (rnd (bpow radix2 (-1022))).
    - rewrite rnd_id; [lra|apply fmt_bpow; lia].
    - apply Rle_trans with (rnd (t / INR 104)).
      + apply rnd_le, quot_lo; rewrite n104; [lra|]. apply Rle_trans with (bpow radix2 10); [cbn; lra|apply bpow_le; lia].
      + fold step. lra. }
  apply rnd_rel in B. apply Rabs_le_inv in B. pose proof en_last.
  apply Rle_trans with ((1 + eps0) * (103 * step)); [lra|].
  apply Rle_trans with (2 := H0). apply Rle_trans with ((1 + eps0) * (103 / 104 * ((1 + eps0) * t))).
  - apply Rmult_le_compat_l; lra.
  - nra.
Qed.

(** what the slabs evaluate *)
Lemma evaluated_iff y f : is_dbl y f -> (f_evaluated x N y = true <-> exists n, (n < N)%nat /\ tn n <= f <= en n).
Proof.
  intro Hy. unfold f_evaluated. rewrite existsb_exists. unfold f_in_slab. cbv zeta. split.
  - intros [n [Hn H]]. apply in_seq in Hn. exists n. split; [lia|]. apply andb_prop in H. destruct H as [H1 H2].
    split; [apply (fle_true _ _ _ _ (tn_ok n ltac:(lia)) Hy), H1|apply (fle_true _ _ _ _ Hy (en_ok n ltac:(lia))), H2].
  - intros [n [Hn [H1 H2]]]. exists n. split; [apply in_seq; lia|]. apply andb_true_intro.
    split; [apply (fle_true _ _ _ _ (tn_ok n Hn) Hy), H1|apply (fle_true _ _ _ _ Hy (en_ok n Hn)), H2].
Qed.
Lemma evaluated_sample i : (i <= 104)%nat ->
  (f_evaluated x N (nth i (f_samples x) (fn 0)) = true <-> (i < 104)%nat \/ t <= en (N - 1)).
Proof.
  intro Hi. rewrite (evaluated_iff _ _ (sm_ok i Hi)). split.
  - intros [n [Hn [_ H]]]. destruct (Nat.eq_dec i 104) as [->|Hne]; [right|left; lia].
    unfold sm in H. rewrite Nat.eqb_refl in H. apply Rle_trans with (1 := H). apply en_le. lia.
  - intro H. apply slab_of; [apply sm_fmt|apply sm_nonneg|].
    destruct (Nat.eq_dec i 104) as [->|Hne]; [|apply sm_inner; lia].
    destruct H as [H|H]; [lia|]. unfold sm. rewrite Nat.eqb_refl. exact H.
Qed.
End Run.

(** ** the list of missed samples *)
Lemma filter_combine_seq {A} (p : A -> bool) (d : A) l a :
  map fst (filter (fun '(_, y) => p y) (combine (seq a (length l)) l)) =
  filter (fun i => p (nth (i - a) l d)) (seq a (length l)).
Proof.
  revert a. induction l as [|y l IH]; intro a; [reflexivity|].
  cbn [length seq combine filter]. rewrite Nat.sub_diag. change (nth 0 (y :: l) d) with y.
  assert (E : filter (fun i => p (nth (i - a) (y :: l) d)) (seq (S a) (length l)) =
              filter (fun i => p (nth (i - S a) l d)) (seq (S a) (length l))).
  { apply filter_ext_in. intros i Hi. apply in_seq in Hi. replace (i - a)%nat with (S (i - S a)) by lia. reflexivity. }
  rewrite E, <- IH. destruct (p y); reflexivity.
Qed.
Lemma missed_filter x N :
  f_missed x N = filter (fun i => negb (f_evaluated x N (nth i (f_samples x) (fn 0)))) (seq 0 105).
Proof.
  unfold f_missed. pose proof (filter_combine_seq (fun y => negb (f_evaluated x N y)) (fn 0) (f_samples x) 0) as H.
  replace (length (f_samples x)) with 105%nat in H.
  - rewrite H. apply filter_ext. intro i. rewrite Nat.sub_0_r. reflexivity.
  - unfold f_samples. rewrite app_length, map_length, seq_length. reflexivity.
Qed.
Lemma filter_none {A} (p : A -> bool) l : (forall a, In a l -> p a = false) -> filter p l = [].
Proof.
  induction l as [|a l IH]; intro H; [reflexivity|]. cbn [filter]. rewrite (H a) by (left; reflexivity).
  apply IH. intros b Hb. apply H. right. exact Hb.
Qed.
Theorem missed_spec x t N : is_dbl x t -> bpow radix2 (-900) <= t <= bpow radix2 1000 ->
  (1 <= N)%nat -> (Z.of_nat N <= 2 ^ 53)%Z ->
  f_missed x N = if Rle_bool t (en t N (N - 1)) then [] else [104%nat].
Proof.
  intros Hx [H1 H2] HN HN2. rewrite missed_filter.
  change (seq 0 105) with (seq 0 (104 + 1)). rewrite seq_app, filter_app. cbn [Nat.add].
  rewrite filter_none.
  - cbn [app]. change (seq 104 1) with [104%nat]. cbn [filter].
    pose proof (evaluated_sample x t N Hx H1 H2 HN HN2 104 (le_n 104)) as E.
    destruct (Rle_bool_spec t (en t N (N - 1))) as [H|H].
    + rewrite (proj2 E) by (right; exact H). reflexivity.
    + destruct (f_evaluated x N (nth 104 (f_samples x) (fn 0))); [|reflexivity].
      destruct (proj1 E eq_refl) as [Q|Q]; [lia|lra].
  - intros i Hi. apply in_seq in Hi. apply Bool.negb_false_iff.
    apply (evaluated_sample x t N Hx H1 H2 HN HN2 i ltac:(lia)). left. lia.
Qed.

(** exact grids: T = N d with N d in 53 bits *)
Lemma exact_end N m e : (1 <= N)%nat -> (0 <= m)%Z -> (Z.of_nat N * m <= 2 ^ 53)%Z -> (-1074 <= e)%Z ->
  let t := INR N * (IZR m * bpow radix2 e) in en t N (N - 1) = t.
Proof.
  intros HN Hm Hb He t. assert (HNp : 1 <= INR N) by (change 1 with (INR 1); apply le_INR, HN).
  assert (F : forall k, (k <= N)%nat -> rnd (INR k * (IZR m * bpow radix2 e)) = INR k * (IZR m * bpow radix2 e)).
  { intros k Hk. apply rnd_id. rewrite <- Rmult_assoc, INR_IZR_INZ, <- mult_IZR. apply fmt_int; [|exact He].
    rewrite Z.abs_eq by lia. apply Z.le_trans with (2 := Hb). apply Z.mul_le_mono_nonneg_r; lia. }
  assert (D : dt t N = IZR m * bpow radix2 e).
  { unfold dt. replace (t / INR N) with (INR 1 * (IZR m * bpow radix2 e)) by (unfold t; cbn [INR]; field; lra).
    rewrite F by exact HN. cbn [INR]. ring. }
  unfold en, tn. rewrite D, (F (N - 1)%nat) by lia.
  replace (INR (N - 1) * (IZR m * bpow radix2 e) + IZR m * bpow radix2 e) with t; [apply (F N (le_n N))|].
  unfold t. rewrite minus_INR by exact HN. cbn [INR]. ring.
Qed.
Theorem missed_exact x N m e : (1 <= N)%nat -> (0 <= m)%Z -> (Z.of_nat N * m <= 2 ^ 53)%Z -> (-1074 <= e)%Z ->
  let t := INR N * (IZR m * bpow radix2 e) in
  is_dbl x t -> bpow radix2 (-900) <= t <= bpow radix2 1000 -> f_missed x N = [].
Proof.
  intros HN Hm Hb He t Hx Ht.
  destruct (Z.eq_dec m 0) as [->|Hm0].
  { exfalso. destruct Ht as [Ht _]. unfold t in Ht. rewrite Rmult_0_l, Rmult_0_r in Ht. pose proof (bpow_gt_0 radix2 (-900)). lra. }
  rewrite (missed_spec x t N Hx Ht HN) by nia.
  unfold t. rewrite (exact_end N m e HN Hm Hb He). rewrite Rle_bool_true by lra. reflexivity.
Qed.
