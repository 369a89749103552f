(** Props_FloatTime.v -- property C89: evaluation in time with doubles. *)
From Coq Require Import String ZArith QArith Reals List Bool Lia Lra Qreals.
From Coq Require Import Floats.SpecFloat.
From Coquelicot Require Import Coquelicot.
From Flocq Require Import Core IEEE754.BinarySingleNaN.
From Verif Require Import Base TimeModel FloatModel FloatRound FloatSamples FloatTime FloatExpr FloatLocal Props_Float QuadProofs.
Import ListNotations.
Open Scope R_scope.

(** * The formulas *)
Local Notation h := (Quo 1 2).
Local Notation t1 := (Sub X (K 1)).
Local Notation t13 := (Sub X (Quo 1 3)).
Local Notation t23 := (Sub X (Quo 2 3)).
Definition ex_basis (q : Z) : list fex * list fex :=
  match q with
  | 0%Z => ([K 1], [K 0])
  | 1%Z => ([Sub (K 1) X; X], [K (-1); K 1])
  | 2%Z => ([Mul (Mul (K 2) (Sub (K 1) X)) (Sub h X); Mul (Mul (K 4) X) (Sub (K 1) X); Mul (Mul (K 2) X) (Sub X h)],
            [Add (K (-3)) (Mul (K 4) X); Sub (K 4) (Mul (K 8) X); Sub (Mul (K 4) X) (K 1)])
  | 3%Z => ([Mul (Mul (Mul (Quo (-9) 2) t1) t23) t13; Mul (Mul (Mul (Quo 27 2) X) t1) t23;
             Mul (Mul (Mul (Neg (Quo 27 2)) X) t1) t13; Mul (Mul (Mul (Quo 9 2) X) t13) t23],
            [Mul (Quo (-9) 2) (Add (Add (Mul t23 t13) (Mul t1 t13)) (Mul t1 t23));
             Mul (Quo 27 2) (Add (Add (Mul t1 t23) (Mul X t23)) (Mul X t1));
             Mul (Neg (Quo 27 2)) (Add (Add (Mul t1 t13) (Mul X t13)) (Mul X t1));
             Mul (Quo 9 2) (Add (Add (Mul t13 t23) (Mul X t23)) (Mul X t13))])
  | _ => ([], [])
  end.
Lemma order_cases q : (0 <= q <= 3)%Z -> q = 0%Z \/ q = 1%Z \/ q = 2%Z \/ q = 3%Z. Proof. lia. Qed.
Lemma f_basis_ex q : (0 <= q <= 3)%Z -> f_basis q = Ok (map evf (fst (ex_basis q)), map evf (snd (ex_basis q))).
Proof. intro H. destruct (order_cases q H) as [->|[->|[->| ->]]]; reflexivity. Qed.
Lemma basis_ex q : (0 <= q <= 3)%Z -> basis_in_time q = Ok (map evr (fst (ex_basis q)), map evr (snd (ex_basis q))).
Proof. intro H. destruct (order_cases q H) as [->|[->|[->| ->]]]; reflexivity. Qed.
Lemma f_basis_err q : ~ (0 <= q <= 3)%Z -> f_basis q = Err KeyError /\ basis_in_time q = Err KeyError.
Proof.
  intro H. destruct q as [|p|p]; [lia| |split; reflexivity].
  do 2 (destruct p as [p|p|]; try (split; reflexivity); try lia).
Qed.
(** the computed bounds *)
Definition check (d : Q) (e : fex) : bool := fine (5 # 4) e && Qle_bool (snd (bnd (5 # 4) e)) d && Qle_bool (fst (bnd (5 # 4) e)) (130 # 1).
Lemma checked q : (0 <= q <= 3)%Z ->
  forallb (check (1 # 2 ^ 44)) (fst (ex_basis q)) = true /\ forallb (check (1 # 2 ^ 43)) (snd (ex_basis q)) = true.
Proof. intro H. destruct (order_cases q H) as [->|[->|[->| ->]]]; split; vm_compute; reflexivity. Qed.
Lemma dbl_value x v : is_dbl x v -> value x v.
Proof.
  intros [b [<- [H2 H3]]]. repeat split.
  - apply valid_binary_B2SF.
  - destruct b; try discriminate; reflexivity.
  - rewrite <- H3. destruct b; try discriminate; reflexivity.
Qed.
Lemma Q44 : Q2R (1 # 2 ^ 44) = bpow radix2 (-44). Proof. unfold Q2R. cbn. lra. Qed.
Lemma Q43 : Q2R (1 # 2 ^ 43) = bpow radix2 (-43). Proof. unfold Q2R. cbn. lra. Qed.
Lemma check_near d e x t : check d e = true -> is_dbl x t -> Rabs t <= 5 / 4 ->
  (exists v, is_dbl (evf e x) v /\ Rabs (v - evr e t) <= Q2R d) /\ Rabs (evr e t) <= 130.
Proof.
  intros H Hx Ht. apply andb_true_iff in H as [H H3]. apply andb_true_iff in H as [H1 H2].
  assert (Ht' : Rabs t <= Q2R (5 # 4)) by (unfold Q2R; cbn; lra).
  destruct (formula_near (5 # 4) e x t H1 Hx Ht') as [A [v [B C]]].
  apply Qle_bool_iff, Qle_Rle in H2. apply Qle_bool_iff, Qle_Rle in H3. split.
  - exists v. split; [exact B|]. lra.
  - apply Rle_trans with (1 := A). apply Rle_trans with (1 := H3). unfold Q2R. cbn. lra.
Qed.
Lemma check_mag d e t : check d e = true -> Rabs t <= 5 / 4 -> Rabs (evr e t) <= 130.
Proof.
  intros H Ht.
  apply andb_true_iff in H as [H H3]. apply andb_true_iff in H as [H1 _].
  apply Qle_bool_iff, Qle_Rle in H3. apply Rle_trans with (Q2R (fst (bnd (5 # 4) e))).
  - apply (mag_bound (5 # 4) e t H1). unfold Q2R. cbn. lra.
  - apply Rle_trans with (1 := H3). unfold Q2R. cbn. lra.
Qed.

(** * C89 *)
(** Values and derivatives of the basis in doubles, for every double in the range that local
    coordinates can take. *)
Theorem C89_basis : forall q, match f_basis q, basis_in_time q with
  | Ok (fs, gs), Ok (phis, dphis) =>
      length fs = length phis /\ length gs = length dphis /\
      forall x t, value x t -> Rabs t <= 5 / 4 -> forall j,
        ((j < length phis)%nat -> exists v, value (nth j fs (fun _ => x) x) v /\ Rabs (v - nth j phis (fun _ => 0) t) <= bpow radix2 (-44)) /\
        ((j < length dphis)%nat -> exists v, value (nth j gs (fun _ => x) x) v /\ Rabs (v - nth j dphis (fun _ => 0) t) <= bpow radix2 (-43))
  | Err e, Err e' => e = e'
  | _, _ => False
  end.
Proof.
  intro q. destruct (Z_le_dec 0 q) as [H0|H0]; [destruct (Z_le_dec q 3) as [H3|H3]|]; try (destruct (f_basis_err q) as [-> ->]; [lia|reflexivity]).
  assert (H : (0 <= q <= 3)%Z) by lia. rewrite (f_basis_ex q H), (basis_ex q H). rewrite !map_length. split; [reflexivity|]. split; [reflexivity|].
  intros x t Hx Ht j. apply value_dbl in Hx. destruct (checked q H) as [C1 C2]. rewrite forallb_forall in C1, C2. split; intro Hj.
  - rewrite (nth_indep _ (fun _ => x) (evf X)), (nth_indep _ (fun _ => 0) (evr X)) by (rewrite map_length; exact Hj). rewrite !map_nth.
    destruct (check_near _ _ x t (C1 _ (nth_In _ X Hj)) Hx Ht) as [[v [A B]] _]. exists v. split; [apply dbl_value, A|]. rewrite <- Q44. exact B.
  - rewrite (nth_indep _ (fun _ => x) (evf X)), (nth_indep _ (fun _ => 0) (evr X)) by (rewrite map_length; exact Hj). rewrite !map_nth.
    destruct (check_near _ _ x t (C2 _ (nth_In _ X Hj)) Hx Ht) as [[v [A B]] _]. exists v. split; [apply dbl_value, A|]. rewrite <- Q43. exact B.
Qed.

(** From a coordinate to the time and back: the error grows with the number of the slab. *)
Theorem C89_round_trip : forall T r N n z s, value T r -> bpow radix2 (-900) <= r <= bpow radix2 1000 ->
  (n < N)%nat -> (Z.of_nat N <= 2 ^ 50)%Z -> value z s -> 0 <= s <= 1 ->
  exists v, value (f_local T N n (f_time T N n z)) v /\ Rabs (v - s) <= (INR n + 11) * bpow radix2 (-53).
Proof.
  intros T r N n z s HT [H1 H2] Hn HN Hz Hs. apply value_dbl in HT. apply value_dbl in Hz.
  destruct (trip_near T r N n HT H1 H2 ltac:(lia) HN Hn z s Hz Hs) as [v [A B]]. exists v. split; [apply dbl_value, A|]. rewrite u_eq. exact B.
Qed.
(** A time that the slab test accepts: its coordinate is not negative, at most barely above 1,
    and near the exact coordinate. *)
Theorem C89_sample : forall T r N n y f, value T r -> bpow radix2 (-900) <= r <= bpow radix2 1000 ->
  (n < N)%nat -> (Z.of_nat N <= 2 ^ 50)%Z -> value y f -> f_in_slab T N n y = true ->
  exists v, value (f_local T N n y) v /\ 0 <= v <= 1 + (INR n + 10) * bpow radix2 (-53)
    /\ Rabs (v - (f - INR n * (r / INR N)) / (r / INR N)) <= (5 * INR n + 12) * bpow radix2 (-53).
Proof.
  intros T r N n y f HT [H1 H2] Hn HN Hy Hin. apply value_dbl in HT. apply value_dbl in Hy.
  assert (HN53 : (Z.of_nat N <= 2 ^ 53)%Z) by lia.
  unfold f_in_slab in Hin. apply andb_true_iff in Hin as [I1 I2].
  apply (fle_true _ _ _ _ (tn_ok T r N HT H1 H2 ltac:(lia) HN53 n Hn) Hy) in I1.
  apply (fle_true _ _ _ _ Hy (en_ok T r N HT H1 H2 ltac:(lia) HN53 n Hn)) in I2.
  destruct (sample_near T r N n HT H1 H2 ltac:(lia) HN Hn y f Hy (conj I1 I2)) as [v [A [B C]]].
  exists v. rewrite u_eq. split; [apply dbl_value, A|]. split; assumption.
Qed.

(** ** Both together *)
Lemma lipschitz f g L a b : (forall t, is_derive f t (g t)) -> (forall t, Rabs t <= 5 / 4 -> Rabs (g t) <= L) ->
  Rabs a <= 5 / 4 -> Rabs b <= 5 / 4 -> Rabs (f a - f b) <= L * Rabs (a - b).
Proof.
  intros Hd HL Ha Hb. apply Rabs_le_inv in Ha, Hb.
  destruct (MVT_gen f b a g) as [c [Hc E]].
  - intros t _. apply Hd.
  - intros t _. apply continuity_pt_filterlim. apply (ex_derive_continuous f t). eexists. apply Hd.
  - rewrite E, Rabs_mult. apply Rmult_le_compat_r; [apply Rabs_pos|]. apply HL. apply Rabs_le.
    unfold Rmin, Rmax in Hc. destruct (Rle_dec b a); lra.
Qed.
Definition ex_second (q : Z) : list fex :=
  match q with
  | 0%Z => [K 0] | 1%Z => [K 0; K 0] | 2%Z => [K 4; K (-8); K 4]
  | 3%Z => [Sub (K 18) (Mul (K 27) X); Sub (Mul (K 81) X) (K 45); Sub (K 36) (Mul (K 81) X); Sub (Mul (K 27) X) (K 9)]
  | _ => []
  end.
Lemma first_derive q j t : (0 <= q <= 3)%Z -> (j < length (fst (ex_basis q)))%nat ->
  is_derive (evr (nth j (fst (ex_basis q)) X)) t (evr (nth j (snd (ex_basis q)) X) t).
Proof.
  intros H Hj. destruct (order_cases q H) as [->|[->|[->| ->]]]; cbn in Hj;
    destruct j as [|[|[|[|j]]]]; try lia; cbn [ex_basis fst snd nth evr]; auto_derive; auto; field.
Qed.
Lemma second_derive q j t : (0 <= q <= 3)%Z -> (j < length (fst (ex_basis q)))%nat ->
  is_derive (evr (nth j (snd (ex_basis q)) X)) t (evr (nth j (ex_second q) X) t) /\ (Rabs t <= 5 / 4 -> Rabs (evr (nth j (ex_second q) X) t) <= 150).
Proof.
  intros H Hj. split.
  - destruct (order_cases q H) as [->|[->|[->| ->]]]; cbn in Hj;
      destruct j as [|[|[|[|j]]]]; try lia; cbn [ex_basis ex_second fst snd nth evr]; auto_derive; auto; field.
  - intro Ht. apply Rabs_le_inv in Ht. destruct (order_cases q H) as [->|[->|[->| ->]]]; cbn in Hj;
      destruct j as [|[|[|[|j]]]]; try lia; cbn [ex_second nth evr]; apply Rabs_le; lra.
Qed.
Lemma same_length q : (0 <= q <= 3)%Z -> length (fst (ex_basis q)) = S (Z.to_nat q) /\ length (snd (ex_basis q)) = S (Z.to_nat q).
Proof. intro H. destruct (order_cases q H) as [->|[->|[->| ->]]]; split; reflexivity. Qed.
(** What measured_errors and the plots use in slab n: basis values and derivatives at the
    recomputed coordinate instead of at tau. *)
Theorem C89_evaluated : forall q fs gs phis dphis T r N n z s j, f_basis q = Ok (fs, gs) -> basis_in_time q = Ok (phis, dphis) ->
  value T r -> bpow radix2 (-900) <= r <= bpow radix2 1000 -> (n < N)%nat -> (Z.of_nat N <= 2 ^ 50)%Z -> value z s -> 0 <= s <= 1 ->
  (Z.of_nat j <= q)%Z ->
  let y := f_local T N n (f_time T N n z) in
  exists v w, value (nth j fs (fun _ => y) y) v /\ value (nth j gs (fun _ => y) y) w
    /\ Rabs (v - nth j phis (fun _ => 0) s) <= (INR n + 15) * bpow radix2 (-45)
    /\ Rabs (w - nth j dphis (fun _ => 0) s) <= (INR n + 18) * bpow radix2 (-45).
Proof.
  intros q fs gs phis dphis T r N n z s j HF HB HT Hr Hn HN Hz Hs Hj y.
  assert (H : (0 <= q <= 3)%Z).
  { destruct (Z_le_dec 0 q); [destruct (Z_le_dec q 3); [lia|]|]; destruct (f_basis_err q) as [X _]; try lia; congruence. }
  pose proof (C89_basis q) as CB. rewrite HF, HB in CB. destruct CB as [L1 [L2 CB]].
  rewrite (basis_ex q H) in HB. injection HB as <- <-. destruct (same_length q H) as [S1 S2].
  destruct (C89_round_trip T r N n z s HT Hr Hn HN Hz Hs) as [a [A1 A2]]. fold y in A1.
  assert (NS : INR n <= 1125899906842624) by (rewrite INR_IZR_INZ; apply IZR_le; lia).
  assert (Ha : Rabs a <= 5 / 4).
  { apply Rabs_le_inv in A2. apply Rabs_le. rewrite u_eq in A2. pose proof (pos_INR n). unfold u in A2. lra. }
  assert (Hb : Rabs s <= 5 / 4) by (apply Rabs_le; lra).
  assert (Jp : (j < length (fst (ex_basis q)))%nat) by lia. assert (Jd : (j < length (snd (ex_basis q)))%nat) by lia.
  destruct (CB y a A1 Ha j) as [P Q]. rewrite map_length in P, Q. destruct (P Jp) as [v [V1 V2]]. destruct (Q Jd) as [w [W1 W2]].
  exists v, w. split; [exact V1|]. split; [exact W1|].
  assert (EP : nth j (map evr (fst (ex_basis q))) (fun _ => 0) = evr (nth j (fst (ex_basis q)) X)) by (rewrite (nth_indep _ (fun _ => 0) (evr X)) by (rewrite map_length; exact Jp); apply map_nth).
  assert (ED : nth j (map evr (snd (ex_basis q))) (fun _ => 0) = evr (nth j (snd (ex_basis q)) X)) by (rewrite (nth_indep _ (fun _ => 0) (evr X)) by (rewrite map_length; exact Jd); apply map_nth).
  rewrite EP, ED in *.
  destruct (checked q H) as [_ C2]. rewrite forallb_forall in C2.
  pose proof (lipschitz _ _ 130 a s (fun t => first_derive q j t H Jp) (fun t Ht => check_mag _ _ t (C2 _ (nth_In _ X Jd)) Ht) Ha Hb) as K1.
  pose proof (lipschitz _ _ 150 a s (fun t => proj1 (second_derive q j t H Jp)) (fun t Ht => proj2 (second_derive q j t H Jp) Ht) Ha Hb) as K2.
  rewrite u_eq in A2. assert (B44 : bpow radix2 (-44) = 512 * u) by (unfold u; cbn; lra). assert (B43 : bpow radix2 (-43) = 1024 * u) by (unfold u; cbn; lra).
  assert (B45 : bpow radix2 (-45) = 256 * u) by (unfold u; cbn; lra). rewrite B44 in V2. rewrite B43 in W2. rewrite B45.
  assert (D : Rabs (a - s) <= INR n * u + 11 * u) by lra.
  assert (NU : 0 <= INR n * u) by (apply Rmult_le_pos; [apply pos_INR|unfold u; lra]). assert (U0 : 0 < u) by (unfold u; lra).
  split.
  - replace (v - evr (nth j (fst (ex_basis q)) X) s) with ((v - evr (nth j (fst (ex_basis q)) X) a) + (evr (nth j (fst (ex_basis q)) X) a - evr (nth j (fst (ex_basis q)) X) s)) by ring.
    apply Rle_trans with (1 := Rabs_triang _ _). lra.
  - replace (w - evr (nth j (snd (ex_basis q)) X) s) with ((w - evr (nth j (snd (ex_basis q)) X) a) + (evr (nth j (snd (ex_basis q)) X) a - evr (nth j (snd (ex_basis q)) X) s)) by ring.
    apply Rle_trans with (1 := Rabs_triang _ _). lra.
Qed.

(** ** Exact cases *)
(** Powers of two for T and N, a coordinate with e binary places, (n + 1) 2^e <= 2^53: no
    rounding at all. *)
Theorem C89_exact : forall T j k n z m e, value T (bpow radix2 j) -> (-800 <= j <= 800)%Z -> (0 <= k <= 50)%Z ->
  let N := Z.to_nat (2 ^ k) in
  (n < N)%nat -> (0 <= e <= 53)%Z -> (0 <= m <= 2 ^ e)%Z -> ((Z.of_nat n + 1) * 2 ^ e <= 2 ^ 53)%Z ->
  value z (IZR m * bpow radix2 (- e)) ->
  value (f_time T N n z) ((INR n + IZR m * bpow radix2 (- e)) * bpow radix2 (j - k))
  /\ value (f_local T N n (f_time T N n z)) (IZR m * bpow radix2 (- e)).
Proof.
  intros T j k n z m e HT Hj Hk N Hn He Hm Hb Hz. apply value_dbl in HT. apply value_dbl in Hz.
  assert (P2 : (1 <= 2 ^ k <= 2 ^ 50)%Z) by (split; [change 1%Z with (2 ^ 0)%Z|]; apply Z.pow_le_mono_r; lia).
  assert (EN : Z.of_nat N = (2 ^ k)%Z) by (unfold N; rewrite Z2Nat.id; lia).
  assert (IN : INR N = bpow radix2 k) by (rewrite INR_IZR_INZ, EN; apply (IZR_Zpower radix2); lia).
  assert (Pe : (1 <= 2 ^ e <= 2 ^ 53)%Z) by (split; [change 1%Z with (2 ^ 0)%Z|]; apply Z.pow_le_mono_r; lia).
  assert (IE : IZR (2 ^ e) = bpow radix2 e) by (apply (IZR_Zpower radix2); lia).
  assert (Lo : bpow radix2 (-900) <= bpow radix2 j) by (apply bpow_le; lia).
  assert (Hi : bpow radix2 j <= bpow radix2 1000) by (apply bpow_le; lia).
  assert (N1 : (1 <= N)%nat) by lia. assert (N53 : (Z.of_nat N <= 2 ^ 53)%Z) by lia.
  set (d := bpow radix2 (j - k)). assert (Dp : 0 < d) by apply bpow_gt_0.
  set (s := IZR m * bpow radix2 (- e)).
  assert (ED : dt (bpow radix2 j) N = d).
  { unfold dt. rewrite IN. unfold Rdiv. rewrite <- bpow_opp, <- bpow_plus. apply rnd_id, fmt_bpow. lia. }
  assert (ET : tn (bpow radix2 j) N n = INR n * d).
  { unfold tn. rewrite ED. apply rnd_id. rewrite INR_IZR_INZ. apply fmt_int; nia. }
  assert (S1 : d * s = IZR m * bpow radix2 (j - k - e)) by (unfold s, d; replace (j - k - e)%Z with (j - k + - e)%Z by lia; rewrite bpow_plus; ring).
  assert (S2 : INR n * d + d * s = IZR (Z.of_nat n * 2 ^ e + m) * bpow radix2 (j - k - e)).
  { rewrite S1, plus_IZR, mult_IZR, IE, <- INR_IZR_INZ. unfold d. replace (bpow radix2 (j - k)) with (bpow radix2 e * bpow radix2 (j - k - e)) by (rewrite <- bpow_plus; f_equal; lia). ring. }
  assert (FS : rnd (d * s) = d * s) by (rewrite S1; apply rnd_id, fmt_int; nia).
  assert (FT : rnd (INR n * d + d * s) = INR n * d + d * s) by (rewrite S2; apply rnd_id, fmt_int; nia).
  assert (MS : 0 <= s <= 1).
  { unfold s. split; [apply Rmult_le_pos; [apply IZR_le; lia|apply bpow_ge_0]|]. apply (Rmult_le_reg_r (bpow radix2 e)); [apply bpow_gt_0|].
    rewrite Rmult_assoc, <- bpow_plus. replace (- e + e)%Z with 0%Z by lia. rewrite Rmult_1_r, Rmult_1_l, <- IE. apply IZR_le. lia. }
  pose proof (time_ok T (bpow radix2 j) N n HT Lo Hi N1 ltac:(lia) Hn z s Hz MS) as T1. rewrite ED, ET, FS, FT in T1.
  assert (Q : Rabs (INR n * d + d * s - tn (bpow radix2 j) N n) <= 2 * dt (bpow radix2 j) N).
  { rewrite ED, ET. replace (INR n * d + d * s - INR n * d) with (d * s) by ring. rewrite Rabs_pos_eq by (apply Rmult_le_pos; lra). nra. }
  destruct (quot_ok T (bpow radix2 j) N n HT Lo Hi N1 ltac:(lia) Hn (f_time T N n z) _ T1 Q) as [T2 _]. rewrite ED, ET in T2.
  replace (INR n * d + d * s - INR n * d) with (d * s) in T2 by ring. rewrite FS in T2. replace (d * s / d) with s in T2 by (field; lra).
  split; apply dbl_value.
  - replace ((INR n + s) * d) with (INR n * d + d * s) by ring. exact T1.
  - rewrite (rnd_id s) in T2 by (apply (is_dbl_fmt _ _ Hz)). exact T2.
Qed.
(** at the ends of a slab the basis is nodal, but for the last cubic function at 1 *)
Definition sf_one : spec_float := S754_finite false 4503599627370496 (-52).
Definition sf_one_plus : spec_float := S754_finite false 4503599627370497 (-52).
Lemma ends_val : value sf_one 1 /\ value sf_one_plus (1 + bpow radix2 (-52)) /\ value (S754_zero true) 0 /\ value (S754_zero false) 0.
Proof. repeat split; unfold SF2R, F2R; cbn; lra. Qed.
Lemma ok_pair {A B} (a c : A) (b d : B) : Ok (a, b) = Ok (c, d) -> c = a /\ d = b.
Proof. intro H. inversion H. auto. Qed.
Theorem C89_ends : forall q fs gs j, f_basis q = Ok (fs, gs) -> (Z.of_nat j <= q)%Z ->
  value (nth j fs (fun x => x) (fz 0)) (if Nat.eqb j 0 then 1 else 0) /\
  value (nth j fs (fun x => x) (fz 1)) (if Nat.eqb j (Z.to_nat q) then (if Nat.eqb j 3 then 1 + bpow radix2 (-52) else 1) else 0).
Proof.
  intros q fs gs j HF Hj.
  assert (H : (0 <= q <= 3)%Z).
  { destruct (Z_le_dec 0 q); [destruct (Z_le_dec q 3); [lia|]|]; destruct (f_basis_err q) as [Y _]; try lia; congruence. }
  destruct ends_val as [V1 [V2 [V3 V4]]].
  destruct (order_cases q H) as [->|[->|[->| ->]]]; cbv [f_basis] in HF; apply ok_pair in HF as [-> ->]; destruct j as [|[|[|[|j]]]]; try lia;
    split; match goal with |- value _ ?r => let r' := eval cbv [Nat.eqb Z.to_nat Pos.to_nat Pos.iter_op Nat.add] in r in change r with r' end;
    match goal with |- value ?x _ => let y := eval vm_compute in x in replace x with y by (vm_compute; reflexivity) end;
    match goal with
    | |- value (S754_zero true) _ => exact V3 | |- value (S754_zero false) _ => exact V4
    | |- value _ 1 => exact V1 | |- value _ _ => exact V2
    end.
Qed.
(** so a function equal to 1 at all nodes is evaluated as 1 + 2^-52 there *)
Theorem C89_ends_refuted : exists fs gs, f_basis 3 = Ok (fs, gs) /\ value (nth 3 fs (fun x => x) (fz 1)) (1 + bpow radix2 (-52)).
Proof. eexists. eexists. split; [reflexivity|]. apply (C89_ends 3 _ _ 3 eq_refl). lia. Qed.

(** ** The lifting of measured_errors *)
Definition ex_theta : fex := Mul (Mul (K 1) (Div (Sub X (K 0)) (-1))) (Div (Sub X (K 1)) (-2)).
Definition ex_d_theta : fex := Add (Add (K 0) (Mul (Quo 1 (-1)) (Div (Sub X (K 1)) (-2)))) (Mul (Quo 1 (-2)) (Div (Sub X (K 0)) (-1))).
Lemma minus_ones : fsub (fz (-1)) (fz 0) = fz (-1) /\ fsub (fz (-1)) (fz 1) = fz (-2). Proof. split; vm_compute; reflexivity. Qed.
Lemma theta_ex x : f_theta_ref x = evf ex_theta x /\ f_d_theta_ref x = evf ex_d_theta x.
Proof.
  destruct minus_ones as [A B]. unfold f_theta_ref, f_d_theta_ref, f_radau, ex_theta, ex_d_theta.
  cbn [fold_left seq nth List.length Nat.eqb negb evf]. rewrite A, B. split; reflexivity.
Qed.
Lemma theta_val t : theta_ref t = evr ex_theta t /\ d_theta_ref t = evr ex_d_theta t /\ evr ex_theta t = t * (t - 1) / 2 /\ evr ex_d_theta t = t - 1 / 2.
Proof.
  assert (E : evr ex_theta t = t * (t - 1) / 2 /\ evr ex_d_theta t = t - 1 / 2) by (cbn [ex_theta ex_d_theta evr]; split; field).
  destruct E as [E1 E2]. rewrite E1, E2. unfold theta_ref, d_theta_ref, pts_raudau_right. cbn [fold_left seq nth List.length Nat.eqb negb].
  repeat split; decimals; field.
Qed.
Theorem C89_theta : forall x t, value x t -> Rabs t <= 5 ->
  exists v w, value (f_theta_ref x) v /\ value (f_d_theta_ref x) w
    /\ Rabs (v - theta_ref t) <= bpow radix2 (-46) /\ Rabs (w - d_theta_ref t) <= bpow radix2 (-48).
Proof.
  intros x t Hx Ht. apply value_dbl in Hx. destruct (theta_ex x) as [-> ->]. destruct (theta_val t) as [-> [-> _]].
  assert (H3 : Rabs t <= Q2R (5 # 1)) by (unfold Q2R; cbn; lra).
  assert (F1 : fine (5 # 1) ex_theta = true) by (vm_compute; reflexivity). assert (F2 : fine (5 # 1) ex_d_theta = true) by (vm_compute; reflexivity).
  destruct (formula_near (5 # 1) ex_theta x t F1 Hx H3) as [_ [v [A1 A2]]]. destruct (formula_near (5 # 1) ex_d_theta x t F2 Hx H3) as [_ [w [B1 B2]]].
  exists v, w. split; [apply dbl_value, A1|]. split; [apply dbl_value, B1|].
  assert (L1 : Qle_bool (snd (bnd (5 # 1) ex_theta)) (1 # 2 ^ 46) = true) by (vm_compute; reflexivity).
  assert (L2 : Qle_bool (snd (bnd (5 # 1) ex_d_theta)) (1 # 2 ^ 48) = true) by (vm_compute; reflexivity).
  apply Qle_bool_iff, Qle_Rle in L1. apply Qle_bool_iff, Qle_Rle in L2. split.
  - apply Rle_trans with (1 := A2). apply Rle_trans with (1 := L1). unfold Q2R. cbn. lra.
  - apply Rle_trans with (1 := B2). apply Rle_trans with (1 := L2). unfold Q2R. cbn. lra.
Qed.
Lemma theta_lip a b L : Rabs a <= 5 -> Rabs b <= 5 -> Rabs (a - b) <= L ->
  Rabs (theta_ref a - theta_ref b) <= 11 / 2 * L /\ Rabs (d_theta_ref a - d_theta_ref b) <= L.
Proof.
  intros Ha Hb Hab. destruct (theta_val a) as [-> [-> [-> ->]]]. destruct (theta_val b) as [-> [-> [-> ->]]]. split.
  - replace (a * (a - 1) / 2 - b * (b - 1) / 2) with ((a + b - 1) / 2 * (a - b)) by field. rewrite Rabs_mult.
    apply Rmult_le_compat; auto using Rabs_pos. apply Rabs_le_inv in Ha, Hb. apply Rabs_le. lra.
  - replace (a - 1 / 2 - (b - 1 / 2)) with (a - b) by ring. exact Hab.
Qed.
(** theta_ref and its derivative as measured_errors evaluates them in slab n: at a quadrature
    point of the coordinate s, and at a sample in the slab *)
Theorem C89_lifting : forall T r N n z s, value T r -> bpow radix2 (-900) <= r <= bpow radix2 1000 ->
  (n < N)%nat -> (Z.of_nat N <= 2 ^ 50)%Z -> value z s -> 0 <= s <= 1 ->
  let y := f_reflect T N n (f_time T N n z) in
  exists c v w, value y c /\ value (f_theta_ref y) v /\ value (f_d_theta_ref y) w
    /\ Rabs (c - (2 * s - 1)) <= (5 * INR n + 28) * bpow radix2 (-53)
    /\ Rabs (v - theta_ref (2 * s - 1)) <= (28 * INR n + 290) * bpow radix2 (-53)
    /\ Rabs (w - d_theta_ref (2 * s - 1)) <= (5 * INR n + 60) * bpow radix2 (-53).
Proof.
  intros T r N n z s HT [H1 H2] Hn HN Hz Hs y. apply value_dbl in HT. apply value_dbl in Hz.
  destruct (reflect_trip T r N n HT H1 H2 ltac:(lia) HN Hn z s Hz Hs) as [c [A B]]. fold y in A. apply dbl_value in A.
  assert (NS : INR n <= 1125899906842624) by (rewrite INR_IZR_INZ; apply IZR_le; lia). pose proof (pos_INR n) as NP.
  assert (S3 : Rabs (2 * s - 1) <= 5) by (apply Rabs_le; lra).
  assert (C3 : Rabs c <= 5) by (pose proof (Rabs_le_inv _ _ B) as B'; apply Rabs_le; unfold u in B'; lra).
  destruct (C89_theta y c A C3) as [v [w [V [W [EV EW]]]]]. destruct (theta_lip c (2 * s - 1) _ C3 S3 B) as [L1 L2].
  assert (B49 : bpow radix2 (-46) = 128 * u) by (unfold u; cbn; lra). assert (B50 : bpow radix2 (-48) = 32 * u) by (unfold u; cbn; lra).
  rewrite B49 in EV. rewrite B50 in EW. exists c, v, w. rewrite u_eq. split; [exact A|]. split; [exact V|]. split; [exact W|]. split; [exact B|].
  assert (NU : 0 <= INR n * u) by (apply Rmult_le_pos; [exact NP|unfold u; lra]). assert (U0 : 0 < u) by (unfold u; lra). split.
  - replace (v - theta_ref (2 * s - 1)) with ((v - theta_ref c) + (theta_ref c - theta_ref (2 * s - 1))) by ring.
    apply Rle_trans with (1 := Rabs_triang _ _). lra.
  - replace (w - d_theta_ref (2 * s - 1)) with ((w - d_theta_ref c) + (d_theta_ref c - d_theta_ref (2 * s - 1))) by ring.
    apply Rle_trans with (1 := Rabs_triang _ _). lra.
Qed.
Theorem C89_lifting_sample : forall T r N n y f, value T r -> bpow radix2 (-900) <= r <= bpow radix2 1000 ->
  (n < N)%nat -> (Z.of_nat N <= 2 ^ 50)%Z -> value y f -> f_in_slab T N n y = true ->
  let s := (f - INR n * (r / INR N)) / (r / INR N) in let x := f_reflect T N n y in
  exists c v w, value x c /\ value (f_theta_ref x) v /\ value (f_d_theta_ref x) w
    /\ Rabs (c - (2 * s - 1)) <= (13 * INR n + 54) * bpow radix2 (-53)
    /\ Rabs (v - theta_ref (2 * s - 1)) <= (72 * INR n + 430) * bpow radix2 (-53)
    /\ Rabs (w - d_theta_ref (2 * s - 1)) <= (13 * INR n + 86) * bpow radix2 (-53).
Proof.
  intros T r N n y f HT [H1 H2] Hn HN Hy Hin s x. apply value_dbl in HT. apply value_dbl in Hy.
  assert (HN53 : (Z.of_nat N <= 2 ^ 53)%Z) by lia.
  unfold f_in_slab in Hin. apply andb_true_iff in Hin as [I1 I2].
  apply (fle_true _ _ _ _ (tn_ok T r N HT H1 H2 ltac:(lia) HN53 n Hn) Hy) in I1.
  apply (fle_true _ _ _ _ Hy (en_ok T r N HT H1 H2 ltac:(lia) HN53 n Hn)) in I2.
  destruct (reflect_sample T r N n HT H1 H2 ltac:(lia) HN Hn y f Hy (conj I1 I2)) as [c [A B]].
  destruct (sample_near T r N n HT H1 H2 ltac:(lia) HN Hn y f Hy (conj I1 I2)) as [a [_ [A1 A2]]].
  fold s in B, A2. fold x in A. apply dbl_value in A.
  assert (NS : INR n <= 1125899906842624) by (rewrite INR_IZR_INZ; apply IZR_le; lia). pose proof (pos_INR n) as NP.
  assert (S3 : Rabs (2 * s - 1) <= 5) by (apply Rabs_le_inv in A2; apply Rabs_le; clearbody s; unfold u in A1, A2; lra).
  assert (S4 : Rabs (2 * s - 1) <= 3) by (apply Rabs_le_inv in A2; apply Rabs_le; clearbody s; unfold u in A1, A2; lra).
  assert (C3 : Rabs c <= 5) by (pose proof (Rabs_le_inv _ _ B) as B'; apply Rabs_le_inv in S4; apply Rabs_le; clearbody s; unfold u in B'; lra).
  destruct (C89_theta x c A C3) as [v [w [V [W [EV EW]]]]]. destruct (theta_lip c (2 * s - 1) _ C3 S3 B) as [L1 L2].
  assert (B49 : bpow radix2 (-46) = 128 * u) by (unfold u; cbn; lra). assert (B50 : bpow radix2 (-48) = 32 * u) by (unfold u; cbn; lra).
  rewrite B49 in EV. rewrite B50 in EW. exists c, v, w. rewrite u_eq. split; [exact A|]. split; [exact V|]. split; [exact W|]. split; [exact B|].
  assert (NU : 0 <= INR n * u) by (apply Rmult_le_pos; [exact NP|unfold u; lra]). assert (U0 : 0 < u) by (unfold u; lra). split.
  - replace (v - theta_ref (2 * s - 1)) with ((v - theta_ref c) + (theta_ref c - theta_ref (2 * s - 1))) by ring.
    apply Rle_trans with (1 := Rabs_triang _ _). lra.
  - replace (w - d_theta_ref (2 * s - 1)) with ((w - d_theta_ref c) + (d_theta_ref c - d_theta_ref (2 * s - 1))) by ring.
    apply Rle_trans with (1 := Rabs_triang _ _). lra.
Qed.

(** ** The quadrature points of setup_rhs and measured_errors *)
Definition ex_half (e : fex) : fex := Mul (Mul (Quo 1 2) (Sub (K 1) (K 0))) e.
Definition ex_pt (e : fex) : fex := Add (ex_half e) (Mul (Quo 1 2) (Add (K 1) (K 0))).
Definition ex_wt (e : fex) : fex := Mul (Mul (Quo 1 2) (K 1)) e.
Definition ex_pts (k : Z) : list fex :=
  map (fun m => if (m =? -1000000)%Z then K (-1) else if (m <? 0)%Z then Neg (Quo (- m) 1000000) else Quo m 1000000)
    (if (k =? 4)%Z then [-1000000; -575319; 181066; 822824] else [-1000000; -720480; -167181; 446314; 885792])%Z.
Definition ex_wts (k : Z) : list fex :=
  map (fun m => Quo m 1000000) (if (k =? 4)%Z then [125000; 657689; 776387; 440924] else [80000; 446208; 623653; 562712; 287427])%Z.
Definition tight (e : fex) : bool := fine (1 # 1) e && Qle_bool (snd (bnd (1 # 1) e)) (1 # 2 ^ 50).
Lemma tight_near e : tight e = true -> exists v, is_dbl (evf e (fz 1)) v /\ Rabs (v - evr e 1) <= bpow radix2 (-50).
Proof.
  intro H. apply andb_true_iff in H as [H1 H2]. apply Qle_bool_iff, Qle_Rle in H2.
  destruct (formula_near (1 # 1) e (fz 1) 1 H1 (fz_ok 1 ltac:(lia))) as [_ [v [A B]]].
  - rewrite Rabs_R1. unfold Q2R. cbn. lra.
  - exists v. split; [exact A|]. apply Rle_trans with (1 := B). apply Rle_trans with (1 := H2). unfold Q2R. cbn. lra.
Qed.
(** The points are doubles in [0, 1] and, like the weights, within 2^-50 of the exact numbers
    of the tables; the first point is exactly 0. *)
Theorem C89_points : forall k qr ps ws pts wts, (k = 4 \/ k = 5)%Z -> QuadRule "Gauss-Radau"%string k = Ok qr -> f_gauss_radau k = Ok (ps, ws) ->
  current_pts qr 0 1 = Ok (Some pts) -> t_weights qr 1 = Ok (Some wts) ->
  let fp := f_current_pts ps (fz 0) (fz 1) in let fw := f_t_weights ws (fz 1) in
  List.length fp = List.length pts /\ List.length fw = List.length wts /\ value (nth 0 fp (fz 1)) 0 /\
  forall i, (Z.of_nat i < k)%Z ->
    (exists s, value (nth i fp (fz 0)) s /\ 0 <= s <= 1 /\ Rabs (s - nth i pts 0) <= bpow radix2 (-50)) /\
    (exists w, value (nth i fw (fz 0)) w /\ 0 < w /\ Rabs (w - nth i wts 0) <= bpow radix2 (-50)).
Proof.
  intros k qr ps ws pts wts Hk HQ HF HP HW fp fw.
  assert (EF : fp = map (fun e => evf (ex_pt e) (fz 1)) (ex_pts k) /\ fw = map (fun e => evf (ex_wt e) (fz 1)) (ex_wts k)).
  { destruct Hk as [-> | ->]; cbv [f_gauss_radau] in HF; apply ok_pair in HF as [-> ->]; split; reflexivity. }
  assert (ER : pts = map (fun e => evr (ex_pt e) 1) (ex_pts k) /\ wts = map (fun e => evr (ex_wt e) 1) (ex_wts k)).
  { destruct Hk as [-> | ->]; cbn in HQ; inversion HQ; subst qr; cbn in HP, HW; inversion HP; inversion HW; subst pts wts; clear;
      cbn [map ex_pts ex_wts ex_pt ex_half ex_wt evr Z.eqb Z.ltb Z.compare Pos.eqb Pos.compare Pos.compare_cont Z.opp CompOpp]; split; repeat (apply f_equal2; [decimals; field|]); reflexivity. }
  destruct EF as [-> ->]. destruct ER as [-> ->]. rewrite !map_length. split; [reflexivity|]. split; [reflexivity|].
  assert (LE : List.length (ex_pts k) = Z.to_nat k /\ List.length (ex_wts k) = Z.to_nat k) by (destruct Hk as [-> | ->]; split; reflexivity). destruct LE as [LP LW].
  assert (TP : forallb (fun e => tight (ex_pt e)) (ex_pts k) = true /\ forallb (fun e => tight (ex_wt e)) (ex_wts k) = true) by (destruct Hk as [-> | ->]; split; vm_compute; reflexivity).
  destruct TP as [TP TW]. rewrite forallb_forall in TP, TW.
  assert (Z0 : value (evf (ex_pt (K (-1))) (fz 1)) 0).
  { replace (evf (ex_pt (K (-1))) (fz 1)) with (S754_zero false) by (vm_compute; reflexivity). apply ends_val. }
  assert (Z1 : forall (A : Type) (f : fex -> A) (d : A), nth 0 (map f (ex_pts k)) d = f (K (-1))) by (intros; destruct Hk as [-> | ->]; reflexivity).
  split; [rewrite Z1; exact Z0|]. intros i Hi. assert (IP : (i < List.length (ex_pts k))%nat) by lia. assert (IW : (i < List.length (ex_wts k))%nat) by lia.
  split.
  - rewrite (nth_indep _ (fz 0) (evf (ex_pt X) (fz 1))), (nth_indep _ 0 (evr (ex_pt X) 1)) by (rewrite map_length; exact IP).
    rewrite (map_nth (fun e => evf (ex_pt e) (fz 1))), (map_nth (fun e => evr (ex_pt e) 1)).
    destruct i as [|i].
    + replace (nth 0 (ex_pts k) X) with (K (-1)) by (destruct Hk as [-> | ->]; reflexivity). exists 0. split; [exact Z0|]. split; [lra|].
      cbn [ex_pt ex_half evr]. rewrite Rabs_pos_eq; [|lra]. pose proof (bpow_ge_0 radix2 (-50)). lra.
    + destruct (tight_near _ (TP _ (nth_In _ X IP))) as [s [A B]]. exists s. split; [apply dbl_value, A|]. split; [|exact B].
      apply Rabs_le_inv in B. assert (E50 : bpow radix2 (-50) <= 1 / 1000) by (cbn; lra).
      assert (M : 1 / 1000 <= evr (ex_pt (nth (S i) (ex_pts k) X)) 1 <= 999 / 1000); [|lra].
      destruct Hk as [-> | ->]; destruct i as [|[|[|[|i]]]]; cbn in IP; try lia;
        cbn [nth map ex_pts ex_pt ex_half evr Z.eqb Z.ltb Z.compare Pos.eqb Pos.compare Pos.compare_cont Z.opp CompOpp]; lra.
  - rewrite (nth_indep _ (fz 0) (evf (ex_wt X) (fz 1))), (nth_indep _ 0 (evr (ex_wt X) 1)) by (rewrite map_length; exact IW).
    rewrite (map_nth (fun e => evf (ex_wt e) (fz 1))), (map_nth (fun e => evr (ex_wt e) 1)).
    destruct (tight_near _ (TW _ (nth_In _ X IW))) as [w [A B]]. exists w. split; [apply dbl_value, A|]. split; [|exact B].
    apply Rabs_le_inv in B. assert (E50 : bpow radix2 (-50) <= 1 / 1000) by (cbn; lra).
    assert (M : 1 / 500 <= evr (ex_wt (nth i (ex_wts k) X)) 1); [|lra].
    destruct Hk as [-> | ->]; destruct i as [|[|[|[|[|i]]]]]; cbn in IW; try lia; cbn [nth map ex_wts ex_wt evr Z.eqb Pos.eqb]; lra.
Qed.
(** There are no other tables in doubles. *)
Theorem C89_tables : forall k ps ws, f_gauss_radau k = Ok (ps, ws) -> (k = 4 \/ k = 5)%Z.
Proof.
  intros k ps ws. unfold f_gauss_radau.
  destruct k as [|[[[p|p|]|[p|p|]|]|[[p|p|]|[p|p|]|]|]|p]; intro H; first [left; reflexivity | right; reflexivity | discriminate H].
Qed.
(** On an interval with integer ends the reference points -1 and 1 give exactly the ends, and 0
    gives exactly the midpoint. *)
Lemma small_top m : (Z.abs m <= 2 ^ 53)%Z -> Rabs (IZR m) < top.
Proof.
  intro H. apply Rle_lt_trans with (bpow radix2 53); [rewrite <- abs_IZR; change (bpow radix2 53) with (IZR (2 ^ 53)); apply IZR_le; exact H|apply bpow_lt; lia].
Qed.
Lemma half_int x m : is_dbl x (IZR m) -> (Z.abs m <= 2 ^ 53)%Z -> is_dbl (fmul (fq 1 2) x) (IZR m / 2).
Proof.
  intros Hx H. assert (Q : is_dbl (fq 1 2) (1 / 2)).
  { replace (1 / 2) with (rnd (1 / 2)); [unfold fq; apply fdiv_ok; [apply (fz_ok 1); lia|apply (fz_ok 2); lia|lra|]|];
      (replace (1 / 2) with (bpow radix2 (-1)) by (cbn; lra)); rewrite rnd_id by (apply fmt_bpow; lia); [|reflexivity].
    rewrite Rabs_pos_eq by apply bpow_ge_0. apply bpow_lt. lia. }
  assert (E : rnd (1 / 2 * IZR m) = IZR m / 2).
  { replace (1 / 2 * IZR m) with (IZR m * bpow radix2 (-1)) by (cbn; lra). rewrite rnd_id by (apply fmt_int; lia). cbn. lra. }
  rewrite <- E. apply fmul_ok; [exact Q|exact Hx|]. rewrite E. pose proof (small_top m H).
  unfold Rdiv. rewrite Rabs_mult, (Rabs_pos_eq (/ 2)) by lra. pose proof (Rabs_pos (IZR m)). lra.
Qed.
Theorem C89_interval : forall a b m, (Z.abs a <= 2 ^ 50)%Z -> (Z.abs b <= 2 ^ 50)%Z -> (m = -1 \/ m = 0 \/ m = 1)%Z ->
  exists v, f_current_pts [fz m] (fz a) (fz b) = [v] /\ value v (IZR (b - a) / 2 * IZR m + IZR (b + a) / 2).
Proof.
  intros a b m Ha Hb Hm. eexists. split; [reflexivity|].
  assert (D1 : is_dbl (fsub (fz b) (fz a)) (IZR (b - a))).
  { assert (E : rnd (IZR b - IZR a) = IZR (b - a)) by (rewrite <- minus_IZR; replace (IZR (b - a)) with (IZR (b - a) * bpow radix2 0) by (cbn; lra); apply rnd_id, fmt_int; lia).
    rewrite <- E. apply fsub_ok; [apply fz_ok; lia|apply fz_ok; lia|]. rewrite E. apply small_top. lia. }
  assert (D2 : is_dbl (fadd (fz b) (fz a)) (IZR (b + a))).
  { assert (E : rnd (IZR b + IZR a) = IZR (b + a)) by (rewrite <- plus_IZR; replace (IZR (b + a)) with (IZR (b + a) * bpow radix2 0) by (cbn; lra); apply rnd_id, fmt_int; lia).
    rewrite <- E. apply fadd_ok; [apply fz_ok; lia|apply fz_ok; lia|]. rewrite E. apply small_top. lia. }
  apply half_int in D1; [|lia]. apply half_int in D2; [|lia].
  assert (BA : Rabs (IZR (b - a) / 2) < top /\ Rabs (IZR (b + a) / 2) < top).
  { pose proof (small_top (b - a) ltac:(lia)). pose proof (small_top (b + a) ltac:(lia)). pose proof (Rabs_pos (IZR (b - a))). pose proof (Rabs_pos (IZR (b + a))).
    unfold Rdiv. rewrite !Rabs_mult, (Rabs_pos_eq (/ 2)) by lra. lra. }
  assert (D3 : is_dbl (fmul (fmul (fq 1 2) (fsub (fz b) (fz a))) (fz m)) (IZR (b - a) / 2 * IZR m)).
  { assert (E : IZR (b - a) / 2 * IZR m = IZR ((b - a) * m) * bpow radix2 (-1)) by (rewrite mult_IZR; cbn; lra).
    assert (E' : rnd (IZR (b - a) / 2 * IZR m) = IZR (b - a) / 2 * IZR m) by (rewrite E; apply rnd_id, fmt_int; destruct Hm as [->|[->| ->]]; lia).
    rewrite <- E'. apply fmul_ok; [exact D1|apply fz_ok; destruct Hm as [->|[->| ->]]; lia|]. rewrite E', Rabs_mult.
    apply Rle_lt_trans with (2 := proj1 BA). rewrite <- (Rmult_1_r (Rabs _)) at 2. apply Rmult_le_compat_l; [apply Rabs_pos|].
    rewrite <- abs_IZR. apply IZR_le. destruct Hm as [->|[->| ->]]; cbn; lia. }
  apply dbl_value.
  assert (E : IZR (b - a) / 2 * IZR m + IZR (b + a) / 2 = IZR ((b - a) * m + (b + a)) * bpow radix2 (-1)) by (rewrite (plus_IZR ((b - a) * m)), mult_IZR; cbn; lra).
  assert (E' : rnd (IZR (b - a) / 2 * IZR m + IZR (b + a) / 2) = IZR (b - a) / 2 * IZR m + IZR (b + a) / 2) by (rewrite E; apply rnd_id, fmt_int; destruct Hm as [->|[->| ->]]; lia).
  rewrite <- E'. apply fadd_ok; [exact D3|exact D2|]. rewrite E', E, Rabs_mult, (Rabs_pos_eq (bpow radix2 (-1))) by apply bpow_ge_0.
  assert (Rabs (IZR ((b - a) * m + (b + a))) < top) by (apply small_top; destruct Hm as [->|[->| ->]]; lia).
  pose proof (Rabs_pos (IZR ((b - a) * m + (b + a)))). replace (bpow radix2 (-1)) with (1 / 2) by (cbn; lra). lra.
Qed.
(** So in slab n the five quadrature points of measured_errors give times, local coordinates
    and basis derivatives near the exact ones. *)
Theorem C89_measured : forall q fs gs phis dphis T r N n ps ws qr pts i j, f_basis q = Ok (fs, gs) -> basis_in_time q = Ok (phis, dphis) ->
  value T r -> bpow radix2 (-900) <= r <= bpow radix2 1000 -> (n < N)%nat -> (Z.of_nat N <= 2 ^ 50)%Z ->
  f_gauss_radau 5 = Ok (ps, ws) -> QuadRule "Gauss-Radau"%string 5 = Ok qr -> current_pts qr 0 1 = Ok (Some pts) ->
  (i < 5)%nat -> (Z.of_nat j <= q)%Z ->
  let y := f_local T N n (f_time T N n (nth i (f_current_pts ps (fz 0) (fz 1)) (fz 0))) in
  exists w, value (nth j gs (fun _ => y) y) w /\ Rabs (w - nth j dphis (fun _ => 0) (nth i pts 0)) <= (INR n + 23) * bpow radix2 (-45).
Proof.
  intros q fs gs phis dphis T r N n ps ws qr pts i j HF HB HT Hr Hn HN HG HQ HP Hi Hj y.
  assert (HW : exists wts, t_weights qr 1 = Ok (Some wts)) by (cbn in HQ; inversion HQ; eexists; reflexivity). destruct HW as [wts HW].
  destruct (C89_points 5 qr ps ws pts wts (or_intror eq_refl) HQ HG HP HW) as [_ [_ [_ CP]]].
  destruct (CP i ltac:(lia)) as [[s [S1 [S2 S3]]] _].
  destruct (C89_evaluated q fs gs phis dphis T r N n _ s j HF HB HT Hr Hn HN S1 S2 Hj) as [v [w [_ [W1 [_ W2]]]]]. fold y in W1.
  exists w. split; [exact W1|].
  assert (H : (0 <= q <= 3)%Z).
  { destruct (Z_le_dec 0 q); [destruct (Z_le_dec q 3); [lia|]|]; destruct (f_basis_err q) as [Y _]; try lia; congruence. }
  rewrite (basis_ex q H) in HB. injection HB as <- <-. destruct (same_length q H) as [L1 L2].
  assert (Jp : (j < List.length (fst (ex_basis q)))%nat) by lia. assert (Jd : (j < List.length (snd (ex_basis q)))%nat) by lia.
  assert (ED : nth j (map evr (snd (ex_basis q))) (fun _ => 0) = evr (nth j (snd (ex_basis q)) X)) by (rewrite (nth_indep _ (fun _ => 0) (evr X)) by (rewrite map_length; exact Jd); apply map_nth).
  rewrite ED in *. set (p := nth i pts 0) in *.
  assert (B50 : bpow radix2 (-50) = 8 * u) by (unfold u; cbn; lra). assert (B45 : bpow radix2 (-45) = 256 * u) by (unfold u; cbn; lra).
  rewrite B50 in S3. rewrite B45 in *.
  assert (Sb : Rabs s <= 5 / 4) by (apply Rabs_le; lra).
  assert (Pb : Rabs p <= 5 / 4) by (apply Rabs_le_inv in S3; apply Rabs_le; unfold u in S3; lra).
  pose proof (lipschitz _ _ 150 s p (fun t => proj1 (second_derive q j t H Jp)) (fun t Ht => proj2 (second_derive q j t H Jp) Ht) Sb Pb) as K2.
  replace (w - evr (nth j (snd (ex_basis q)) X) p) with ((w - evr (nth j (snd (ex_basis q)) X) s) + (evr (nth j (snd (ex_basis q)) X) s - evr (nth j (snd (ex_basis q)) X) p)) by ring.
  apply Rle_trans with (1 := Rabs_triang _ _). assert (U0 : 0 < u) by (unfold u; lra). lra.
Qed.

(** * The drivers: 1 and 1/2, 32 and 8 slabs *)
Theorem C89_nonvacuous : exists T z, value T (bpow radix2 0) /\ value z (IZR 3 * bpow radix2 (- 4))
  /\ (31 < Z.to_nat (2 ^ 5))%nat /\ ((Z.of_nat 31 + 1) * 2 ^ 4 <= 2 ^ 53)%Z /\ Rabs (IZR 3 * bpow radix2 (- 4)) <= 5 / 4
  /\ bpow radix2 (-900) <= bpow radix2 0 <= bpow radix2 1000.
Proof.
  exists (fz 1), (fq 3 16). split; [repeat split; unfold SF2R, F2R; cbn; lra|].
  split; [repeat split; unfold SF2R, F2R; cbn; lra|]. split; [cbn; lia|]. split; [reflexivity || (cbn; lia)|].
  split; [cbn; rewrite Rabs_pos_eq; lra|]. split; apply bpow_le; lia.
Qed.
(** with T = 1, N = 3, n = 2 the coordinate 0.1 does not come back *)
Theorem C89_not_exact : f_local (fz 1) 3 2 (f_time (fz 1) 3 2 (fq 1 10)) <> fq 1 10.
Proof. vm_compute. discriminate. Qed.

Print Assumptions C89_basis.
Print Assumptions C89_round_trip.
Print Assumptions C89_sample.
Print Assumptions C89_evaluated.
Print Assumptions C89_exact.
Print Assumptions C89_ends.
Print Assumptions C89_ends_refuted.
Print Assumptions C89_theta.
Print Assumptions C89_lifting.
Print Assumptions C89_lifting_sample.
Print Assumptions C89_points.
Print Assumptions C89_tables.
Print Assumptions C89_interval.
Print Assumptions C89_measured.
