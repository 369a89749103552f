(** Props_Monitor.v -- property C87: the convergence log. *)
From Coq Require Import List ZArith Bool String Ascii Floats.SpecFloat Numbers.DecimalString DecimalNat.
From Coq Require Import Reals Lra Lia.
From Verif Require Import Base TimeModel FormModel SpaceTimeForms SpaceTimeModel GmresModel MonitorModel QuadProofs.
Import ListNotations.
Open Scope Z_scope.

(** * Reading a line *)
Fixpoint strip (p s : string) : option string :=
  match p, s with
  | EmptyString, _ => Some s
  | String a p, String b s => if Ascii.eqb a b then strip p s else None
  | _, _ => None
  end.
Fixpoint skip_blanks (s : string) : string :=
  match s with String c t => if Ascii.eqb c " " then skip_blanks t else s | EmptyString => EmptyString end.
(** the text before and after the first comma *)
Fixpoint at_comma (s : string) : option (string * string) :=
  match s with
  | EmptyString => None
  | String c s => if Ascii.eqb c "," then Some (EmptyString, s)
                  else match at_comma s with Some (a, b) => Some (String c a, b) | None => None end
  end.
Definition read_nat (s : string) : option nat := option_map Nat.of_uint (NilZero.uint_of_string s).
Definition read_digit (c : ascii) : option Z :=
  let n := Z.of_nat (nat_of_ascii c) - 48 in if Z.leb 0 n && Z.leb n 9 then Some n else None.
(** D.DDe+XX or D.DDe-XX *)
Definition read_e (s : string) : option R :=
  match s with
  | String a (String b (String c (String d (String e (String f t))))) =>
      if Ascii.eqb b "." && Ascii.eqb e "e" then
        match read_digit a, read_digit c, read_digit d, read_nat t with
        | Some a, Some c, Some d, Some k =>
            let m := IZR (100 * a + 10 * c + d) in
            if Ascii.eqb f "+" then Some (m * powerRZ 10 (Z.of_nat k - 2))%R
            else if Ascii.eqb f "-" then Some (m * powerRZ 10 (- Z.of_nat k - 2))%R else None
        | _, _, _, _ => None
        end
      else None
  | _ => None
  end.
Definition read_line (s : string) : option (nat * R) :=
  match strip "GMRes iteration " s with
  | Some t => match at_comma t with
    | Some (a, b) => match strip " residual = " b with
      | Some c => match read_nat (skip_blanks a), read_e c with Some i, Some v => Some (i, v) | _, _ => None end
      | None => None end
    | None => None end
  | None => None
  end.

(** the value of a double *)
Definition fval (x : spec_float) : R :=
  match x with S754_finite s m e => ((if s then -1 else 1) * IZR (Zpos m) * powerRZ 2 e)%R | _ => 0%R end.
(** finite and not negative, as a norm is *)
Definition is_norm (x : spec_float) : bool :=
  match x with S754_finite s _ _ => negb s | S754_zero s => negb s | _ => false end.

(** * Rounding *)
Lemma p10_pos k : (0 < powerRZ 10 k)%R.
Proof. apply powerRZ_lt. lra. Qed.
Lemma p10_IZR k : 0 <= k -> IZR (10 ^ k) = powerRZ 10 k.
Proof.
  intro H. rewrite <- (Z2Nat.id k H). rewrite <- pow_powerRZ. rewrite pow_IZR, Z2Nat.id by lia.
  reflexivity.
Qed.
Lemma p10_add a b : powerRZ 10 (a + b) = (powerRZ 10 a * powerRZ 10 b)%R.
Proof. apply powerRZ_add. lra. Qed.
Lemma p10_inv a : (powerRZ 10 (- a) * powerRZ 10 a = 1)%R.
Proof. rewrite <- p10_add. replace (- a + a) with 0 by lia. reflexivity. Qed.
Lemma p10_mono a b : a <= b -> (powerRZ 10 a <= powerRZ 10 b)%R.
Proof.
  intro H. replace b with (a + (b - a)) by lia. rewrite p10_add.
  assert (1 <= powerRZ 10 (b - a))%R.
  { rewrite <- p10_IZR by lia. apply IZR_le. assert (0 < 10 ^ (b - a)) by (apply Z.pow_pos_nonneg; lia). lia. }
  pose proof (p10_pos a). nra.
Qed.

Lemma p10_1 : powerRZ 10 1 = 10%R.
Proof. rewrite <- p10_IZR by lia. reflexivity. Qed.
Lemma p10_2 : powerRZ 10 2 = 100%R.
Proof. rewrite <- p10_IZR by lia. reflexivity. Qed.
Lemma p10_3 : powerRZ 10 3 = 1000%R.
Proof. rewrite <- p10_IZR by lia. reflexivity. Qed.

Lemma pow10_le_spec k n d : 0 < n -> 0 < d -> pow10_le k n d = true <-> (powerRZ 10 k * IZR d <= IZR n)%R.
Proof.
  intros Hn Hd. unfold pow10_le. destruct (Z.leb_spec 0 k) as [Hk|Hk]; rewrite Z.leb_le.
  - rewrite <- p10_IZR by exact Hk. rewrite <- mult_IZR. rewrite Z.mul_comm. split; [apply IZR_le|apply le_IZR].
  - pose proof (p10_inv k) as HI. pose proof (p10_pos k) as HP. pose proof (p10_pos (- k)) as HM.
    assert (E : IZR (n * 10 ^ (- k)) = (IZR n * powerRZ 10 (- k))%R) by (rewrite mult_IZR, p10_IZR by lia; reflexivity).
    split; intro H.
    + apply IZR_le in H. rewrite E in H. apply (Rmult_le_compat_l (powerRZ 10 k)) in H; [|lra].
      replace (powerRZ 10 k * (IZR n * powerRZ 10 (- k)))%R with (IZR n * (powerRZ 10 (- k) * powerRZ 10 k))%R in H by ring.
      rewrite HI in H. lra.
    + apply le_IZR. rewrite E. apply (Rmult_le_compat_l (powerRZ 10 (- k))) in H; [|lra].
      replace (powerRZ 10 (- k) * (powerRZ 10 k * IZR d))%R with (IZR d * (powerRZ 10 (- k) * powerRZ 10 k))%R in H by ring.
      rewrite HI in H. lra.
Qed.
Lemma climb_spec fuel : forall k n d, pow10_le k n d = true -> pow10_le (k + Z.of_nat fuel) n d = false ->
  pow10_le (climb fuel k n d) n d = true /\ pow10_le (climb fuel k n d + 1) n d = false.
Proof.
  induction fuel as [|fuel IH]; intros k n d H1 H2.
  - rewrite Z.add_0_r in H2. congruence.
  - cbn [climb]. destruct (pow10_le (k + 1) n d) eqn:E; [|split; assumption].
    apply IH; [exact E|]. replace (k + 1 + Z.of_nat fuel) with (k + Z.of_nat (S fuel)) by lia. exact H2.
Qed.
Lemma two_ten a : 0 <= a -> 2 ^ a <= 10 ^ a.
Proof. intro H. apply Z.pow_le_mono_l. lia. Qed.
Lemma dec_exp_spec n d : 0 < n -> 0 < d ->
  (powerRZ 10 (dec_exp n d) * IZR d <= IZR n < powerRZ 10 (dec_exp n d + 1) * IZR d)%R.
Proof.
  intros Hn Hd. pose proof (Z.log2_nonneg n) as Ln. pose proof (Z.log2_nonneg d) as Ld.
  pose proof (Z.log2_spec n Hn) as Sn. pose proof (Z.log2_spec d Hd) as Sd.
  destruct (climb_spec (Z.to_nat (Z.log2 d + Z.log2 n + 3)) (- Z.log2 d - 1) n d) as [H1 H2].
  - unfold pow10_le. destruct (Z.leb_spec 0 (- Z.log2 d - 1)); [lia|]. apply Z.leb_le.
    replace (- (- Z.log2 d - 1)) with (Z.succ (Z.log2 d)) by lia.
    pose proof (two_ten (Z.succ (Z.log2 d)) ltac:(lia)). nia.
  - rewrite Z2Nat.id by lia. replace (- Z.log2 d - 1 + (Z.log2 d + Z.log2 n + 3)) with (Z.succ (Z.log2 n) + 1) by lia.
    unfold pow10_le. destruct (Z.leb_spec 0 (Z.succ (Z.log2 n) + 1)); [|lia]. apply Z.leb_gt.
    pose proof (two_ten (Z.succ (Z.log2 n)) ltac:(lia)).
    assert (10 ^ Z.succ (Z.log2 n) <= 10 ^ (Z.succ (Z.log2 n) + 1)) by (apply Z.pow_le_mono_r; lia). nia.
  - fold (dec_exp n d) in H1, H2. split; [apply pow10_le_spec; assumption|].
    apply Rnot_le_lt. intro H. apply pow10_le_spec in H; [congruence|assumption|assumption].
Qed.

(** nearest integer, ties to even *)
Definition nearest_even (y : R) (r : Z) : Prop :=
  (Rabs (IZR r - y) <= 1 / 2)%R /\ (Rabs (IZR r - y) = 1 / 2 -> Z.even r = true)%R.
Lemma round_even_spec n d : 0 < d -> nearest_even (IZR n / IZR d) (round_even n d).
Proof.
  intro Hd. pose proof (Z.div_mod n d ltac:(lia)) as E. pose proof (Z.mod_pos_bound n d Hd) as B.
  assert (Hd' : (0 < IZR d)%R) by (apply IZR_lt; exact Hd).
  set (q := n / d) in *. set (r := n mod d) in *.
  assert (Y : (IZR n / IZR d = IZR q + IZR r / IZR d)%R).
  { rewrite E, plus_IZR, mult_IZR. field. lra. }
  assert (B1 : (0 <= IZR r / IZR d)%R) by (apply Rle_mult_inv_pos; [apply IZR_le; lia|exact Hd']).
  assert (K : forall a, (IZR r / IZR d < a <-> IZR r < a * IZR d)%R).
  { intro a. split; intro H.
    - apply (Rmult_lt_compat_r (IZR d)) in H; [|exact Hd']. unfold Rdiv in H. rewrite Rmult_assoc, Rinv_l in H by lra. lra.
    - apply (Rmult_lt_reg_r (IZR d)); [exact Hd'|]. unfold Rdiv. rewrite Rmult_assoc, Rinv_l by lra. lra. }
  assert (K' : forall a, (a < IZR r / IZR d <-> a * IZR d < IZR r)%R).
  { intro a. split; intro H.
    - apply (Rmult_lt_compat_r (IZR d)) in H; [|exact Hd']. unfold Rdiv in H. rewrite Rmult_assoc, Rinv_l in H by lra. lra.
    - apply (Rmult_lt_reg_r (IZR d)); [exact Hd'|]. unfold Rdiv. rewrite Rmult_assoc, Rinv_l by lra. lra. }
  assert (B2 : (IZR r / IZR d < 1)%R) by (apply K; rewrite Rmult_1_l; apply IZR_lt; lia).
  unfold round_even. fold q r. rewrite Y. unfold nearest_even.
  destruct (Z.ltb_spec (2 * r) d) as [H|H].
  - assert (IZR r / IZR d < 1 / 2)%R by (apply K; apply IZR_lt in H; rewrite mult_IZR in H; lra).
    rewrite Rabs_left1 by lra. split; [lra|intro; lra].
  - destruct (Z.ltb_spec d (2 * r)) as [H'|H'].
    + assert (1 / 2 < IZR r / IZR d)%R by (apply K'; apply IZR_lt in H'; rewrite mult_IZR in H'; lra).
      rewrite plus_IZR, Rabs_right by lra. split; [lra|intro; lra].
    + assert (Eh : (IZR r / IZR d = 1 / 2)%R).
      { assert (Ed : IZR d = (2 * IZR r)%R) by (rewrite <- mult_IZR; apply f_equal; lia). rewrite Ed in *. field. lra. }
      rewrite Eh. destruct (Z.even q) eqn:Ev.
      * rewrite Rabs_left1 by lra. split; [lra|intro; exact Ev].
      * rewrite plus_IZR, Rabs_right by lra. split; [lra|intro]. rewrite Z.even_add, Ev. reflexivity.
Qed.
Lemma nearest_even_mono y y' r r' : (y <= y')%R -> nearest_even y r -> nearest_even y' r' -> r <= r'.
Proof.
  intros H [A1 A2] [B1 B2]. destruct (Z.le_gt_cases r r') as [|C]; [assumption|exfalso].
  pose proof (IZR_le (r' + 1) r ltac:(lia)) as D. rewrite plus_IZR in D.
  assert (y = y' /\ IZR r - y = 1 / 2 /\ y' - IZR r' = 1 / 2)%R as [_ [E1 E2]].
  { unfold Rabs in A1, B1. destruct (Rcase_abs _), (Rcase_abs _); repeat split; lra. }
  rewrite Rabs_right in A2 by lra. rewrite Rabs_minus_sym, Rabs_right in B2 by lra.
  assert (r = r' + 1).
  { apply eq_IZR. rewrite plus_IZR. unfold Rabs in A1, B1. destruct (Rcase_abs _), (Rcase_abs _); lra. }
  subst r. specialize (A2 E1). specialize (B2 E2). rewrite Z.even_add, B2 in A2. discriminate.
Qed.
Lemma nearest_even_int y z : forall r, nearest_even y r -> (Rabs (IZR r - y) <= Rabs (IZR z - y))%R.
Proof.
  intros r [A _]. destruct (Z.eq_dec z r) as [->|Hne]; [lra|].
  assert (1 <= Rabs (IZR z - IZR r))%R.
  { rewrite <- minus_IZR, <- abs_IZR. apply IZR_le. lia. }
  unfold Rabs in *. repeat destruct (Rcase_abs _); lra.
Qed.

(** * Three digits *)
Section Digits.
  Variables n d : Z.
  Hypothesis Hn : 0 < n.
  Hypothesis Hd : 0 < d.
  Notation x := (IZR n / IZR d)%R.
  Notation k := (dec_exp n d).
  Definition rawD : Z := round_even (n * 10 ^ Z.max 0 (2 - k)) (d * 10 ^ Z.max 0 (k - 2)).
  Lemma IZRd : (0 < IZR d)%R.
  Proof. apply IZR_lt. exact Hd. Qed.
  Lemma x_range : (powerRZ 10 k <= x < powerRZ 10 (k + 1))%R.
  Proof.
    pose proof IZRd as Hd'. destruct (dec_exp_spec n d Hn Hd) as [A B]. split.
    - apply (Rmult_le_reg_r (IZR d)); [exact Hd'|]. unfold Rdiv. rewrite Rmult_assoc, Rinv_l by lra. lra.
    - apply (Rmult_lt_reg_r (IZR d)); [exact Hd'|]. unfold Rdiv. rewrite Rmult_assoc, Rinv_l by lra. lra.
  Qed.
  Lemma raw_nearest : nearest_even (x * powerRZ 10 (2 - k)) rawD.
  Proof.
    pose proof IZRd as Hd'.
    assert (E : (x * powerRZ 10 (2 - k) = IZR (n * 10 ^ Z.max 0 (2 - k)) / IZR (d * 10 ^ Z.max 0 (k - 2)))%R).
    { rewrite !mult_IZR, !p10_IZR by lia. destruct (Z.le_ge_cases 2 k) as [H|H].
      - rewrite (Z.max_l 0 (2 - k)), (Z.max_r 0 (k - 2)) by lia.
        pose proof (p10_inv (k - 2)) as HI. replace (- (k - 2)) with (2 - k) in HI by lia.
        pose proof (p10_pos (k - 2)) as HP. change (powerRZ 10 0) with 1%R.
        apply (Rmult_eq_reg_r (powerRZ 10 (k - 2))); [|lra].
        transitivity (x * (powerRZ 10 (2 - k) * powerRZ 10 (k - 2)))%R; [ring|]. rewrite HI. field. split; lra.
      - rewrite (Z.max_r 0 (2 - k)), (Z.max_l 0 (k - 2)) by lia. change (powerRZ 10 0) with 1%R. field. lra. }
    rewrite E. apply round_even_spec. assert (0 < 10 ^ Z.max 0 (k - 2)) by (apply Z.pow_pos_nonneg; lia). nia.
  Qed.
  Lemma scaled : (100 <= x * powerRZ 10 (2 - k) < 1000)%R.
  Proof.
    destruct x_range as [A B]. pose proof (p10_pos (2 - k)) as HP.
    assert (E1 : (powerRZ 10 k * powerRZ 10 (2 - k) = 100)%R).
    { rewrite <- p10_add. replace (k + (2 - k)) with 2 by lia. exact p10_2. }
    assert (E2 : (powerRZ 10 (k + 1) * powerRZ 10 (2 - k) = 1000)%R).
    { rewrite <- p10_add. replace (k + 1 + (2 - k)) with 3 by lia. exact p10_3. }
    nra.
  Qed.
  Lemma raw_range : 100 <= rawD <= 1000.
  Proof.
    pose proof scaled as [A B]. split.
    - apply (nearest_even_mono 100 (x * powerRZ 10 (2 - k)) 100 rawD A); [|apply raw_nearest].
      split; [rewrite Rminus_diag_eq, Rabs_R0 by reflexivity; lra|reflexivity].
    - apply (nearest_even_mono (x * powerRZ 10 (2 - k)) 1000 rawD 1000); [lra|apply raw_nearest|].
      split; [rewrite Rminus_diag_eq, Rabs_R0 by reflexivity; lra|reflexivity].
  Qed.
  (** the digits and the exponent printed, and the number they stand for *)
  Lemma three_digits_spec : let '(D, k') := three_digits n d in
    100 <= D <= 999 /\ k <= k' <= k + 1 /\ (IZR D * powerRZ 10 (k' - 2) = IZR rawD * powerRZ 10 (k - 2))%R.
  Proof.
    unfold three_digits. fold rawD. pose proof raw_range. destruct (Z.eqb_spec rawD 1000) as [E|E].
    - split; [lia|]. split; [lia|]. rewrite E. replace (k + 1 - 2) with (1 + (k - 2)) by lia. rewrite p10_add, ?p10_1, ?p10_2, ?p10_3.
      lra.
    - split; [lia|]. split; [lia|reflexivity].
  Qed.
  Definition shown : R := (IZR rawD * powerRZ 10 (k - 2))%R.
  Lemma unscale : (x = x * powerRZ 10 (2 - k) * powerRZ 10 (k - 2))%R.
  Proof.
    rewrite Rmult_assoc. replace (2 - k) with (- (k - 2)) by lia. rewrite p10_inv. ring.
  Qed.
  Lemma shown_diff z : (IZR z * powerRZ 10 (k - 2) - x = (IZR z - x * powerRZ 10 (2 - k)) * powerRZ 10 (k - 2))%R.
  Proof. rewrite unscale at 1. ring. Qed.
  Lemma shown_close : (Rabs (shown - x) <= 1 / 200 * x)%R.
  Proof.
    unfold shown. rewrite shown_diff, Rabs_mult, (Rabs_right (powerRZ 10 (k - 2))) by (apply Rle_ge, Rlt_le, p10_pos).
    destruct raw_nearest as [A _]. pose proof (p10_pos (k - 2)) as HP. pose proof scaled as [S1 _].
    rewrite unscale at 2. set (y := (x * powerRZ 10 (2 - k))%R) in *. nra.
  Qed.
  (** no number with at most three digits is nearer *)
  Lemma shown_nearest D j : 0 <= D <= 999 -> (Rabs (shown - x) <= Rabs (IZR D * powerRZ 10 j - x))%R.
  Proof.
    intro HD. pose proof (p10_pos (k - 2)) as HP.
    assert (G : forall z, (Rabs (shown - x) <= Rabs (IZR z * powerRZ 10 (k - 2) - x))%R).
    { intro z. unfold shown. rewrite !shown_diff, !Rabs_mult. apply Rmult_le_compat_r; [apply Rabs_pos|].
      apply nearest_even_int, raw_nearest. }
    destruct (Z.le_gt_cases (k - 2) j) as [H|H].
    - specialize (G (D * 10 ^ (j - (k - 2)))). rewrite mult_IZR, p10_IZR, Rmult_assoc, <- p10_add in G by lia.
      replace (j - (k - 2) + (k - 2)) with j in G by lia. exact G.
    - specialize (G 100). eapply Rle_trans; [exact G|].
      pose proof x_range as [A _].
      assert (E1 : (100 * powerRZ 10 (k - 2) = powerRZ 10 k)%R).
      { replace k with (2 + (k - 2)) at 2 by lia. rewrite p10_add, ?p10_1, ?p10_2, ?p10_3. lra. }
      assert (E2 : (powerRZ 10 j <= powerRZ 10 (k - 3))%R) by (apply p10_mono; lia).
      assert (E3 : (powerRZ 10 (k - 2) = 10 * powerRZ 10 (k - 3))%R).
      { replace (k - 2) with (1 + (k - 3)) by lia. rewrite p10_add, ?p10_1, ?p10_2, ?p10_3. lra. }
      pose proof (p10_pos (k - 3)) as HP3. pose proof (p10_pos j) as HPj.
      assert (HD' : (0 <= IZR D <= 999)%R) by (split; apply IZR_le; lia).
      assert (E4 : (IZR D * powerRZ 10 j <= 999 * powerRZ 10 (k - 3))%R) by nra.
      rewrite Rabs_left1 by lra. rewrite Rabs_left1 by lra. lra.
  Qed.
  Lemma shown_range : (powerRZ 10 k <= shown <= powerRZ 10 (k + 1))%R.
  Proof.
    unfold shown. pose proof raw_range as [A B]. pose proof (p10_pos (k - 2)) as HP.
    apply IZR_le in A, B.
    assert (E1 : (100 * powerRZ 10 (k - 2) = powerRZ 10 k)%R).
    { replace k with (2 + (k - 2)) at 2 by lia. rewrite p10_add, ?p10_1, ?p10_2, ?p10_3. lra. }
    assert (E2 : (1000 * powerRZ 10 (k - 2) = powerRZ 10 (k + 1))%R).
    { replace (k + 1) with (3 + (k - 2)) by lia. rewrite p10_add, ?p10_1, ?p10_2, ?p10_3. lra. }
    nra.
  Qed.
End Digits.
Lemma shown_mono n d n' d' : 0 < n -> 0 < d -> 0 < n' -> 0 < d' -> (IZR n / IZR d <= IZR n' / IZR d')%R ->
  (shown n d <= shown n' d')%R.
Proof.
  intros Hn Hd Hn' Hd' H.
  pose proof (x_range n d Hn Hd) as [A1 A2]. pose proof (x_range n' d' Hn' Hd') as [B1 B2].
  assert (K : dec_exp n d <= dec_exp n' d').
  { destruct (Z.le_gt_cases (dec_exp n d) (dec_exp n' d')) as [|C]; [assumption|exfalso].
    pose proof (p10_mono (dec_exp n' d' + 1) (dec_exp n d) ltac:(lia)). lra. }
  destruct (Z.eq_dec (dec_exp n d) (dec_exp n' d')) as [E|E].
  - unfold shown. rewrite <- E. pose proof (p10_pos (dec_exp n d - 2)) as HP.
    apply Rmult_le_compat_r; [lra|]. apply IZR_le.
    pose proof (raw_nearest n d Hd) as R1. pose proof (raw_nearest n' d' Hd') as R2. rewrite <- E in R2.
    apply (nearest_even_mono _ _ _ _ ltac:(apply Rmult_le_compat_r; [apply Rlt_le, p10_pos|exact H]) R1 R2).
  - pose proof (shown_range n d Hn Hd) as [_ C]. pose proof (shown_range n' d' Hn' Hd') as [C' _].
    pose proof (p10_mono (dec_exp n d + 1) (dec_exp n' d') ltac:(lia)). lra.
Qed.

(** * The text *)
Definition is_digit (c : ascii) : bool := let n := nat_of_ascii c in Nat.leb 48 n && Nat.leb n 57.
Fixpoint all_digits (s : string) : bool := match s with EmptyString => true | String c s => is_digit c && all_digits s end.
Lemma uint_digits u : all_digits (NilEmpty.string_of_uint u) = true.
Proof. induction u; cbn; auto. Qed.
Lemma show_nat_ne n : show_nat n = NilEmpty.string_of_uint (Nat.to_uint n).
Proof.
  unfold show_nat, NilZero.string_of_uint. destruct (Nat.to_uint n) eqn:E; try reflexivity.
  pose proof (Unsigned.of_to n) as H. rewrite E in H. cbn in H. subst n. discriminate.
Qed.
Lemma show_nat_digits n : all_digits (show_nat n) = true.
Proof. rewrite show_nat_ne. apply uint_digits. Qed.
Lemma show_nat_read n : read_nat (show_nat n) = Some n.
Proof.
  unfold read_nat, show_nat. rewrite NilZero.usu.
  - cbn. rewrite Unsigned.of_to. reflexivity.
  - intro E. pose proof (Unsigned.of_to n) as H. rewrite E in H. cbn in H. subst n. discriminate.
Qed.
Lemma show_nat_cons n : exists c s, show_nat n = String c s.
Proof.
  rewrite show_nat_ne. destruct (Nat.to_uint n) eqn:E; cbn; eauto.
  pose proof (Unsigned.of_to n) as H. rewrite E in H. cbn in H. subst n. discriminate.
Qed.
Lemma read_zero n : read_nat (String "0" (show_nat n)) = Some n.
Proof.
  unfold read_nat. rewrite show_nat_ne.
  change (String "0" (NilEmpty.string_of_uint (Nat.to_uint n))) with (NilZero.string_of_uint (Decimal.D0 (Nat.to_uint n))).
  rewrite NilZero.usu by discriminate. cbn.
  transitivity (Some (Nat.of_uint (Nat.to_uint n))); [reflexivity|]. rewrite Unsigned.of_to. reflexivity.
Qed.
Lemma digit_neq c : is_digit c = true -> Ascii.eqb c " " = false /\ Ascii.eqb c "," = false.
Proof.
  destruct c as [[] [] [] [] [] [] [] []]; cbn; intro H; split; (reflexivity || discriminate).
Qed.
Lemma skip_show n w : skip_blanks (blanks w ++ show_nat n) = show_nat n.
Proof.
  induction w as [|w IH]; [|exact IH]. cbn [blanks append]. destruct (show_nat_cons n) as [c [s E]].
  pose proof (show_nat_digits n) as H. rewrite E in *. cbn [all_digits] in H. apply andb_true_iff in H as [H _].
  cbn [skip_blanks]. rewrite (proj1 (digit_neq c H)). reflexivity.
Qed.
Lemma comma_digits s t : all_digits s = true -> at_comma (s ++ String "," t) = Some (s, t).
Proof.
  induction s as [|c s IH]; intro H; [reflexivity|]. cbn [all_digits] in H. apply andb_true_iff in H as [H1 H2].
  cbn [append at_comma]. rewrite (proj2 (digit_neq c H1)), (IH H2). reflexivity.
Qed.
Lemma comma_blanks w s t : all_digits s = true -> at_comma ((blanks w ++ s) ++ String "," t) = Some (blanks w ++ s, t)%string.
Proof.
  intro H. induction w as [|w IH]; [apply comma_digits, H|]. cbn [blanks append at_comma]. rewrite IH. reflexivity.
Qed.
Lemma read_digit_digit z : 0 <= z <= 9 -> read_digit (digit z) = Some z.
Proof.
  intro H. assert (z = 0 \/ z = 1 \/ z = 2 \/ z = 3 \/ z = 4 \/ z = 5 \/ z = 6 \/ z = 7 \/ z = 8 \/ z = 9) as C by lia.
  repeat (destruct C as [->|C]; [reflexivity|]). subst z. reflexivity.
Qed.
Lemma read_exponent m : read_nat (let x := show_nat m in if Nat.ltb (String.length x) 2 then String "0" x else x) = Some m.
Proof. cbv zeta. destruct (Nat.ltb _ _); [apply read_zero|apply show_nat_read]. Qed.
Lemma read_show_e D k : 0 <= D <= 999 -> read_e (show_e D k) = Some (IZR D * powerRZ 10 (k - 2))%R.
Proof.
  intro HD. unfold read_e, show_e. cbn [Ascii.eqb Bool.eqb andb].
  rewrite !read_digit_digit.
  2: { pose proof (Z.mod_pos_bound D 10). lia. }
  2: { pose proof (Z.mod_pos_bound (D / 10) 10). lia. }
  2: { split; [apply Z.div_pos; lia|]. assert (D / 100 < 10) by (apply Z.div_lt_upper_bound; lia). lia. }
  rewrite read_exponent.
  assert (E : 100 * (D / 100) + 10 * (D / 10 mod 10) + D mod 10 = D).
  { replace (D / 100) with (D / 10 / 10) by (rewrite Z.div_div by lia; reflexivity).
    pose proof (Z.div_mod D 10 ltac:(lia)). pose proof (Z.div_mod (D / 10) 10 ltac:(lia)). lia. }
  cbv zeta. rewrite E. destruct (Z.ltb_spec k 0) as [Hk|Hk]; cbn [Ascii.eqb Bool.eqb].
  - rewrite Z2Nat.id by lia. replace (- Z.abs k - 2) with (k - 2) by lia. reflexivity.
  - rewrite Z2Nat.id by lia. replace (Z.abs k - 2) with (k - 2) by lia. reflexivity.
Qed.
Lemma blanks_append a b : blanks (a + b) = (blanks a ++ blanks b)%string.
Proof. induction a; cbn; congruence. Qed.
Lemma len_app a b : String.length (a ++ b) = (String.length a + String.length b)%nat.
Proof. induction a; cbn; congruence. Qed.
Lemma show_e_long D k : (8 <= String.length (show_e D k))%nat.
Proof.
  unfold show_e. cbn [String.length]. destruct (show_nat_cons (Z.to_nat (Z.abs k))) as [c [s ->]].
  cbn [String.length]. cbv zeta. destruct (Nat.ltb_spec (S (String.length s)) 2); cbn [String.length]; lia.
Qed.
Lemma rjust_long w s : (w <= String.length s)%nat -> rjust w s = s.
Proof. intro H. unfold rjust. replace (w - String.length s)%nat with 0%nat by lia. reflexivity. Qed.

(** what is printed of a finite number that is not negative *)
Definition shown_of (x : spec_float) : R :=
  match x with S754_finite _ m e => let '(n, d) := frac m e in shown n d | _ => 0%R end.
Lemma frac_spec m e : let '(n, d) := frac m e in 0 < n /\ 0 < d /\ (IZR n / IZR d = IZR (Zpos m) * powerRZ 2 e)%R.
Proof.
  unfold frac. destruct (Z.leb_spec 0 e) as [H|H].
  - split; [apply Z.mul_pos_pos; [lia|apply Z.pow_pos_nonneg; lia]|]. split; [lia|].
    rewrite mult_IZR. rewrite <- (Z2Nat.id e H) at 1. rewrite <- pow_IZR, pow_powerRZ, Z2Nat.id by lia. field.
  - split; [lia|]. split; [apply Z.pow_pos_nonneg; lia|].
    rewrite <- (Z2Nat.id (- e)) at 1 by lia. rewrite <- pow_IZR, pow_powerRZ, Z2Nat.id by lia.
    rewrite powerRZ_neg'. unfold Rdiv. rewrite Rinv_inv. reflexivity.
Qed.
Lemma format_read x : is_norm x = true -> read_e (format_e x) = Some (shown_of x).
Proof.
  destruct x as [s|s| |s m e]; cbn [is_norm]; try discriminate; intro H; apply negb_true_iff in H; subst s; unfold format_e, shown_of.
  - rewrite rjust_long by (cbn; lia). cbn [append]. rewrite read_show_e by lia. f_equal. ring.
  - pose proof (frac_spec m e) as F. destruct (frac m e) as [n d]. destruct F as [Hn [Hd _]].
    pose proof (three_digits_spec n d Hn Hd) as T. destruct (three_digits n d) as [D k]. destruct T as [HD [_ E]].
    cbn [append]. rewrite rjust_long by (pose proof (show_e_long D k); lia).
    rewrite read_show_e by lia. rewrite E. reflexivity.
Qed.
Lemma app_assoc_s (a b c : string) : ((a ++ b) ++ c = a ++ (b ++ c))%string.
Proof. induction a; cbn; congruence. Qed.
Lemma line_read i x : is_norm x = true -> read_line (monitor_line i x) = Some (i, shown_of x).
Proof.
  intro H. unfold read_line, monitor_line.
  set (t := (rjust 3 (show_nat i) ++ ", residual = " ++ format_e x)%string).
  replace (strip "GMRes iteration " ("GMRes iteration " ++ t)%string) with (Some t) by reflexivity.
  unfold t, rjust. cbn [append]. rewrite comma_blanks by apply show_nat_digits.
  set (f := format_e x) in *. cbn [strip Ascii.eqb Bool.eqb]. rewrite skip_show, show_nat_read.
  unfold f. rewrite format_read by exact H. reflexivity.
Qed.
Lemma fval_norm x : is_norm x = true -> (0 <= fval x)%R.
Proof.
  destruct x as [s|s| |s m e]; cbn [is_norm fval]; intro H; try lra. apply negb_true_iff in H; subst s.
  pose proof (powerRZ_lt 2 e ltac:(lra)). pose proof (IZR_lt 0 (Zpos m) ltac:(lia)). nra.
Qed.

(** ** A line, read back, gives the iteration and the residual norm to half a per cent;
    no number of at most three digits is nearer *)
Theorem C87_line : forall its x, is_norm x = true -> exists v,
  read_line (monitor_line its x) = Some (its, v)
  /\ (Rabs (v - fval x) <= 1 / 200 * fval x)%R
  /\ (forall D j, 0 <= D <= 999 -> (Rabs (v - fval x) <= Rabs (IZR D * powerRZ 10 j - fval x))%R).
Proof.
  intros its x H. exists (shown_of x). split; [apply line_read, H|].
  destruct x as [s|s| |s m e]; cbn [is_norm] in H; try discriminate; apply negb_true_iff in H; subst s; unfold shown_of, fval.
  - rewrite Rminus_diag_eq, Rabs_R0 by reflexivity. split; [lra|]. intros. apply Rabs_pos.
  - pose proof (frac_spec m e) as F. destruct (frac m e) as [n d]. destruct F as [Hn [Hd E]].
    rewrite Rmult_1_l, <- E. split; [apply shown_close; assumption|]. intros D j HD. apply shown_nearest; assumption.
Qed.
(** larger residuals are not printed as smaller ones *)
Theorem C87_order : forall i x i' x' v v', is_norm x = true -> is_norm x' = true -> (fval x <= fval x')%R ->
  read_line (monitor_line i x) = Some (i, v) -> read_line (monitor_line i' x') = Some (i', v') -> (v <= v')%R.
Proof.
  intros i x i' x' v v' H H' L R R'. rewrite line_read in R, R' by assumption.
  assert (v = shown_of x) by congruence. assert (v' = shown_of x') by congruence. subst v v'. clear R R'.
  destruct x as [s|s| |s m e]; cbn [is_norm] in H; try discriminate; apply negb_true_iff in H; subst s;
    (destruct x' as [s'|s'| |s' m' e']; cbn [is_norm] in H'; try discriminate; apply negb_true_iff in H'; subst s');
    unfold shown_of; unfold fval in L.
  - lra.
  - pose proof (frac_spec m' e') as F. destruct (frac m' e') as [n d]. destruct F as [Hn [Hd _]].
    pose proof (shown_range n d Hn Hd). pose proof (p10_pos (dec_exp n d)). lra.
  - exfalso. pose proof (powerRZ_lt 2 e ltac:(lra)). pose proof (IZR_lt 0 (Zpos m) ltac:(lia)). nra.
  - pose proof (frac_spec m e) as F. destruct (frac m e) as [n d]. destruct F as [Hn [Hd E]].
    pose proof (frac_spec m' e') as F'. destruct (frac m' e') as [n' d']. destruct F' as [Hn' [Hd' E']].
    apply shown_mono; try assumption. rewrite E, E'. lra.
Qed.

(** ** Columns *)
Lemma show_short n : (n < 1000)%nat -> (String.length (show_nat n) <= 3)%nat.
Proof.
  intro H. assert (E : forallb (fun n => Nat.leb (String.length (show_nat n)) 3) (seq 0 1000) = true) by (vm_compute; reflexivity).
  rewrite forallb_forall in E. apply Nat.leb_le, E, in_seq. lia.
Qed.
Lemma show_two n : (n < 100)%nat -> (String.length (let x := show_nat n in if Nat.ltb (String.length x) 2 then String "0" x else x) = 2)%nat.
Proof.
  intro H. assert (E : forallb (fun n => Nat.eqb (String.length (let x := show_nat n in if Nat.ltb (String.length x) 2 then String "0" x else x)) 2) (seq 0 100) = true)
    by (vm_compute; reflexivity).
  rewrite forallb_forall in E. apply Nat.eqb_eq, E, in_seq. lia.
Qed.
Lemma blanks_len n : String.length (blanks n) = n.
Proof. induction n; cbn; congruence. Qed.
Lemma rjust_len w s : (String.length s <= w)%nat -> String.length (rjust w s) = w.
Proof. intro H. unfold rjust. rewrite len_app, blanks_len. lia. Qed.
Theorem C87_columns : forall its x, (its < 1000)%nat -> is_norm x = true ->
  (fval x = 0 \/ powerRZ 10 (-99) <= fval x < powerRZ 10 99)%R ->
  String.length (monitor_line its x) = 40%nat.
Proof.
  intros its x Hi H R. unfold monitor_line. rewrite !len_app, rjust_len by (apply show_short, Hi).
  assert (E : String.length (format_e x) = 8%nat).
  { assert (L : forall D k, -99 <= k <= 99 -> String.length (show_e D k) = 8%nat).
    { intros D k Hk. unfold show_e. cbn [String.length]. rewrite show_two by lia. reflexivity. }
    destruct x as [s|s| |s m e]; cbn [is_norm] in H; try discriminate; apply negb_true_iff in H; subst s; [reflexivity|].
    unfold format_e, fval in *. pose proof (frac_spec m e) as F. destruct (frac m e) as [n d]. destruct F as [Hn [Hd E]].
    rewrite Rmult_1_l, <- E in R. pose proof (x_range n d Hn Hd) as [X1 X2]. pose proof (three_digits_spec n d Hn Hd) as T.
    destruct (three_digits n d) as [D k]. destruct T as [_ [T _]]. cbn [append].
    rewrite rjust_long by (pose proof (show_e_long D k); lia). apply L.
    assert (0 < IZR n / IZR d)%R by (apply Rdiv_lt_0_compat; apply IZR_lt; assumption).
    destruct R as [R|[R1 R2]]; [lra|].
    assert (-99 <= dec_exp n d).
    { destruct (Z.le_gt_cases (-99) (dec_exp n d)) as [|C]; [assumption|exfalso].
      pose proof (p10_mono (dec_exp n d + 1) (-99) ltac:(lia)). lra. }
    assert (dec_exp n d <= 98).
    { destruct (Z.le_gt_cases (dec_exp n d) 98) as [|C]; [assumption|exfalso].
      pose proof (p10_mono 99 (dec_exp n d) ltac:(lia)). lra. }
    lia. }
  rewrite E. reflexivity.
Qed.

(** ** All lines of a call *)
Theorem C87_log : forall db maxsteps tol restart printrates reltol c calls out,
  configure db maxsteps tol restart printrates reltol = Ok c ->
  let lines := gmres_output db maxsteps tol restart printrates reltol calls out in
  let tail := match out with
    | None => []
    | Some o => ("The convergence reason code is " ++ show_int (o_reason o))%string
        :: if Z.ltb (o_reason o) 0 then ["Solver did not converge after " ++ show_nat (o_its o) ++ " iterations."]%string else [] end in
  exists log, lines = (log ++ tail)%list /\ List.length log = (if printrates then List.length calls else 0)%nat
  /\ forall k i x, printrates = true -> nth_error calls k = Some (i, x) -> is_norm x = true ->
     exists v, option_map read_line (nth_error log k) = Some (Some (i, v)) /\ (Rabs (v - fval x) <= 1 / 200 * fval x)%R.
Proof.
  intros db maxsteps tol restart printrates reltol [c db'] calls out HC lines tail.
  exists (if printrates then map (fun '(i, r) => monitor_line i r) calls else []).
  assert (HM : k_mon c = printrates).
  { unfold configure in HC. destruct (set_restart _ _) as [c1|] eqn:E1; [|discriminate].
    cbn [rbind] in HC. destruct (set_tolerances _ _ _ _) as [c2|] eqn:E2; [|discriminate]. cbn [rbind] in HC.
    assert (M1 : k_mon c1 = false).
    { unfold set_restart in E1. destruct (Z.ltb _ 1); [discriminate|]. injection E1 as <-. reflexivity. }
    assert (M2 : k_mon c2 = false).
    { unfold set_tolerances in E2. destruct (_ || _ || _)%bool; [discriminate|]. injection E2 as <-. exact M1. }
    destruct printrates; injection HC as <- _; [reflexivity|exact M2]. }
  split; [|split].
  - unfold lines, gmres_output. rewrite HC, HM. destruct out as [o|]; reflexivity.
  - destruct printrates; [apply map_length|reflexivity].
  - intros k i x -> Hk Hx. destruct (C87_line i x Hx) as [v [Hv [Hc _]]]. exists v. split; [|exact Hc].
    rewrite nth_error_map, Hk. cbn [option_map]. rewrite Hv. reflexivity.
Qed.
(** The reason code is printed so that it can be read back: decimal digits, with a minus sign
    in front for the negative codes only. *)
Definition read_int (s : string) : option Z :=
  match s with
  | String "-" t => match read_nat t with Some (S n) => Some (- Z.of_nat (S n)) | _ => None end
  | _ => option_map Z.of_nat (read_nat s)
  end.
Theorem C87_reason : forall n, read_int (show_int n) = Some n /\ (all_digits (show_int n) = true <-> 0 <= n).
Proof.
  intro n. unfold show_int. destruct (Z.ltb_spec n 0) as [H|H].
  - cbn [read_int]. rewrite show_nat_read. split.
    + destruct (Z.to_nat (- n)) as [|k] eqn:Ek; [lia|]. rewrite <- Ek. f_equal. lia.
    + split; [intro X; cbn in X; discriminate|lia].
  - pose proof (show_nat_digits (Z.to_nat n)) as D. pose proof (show_nat_read (Z.to_nat n)) as R. split; [|split; [intros _; exact H|intros _; exact D]].
    unfold read_int. destruct (show_nat (Z.to_nat n)) as [|c t] eqn:Es; [rewrite R; cbn [option_map]; f_equal; lia|].
    cbn [all_digits] in D. apply andb_true_iff in D as [D _].
    destruct (Ascii.ascii_dec c "-") as [->|N]; [discriminate D|].
    destruct c as [[] [] [] [] [] [] [] []]; try (rewrite R; cbn [option_map]; f_equal; lia). exfalso. apply N. reflexivity.
Qed.
(** a call with rejected settings prints nothing *)
Theorem C87_rejected : forall db maxsteps tol restart printrates reltol calls out e,
  configure db maxsteps tol restart printrates reltol = Err e -> gmres_output db maxsteps tol restart printrates reltol calls out = [].
Proof. intros. unfold gmres_output. rewrite H. reflexivity. Qed.

(** residuals that are not positive numbers *)
Theorem C87_special : forall its,
  monitor_line its S754_nan = ("GMRes iteration " ++ rjust 3 (show_nat its) ++ ", residual =  nan")%string
  /\ monitor_line its (S754_infinity false) = ("GMRes iteration " ++ rjust 3 (show_nat its) ++ ", residual =  inf")%string
  /\ monitor_line its (S754_infinity true) = ("GMRes iteration " ++ rjust 3 (show_nat its) ++ ", residual = -inf")%string
  /\ monitor_line its (S754_zero false) = ("GMRes iteration " ++ rjust 3 (show_nat its) ++ ", residual = 0.00e+00")%string
  /\ monitor_line its (S754_zero true) = ("GMRes iteration " ++ rjust 3 (show_nat its) ++ ", residual = -0.00e+00")%string.
Proof. intro its. repeat split. Qed.

Theorem C87_nonvacuous : let x := S754_finite false 7205759403792794 (-56) in is_norm x = true
  /\ monitor_line 12 x = "GMRes iteration  12, residual = 1.00e-01"%string
  /\ exists c, configure (fun _ => None) 100 None None true None = Ok c.
Proof.
  cbv zeta. split; [reflexivity|]. split; [vm_compute; reflexivity|].
  unfold configure, set_restart. cbn [Z.ltb Z.compare Pos.compare Pos.compare_cont rbind].
  unfold set_tolerances.
  destruct (Req_EM_T 1e-7 (-2)) as [E|_]; [decimals; lra|]. destruct (Rle_dec 0 1e-7) as [_|E]; [|decimals; lra].
  destruct (Rlt_dec 1e-7 1) as [_|E]; [|decimals; lra].
  destruct (Req_EM_T 1e-12 (-2)) as [E|_]; [decimals; lra|]. destruct (Rle_dec 0 1e-12) as [_|E]; [|decimals; lra].
  cbn. eexists. reflexivity.
Qed.

Print Assumptions C87_line.
Print Assumptions C87_order.
Print Assumptions C87_columns.
Print Assumptions C87_log.
Print Assumptions C87_reason.
Print Assumptions C87_special.
Print Assumptions C87_nonvacuous.
