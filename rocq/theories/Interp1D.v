(** Interp1D.v -- polynomial interpolation at equispaced points of an interval:
    the error of the interpolant and of its derivatives, by Rolle's theorem. *)
From Coq Require Import Reals List ZArith Lra Lia Bool.
From Coquelicot Require Import Coquelicot.
From Verif Require Import Base TimeModel TimeSpec TimeProofs FormModel FormSpec FormProofs FormSym Space1D.
Import ListNotations.
Open Scope R_scope.

Lemma Rdiv_1 x : x / 1 = x. Proof. field. Qed.
Lemma Rdiv_def x y : x / y = x * / y. Proof. reflexivity. Qed.

(** * Zeros *)
(** [many g z e n]: g has n+1 zeros, the first is z, the last is e *)
Inductive many (g : R -> R) : R -> R -> nat -> Prop :=
| many_one z : g z = 0 -> many g z z 0
| many_cons z y e n : g z = 0 -> z < y -> many g y e n -> many g z e (S n).
Lemma many_first g z e n : many g z e n -> g z = 0.
Proof. destruct 1; assumption. Qed.
Lemma many_order g z e n : many g z e n -> z <= e.
Proof. induction 1; lra. Qed.
Lemma rolle_strict g g' a b : a < b -> (forall x, is_derive g x (g' x)) -> g a = 0 -> g b = 0 -> exists x, a < x < b /\ g' x = 0.
Proof.
  intros Hab Hd Ha Hb. destruct (MVT_cor2 g g' a b Hab) as [x [E Hx]]; [intros c _; apply is_derive_Reals, Hd|].
  exists x. split; [exact Hx|]. rewrite Ha, Hb in E. assert (g' x * (b - a) = 0) by lra.
  apply Rmult_integral in H. destruct H; [assumption|lra].
Qed.
Lemma many_rolle g g' : (forall x, is_derive g x (g' x)) -> forall n z e, many g z e (S n) -> exists z' e', many g' z' e' n /\ z < z' /\ e' < e.
Proof.
  intro Hd. induction n as [|n IH]; intros z e H; inversion H as [|? y ? ? Hz Hy Hm]; subst.
  - inversion Hm as [? Hy0|]; subst. destruct (rolle_strict g g' z e Hy Hd Hz Hy0) as [x [Hx E]].
    exists x, x. split; [constructor; exact E|lra].
  - destruct (IH y e Hm) as [z' [e' [M [A B]]]].
    destruct (rolle_strict g g' z y Hy Hd Hz (many_first _ _ _ _ Hm)) as [x [Hx E]].
    exists x, e'. split; [|lra]. apply (many_cons g' x z' e' n E); [lra|exact M].
Qed.
Lemma many_seq g (z : nat -> R) : forall n, (forall i, (i < n)%nat -> z i < z (S i)) -> (forall i, (i <= n)%nat -> g (z i) = 0) ->
  forall j, (j <= n)%nat -> many g (z (n - j)%nat) (z n) j.
Proof.
  intros n Hz Hg. induction j as [|j IH]; intro Hj.
  - rewrite Nat.sub_0_r. constructor. apply Hg. lia.
  - apply (many_cons g _ (z (n - j)%nat)); [apply Hg; lia| |apply IH; lia].
    replace (n - j)%nat with (S (n - S j)) by lia. apply Hz. lia.
Qed.
Lemma many_chain (G : nat -> R -> R) : (forall j x, is_derive (G j) x (G (S j) x)) ->
  forall j n z e, many (G 0%nat) z e (n + j) -> exists z' e', many (G j) z' e' n /\ z <= z' /\ e' <= e.
Proof.
  intro Hd. induction j as [|j IH]; intros n z e H.
  - rewrite Nat.add_0_r in H. exists z, e. split; [exact H|lra].
  - replace (n + S j)%nat with (S n + j)%nat in H by lia. destruct (IH (S n) z e H) as [z1 [e1 [M [A B]]]].
    destruct (many_rolle (G j) (G (S j)) (Hd j) n z1 e1 M) as [z2 [e2 [M2 [A2 B2]]]]. exists z2, e2. split; [exact M2|lra].
Qed.
(** a function with a zero in [a,b] is bounded by its derivative *)
Lemma zero_bound g g' a b M z : (forall x, is_derive g x (g' x)) -> a <= z <= b -> g z = 0 ->
  (forall x, a <= x <= b -> Rabs (g' x) <= M) -> forall x, a <= x <= b -> Rabs (g x) <= M * (b - a).
Proof.
  intros Hd Hz Hg HM x Hx. assert (M0 : 0 <= M) by (eapply Rle_trans; [apply Rabs_pos|apply (HM z Hz)]).
  assert (G : forall y1 y2, a <= y1 -> y1 < y2 -> y2 <= b -> Rabs (g y2 - g y1) <= M * (b - a)).
  { intros y1 y2 H1 H2 H3. destruct (MVT_cor2 g g' y1 y2 H2) as [c [E Hc]]; [intros c _; apply is_derive_Reals, Hd|].
    rewrite E, Rabs_mult, (Rabs_pos_eq (y2 - y1)) by lra. apply Rmult_le_compat; [apply Rabs_pos|lra|apply HM; lra|lra]. }
  destruct (Rtotal_order x z) as [H|[->|H]].
  - specialize (G x z ltac:(lra) H ltac:(lra)). rewrite Hg in G. rewrite <- (Rabs_Ropp (g x)). replace (- g x) with (0 - g x) by ring. exact G.
  - rewrite Hg, Rabs_R0. apply Rmult_le_pos; lra.
  - specialize (G z x ltac:(lra) H ltac:(lra)). rewrite Hg in G. replace (g x) with (g x - 0) by ring. exact G.
Qed.
(** with k+1 zeros, the derivatives up to order k+1 are bounded by the last of them *)
Lemma zeros_bound (G : nat -> R -> R) k a b M z e : (forall j x, is_derive (G j) x (G (S j) x)) ->
  many (G 0%nat) z e k -> a <= z -> e <= b -> (forall x, a <= x <= b -> Rabs (G (S k) x) <= M) ->
  forall j, (j <= S k)%nat -> forall x, a <= x <= b -> Rabs (G (S k - j)%nat x) <= M * (b - a) ^ j.
Proof.
  intros Hd Hm Ha He HM. induction j as [|j IH]; intros Hj x Hx.
  - rewrite Nat.sub_0_r, pow_O, Rmult_1_r. apply HM, Hx.
  - destruct (many_chain G Hd (k - j)%nat j z e) as [z' [e' [M' [A B]]]]; [replace (j + (k - j))%nat with k by lia; exact Hm|].
    replace (S k - S j)%nat with (k - j)%nat by lia.
    replace (M * (b - a) ^ S j) with (M * (b - a) ^ j * (b - a)) by (cbn; ring).
    apply (zero_bound (G (k - j)%nat) (G (S (k - j))) a b _ z'); [apply Hd| |exact (many_first _ _ _ _ M')| |exact Hx].
    + pose proof (many_order _ _ _ _ M'). lra.
    + intros y Hy. replace (S (k - j)) with (S k - j)%nat by lia. apply IH; [lia|exact Hy].
Qed.

(** * The interpolant on [a, a+h] *)
Definition ipoly (k : nat) (v : nat -> R) : poly := psum (seq 0 (S k)) (fun i => pscale (v i) (lagp k i)).
(** its derivative of order m at x, for nodal values v *)
Definition dinterp (k : nat) (a h : R) (v : nat -> R) (m : nat) (x : R) : R := peval (dpow m (ipoly k v)) ((x - a) / h) / h ^ m.
Lemma dinterp_0 k a h v x : dinterp k a h v 0 x = sumn (S k) (fun i => v i * lagrange k i ((x - a) / h)).
Proof.
  unfold dinterp, ipoly. rewrite dpow_psum. cbn [pow]. rewrite Rdiv_1.
  apply Rsum_ext; intro i. cbn [dpow]. rewrite peval_pscale, lagp_eval. reflexivity.
Qed.
Lemma dinterp_sum k a h v m x : dinterp k a h v m x = sumn (S k) (fun i => v i * (peval (dpow m (lagp k i)) ((x - a) / h) / h ^ m)).
Proof.
  unfold dinterp, ipoly. rewrite dpow_psum. rewrite Rdiv_def, Rmult_comm, <- Rsum_scal.
  apply Rsum_ext; intro i. rewrite dpow_pscale. unfold Rdiv. ring.
Qed.
Lemma dinterp_derive k a h v m x : h <> 0 -> is_derive (dinterp k a h v m) x (dinterp k a h v (S m) x).
Proof.
  intro Hh. unfold dinterp.
  apply (is_derive_ext (fun x => / h ^ m * peval (dpow m (ipoly k v)) ((x - a) / h))); [intro t; apply Rmult_comm|].
  replace (peval (dpow (S m) (ipoly k v)) ((x - a) / h) / h ^ S m)
    with (/ h ^ m * scal (1 / h) (peval (pdiff (dpow m (ipoly k v))) ((x - a) / h))).
  - apply is_derive_scal. apply (is_derive_comp (peval (dpow m (ipoly k v))) (fun x => (x - a) / h)); [apply is_derive_peval|].
    auto_derive; [exact I|]. field. exact Hh.
  - unfold scal; cbn; unfold mult; cbn. field. split; [apply pow_nonzero, Hh|exact Hh].
Qed.
Lemma ipoly_length k v : (length (ipoly k v) <= S k)%nat.
Proof. apply length_psum. intros i Hi. apply in_seq in Hi. rewrite length_pscale. apply lagp_length. lia. Qed.
Lemma dpow_length m p : length (dpow m p) = (length p - m)%nat.
Proof. induction m as [|m IH]; cbn [dpow]; [lia|]. rewrite length_pdiff, IH. lia. Qed.
Lemma dinterp_top k a h v x : dinterp k a h v (S k) x = 0.
Proof.
  unfold dinterp. assert (E : dpow (S k) (ipoly k v) = []).
  { apply length_zero_iff_nil. rewrite dpow_length. pose proof (ipoly_length k v). lia. }
  rewrite E. cbn [peval]. unfold Rdiv. ring.
Qed.
Lemma dinterp_node k a h v i : (1 <= k)%nat -> h <> 0 -> (i <= k)%nat -> dinterp k a h v 0 (a + h * node k i) = v i.
Proof.
  intros Hk Hh Hi. rewrite dinterp_0. replace ((a + h * node k i - a) / h) with (node k i) by (field; exact Hh).
  rewrite (sumn_ext (S k) _ (fun r => delta i r * v r)); [apply sumn_delta; lia|].
  intros r Hr. rewrite lagrange_node by lia. rewrite delta_sym. ring.
Qed.
Lemma node_first k : node k 0 = 0.
Proof. unfold node, Rdiv. cbn. ring. Qed.
Lemma node_last k : (1 <= k)%nat -> node k k = 1.
Proof. intro H. unfold node. field. apply not_0_INR. lia. Qed.
Lemma node_lt k i : (1 <= k)%nat -> node k i < node k (S i).
Proof.
  intro Hk. unfold node. rewrite S_INR. assert (0 < / INR k) by (apply Rinv_0_lt_compat, lt_0_INR; lia). unfold Rdiv. nra.
Qed.

(** the values v are those of f at the nodes; F j is the derivative of order j of f *)
Theorem interp_error k a h (F : nat -> R -> R) v M : (1 <= k)%nat -> 0 < h ->
  (forall j x, is_derive (F j) x (F (S j) x)) -> (forall i, (i <= k)%nat -> v i = F 0%nat (a + h * node k i)) ->
  (forall x, a <= x <= a + h -> Rabs (F (S k) x) <= M) ->
  forall m, (m <= S k)%nat -> forall x, a <= x <= a + h -> Rabs (dinterp k a h v m x - F m x) <= M * h ^ (S k - m).
Proof.
  intros Hk Hh HF Hv HM m Hm x Hx.
  set (G := fun j x => dinterp k a h v j x - F j x).
  assert (Hd : forall j x, is_derive (G j) x (G (S j) x)).
  { intros j y. unfold G. apply (is_derive_minus (V := R_NormedModule)); [apply dinterp_derive; lra|apply HF]. }
  assert (Hz : many (G 0%nat) (a + h * node k (k - k)) (a + h * node k k) k).
  { apply (many_seq (G 0%nat) (fun i => a + h * node k i) k); [| |lia].
    - intros i _. pose proof (node_lt k i Hk). nra.
    - intros i Hi. unfold G. rewrite dinterp_node by (try lia; lra). rewrite Hv by exact Hi. ring. }
  rewrite Nat.sub_diag in Hz. rewrite node_first, node_last in Hz by exact Hk.
  pose proof (zeros_bound G k a (a + h) M _ _ Hd Hz) as B.
  specialize (B ltac:(lra) ltac:(lra)). replace (a + h - a) with h in B by ring.
  change (dinterp k a h v m x - F m x) with (G m x).
  replace m with (S k - (S k - m))%nat at 1 by lia. apply B; [|lia|exact Hx].
  intros y Hy. unfold G. rewrite dinterp_top. rewrite Rminus_0_l, Rabs_Ropp. apply HM, Hy.
Qed.

(** * Interpolation in time and space *)
Lemma dinterp_plus k a h u v m x : dinterp k a h (fun i => u i + v i) m x = dinterp k a h u m x + dinterp k a h v m x.
Proof. rewrite !dinterp_sum, <- Rsum_plus. apply Rsum_ext; intro i. ring. Qed.
Lemma dinterp_ext k a h u v m x : (forall i, (i <= k)%nat -> u i = v i) -> dinterp k a h u m x = dinterp k a h v m x.
Proof. intro H. rewrite !dinterp_sum. apply sumn_ext. intros i Hi. rewrite H by lia. reflexivity. Qed.
Lemma dinterp_swap k a h q t0 dt (v : nat -> nat -> R) i m t x :
  dinterp k a h (fun r => dinterp q t0 dt (fun s => v s r) i t) m x = dinterp q t0 dt (fun s => dinterp k a h (v s) m x) i t.
Proof.
  rewrite !dinterp_sum.
  rewrite (Rsum_ext _ _ (fun r => Rsum (seq 0 (S q)) (fun s => v s r * (peval (dpow i (lagp q s)) ((t - t0) / dt) / dt ^ i)
     * (peval (dpow m (lagp k r)) ((x - a) / h) / h ^ m)))).
  2: { intro r. rewrite dinterp_sum, Rmult_comm, <- Rsum_scal. apply Rsum_ext; intro s. ring. }
  rewrite Rsum_swap. apply Rsum_ext; intro s. rewrite dinterp_sum, Rmult_comm, <- Rsum_scal. apply Rsum_ext; intro r. ring.
Qed.
Lemma is_derive_Rsum {A} (l : list A) (f g : A -> R -> R) x : (forall a, is_derive (f a) x (g a x)) ->
  is_derive (fun x => Rsum l (fun a => f a x)) x (Rsum l (fun a => g a x)).
Proof.
  intro H. induction l as [|a l IH].
  - apply (is_derive_ext (fun _ => 0)); [intro; reflexivity|]. apply (is_derive_const (V := R_NormedModule)).
  - apply (is_derive_ext (fun x => f a x + Rsum l (fun a => f a x))); [intro; reflexivity|].
    rewrite Rsum_cons. apply (is_derive_plus (V := R_NormedModule)); [apply H|exact IH].
Qed.

Section SpaceTime.
  Variables (k q : nat) (a h t0 dt M : R) (W : nat -> nat -> R -> R -> R).
  Hypothesis Hk : (1 <= k)%nat.
  Hypothesis Hq : (1 <= q)%nat.
  Hypothesis Hh : 0 < h.
  Hypothesis Hdt : 0 < dt <= 1.
  Hypothesis Wt : forall i m t x, is_derive (fun s => W i m s x) t (W (S i) m t x).
  Hypothesis Wx : forall i m t x, is_derive (fun y => W i m t y) x (W i (S m) t x).
  Hypothesis WM : forall i m t x, (i <= S q)%nat -> (m <= S k)%nat -> t0 <= t <= t0 + dt -> a <= x <= a + h -> Rabs (W i m t x) <= M.

  (** derivative of order i in time and m in space of the interpolant of W 0 0 *)
  Definition interp2 (i m : nat) (t x : R) : R :=
    dinterp q t0 dt (fun s => dinterp k a h (fun r => W 0 0 (t0 + dt * node q s) (a + h * node k r)) m x) i t.
  Theorem interp2_error : forall i m t x, (i <= S q)%nat -> (m <= S k)%nat -> t0 <= t <= t0 + dt -> a <= x <= a + h ->
    Rabs (interp2 i m t x - W i m t x) <= M * (2 * h ^ (S k - m) + dt ^ (S q - i)).
  Proof.
    intros i m t x Hi Hm Ht Hx.
    set (G := fun i s => dinterp k a h (fun r => W i 0%nat s (a + h * node k r)) m x - W i m s x).
    assert (M0 : 0 <= M) by (eapply Rle_trans; [apply Rabs_pos|apply (WM 0 0 t x); [lia|lia|exact Ht|exact Hx]]).
    assert (GB : forall i s, (i <= S q)%nat -> t0 <= s <= t0 + dt -> Rabs (G i s) <= M * h ^ (S k - m)).
    { intros i0 s Hi0 Hs. unfold G. apply (interp_error k a h (fun j => W i0 j s)); try assumption.
      - intros j y. apply Wx.
      - intros; reflexivity.
      - intros y Hy. apply WM; [assumption|lia|assumption|assumption]. }
    assert (GD : forall i s, is_derive (G i) s (G (S i) s)).
    { intros i0 s. unfold G. apply (is_derive_minus (V := R_NormedModule)); [|apply Wt].
      apply (is_derive_ext (fun s => sumn (S k) (fun r => W i0 0%nat s (a + h * node k r) * (peval (dpow m (lagp k r)) ((x - a) / h) / h ^ m))));
        [intro; symmetry; apply dinterp_sum|]. rewrite dinterp_sum.
      apply (is_derive_Rsum _ (fun r s => W i0 0%nat s (a + h * node k r) * (peval (dpow m (lagp k r)) ((x - a) / h) / h ^ m))
        (fun r s => W (S i0) 0%nat s (a + h * node k r) * (peval (dpow m (lagp k r)) ((x - a) / h) / h ^ m))).
      intro r. set (y := peval _ _ / _).
      apply (is_derive_ext (fun s => y * W i0 0%nat s (a + h * node k r))); [intro; apply Rmult_comm|].
      rewrite (Rmult_comm _ y). apply is_derive_scal, Wt. }
    pose proof (interp_error q t0 dt G (fun s => G 0%nat (t0 + dt * node q s)) (M * h ^ (S k - m)) Hq ltac:(lra) GD
      (fun _ _ => eq_refl) (fun s Hs => GB (S q) s ltac:(lia) Hs) i Hi t Ht) as B1.
    pose proof (GB i t Hi Ht) as B2.
    pose proof (interp_error q t0 dt (fun j s => W j m s x) (fun s => W 0%nat m (t0 + dt * node q s) x) M Hq ltac:(lra)
      (fun j s => Wt j m s x) (fun _ _ => eq_refl) (fun s Hs => WM (S q) m s x ltac:(lia) Hm Hs Hx) i Hi t Ht) as B3.
    unfold interp2.
    rewrite (dinterp_ext q t0 dt _ (fun s => G 0%nat (t0 + dt * node q s) + W 0%nat m (t0 + dt * node q s) x)) by (intros; unfold G; ring).
    rewrite dinterp_plus.
    set (A1 := dinterp q t0 dt (fun s => G 0%nat (t0 + dt * node q s)) i t) in *.
    set (A3 := dinterp q t0 dt (fun s => W 0%nat m (t0 + dt * node q s) x) i t) in *.
    replace (A1 + A3 - W i m t x) with ((A1 - G i t) + G i t + (A3 - W i m t x)) by ring.
    eapply Rle_trans; [apply Rabs_triang|]. eapply Rle_trans; [apply Rplus_le_compat_r, Rabs_triang|].
    assert (P1 : dt ^ (S q - i) <= 1) by (rewrite <- (pow1 (S q - i)); apply pow_incr; lra).
    assert (P2 : 0 <= dt ^ (S q - i)) by (apply pow_le; lra).
    assert (P3 : 0 <= h ^ (S k - m)) by (apply pow_le; lra).
    assert (M * h ^ (S k - m) * dt ^ (S q - i) <= M * h ^ (S k - m)).
    { rewrite <- (Rmult_1_r (M * h ^ (S k - m))) at 2. apply Rmult_le_compat_l; [apply Rmult_le_pos; assumption|exact P1]. }
    lra.
  Qed.
End SpaceTime.
