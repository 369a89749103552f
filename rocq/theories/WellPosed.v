(** WellPosed.v -- the stabilised forms determine a discrete function once its
    first coefficients in time are known.  Used for the unique solvability of
    the slab problems and of the well-posed space-time problem (C67, C68). *)
From Coq Require Import Reals List ZArith Lra Lia Bool String.
From Coquelicot Require Import Coquelicot.
From Verif Require Import Base TimeModel TimeSpec TimeProofs QuadProofs FormModel FormSpec FormProofs
  SpaceTimeForms FormBlocks GuardProofs FormTime FormC12 FormSym RhsProofs FormStruct.
Import ListNotations.
Open Scope R_scope.

(** * Polynomials of degree three *)
Definition cub (a : nat -> R) (t : R) : R := a 0%nat + a 1%nat * t + a 2%nat * t ^ 2 + a 3%nat * t ^ 3.
Lemma cub_zero a : (forall t, 0 <= t <= 1 -> cub a t = 0) -> forall m, (m < 4)%nat -> a m = 0.
Proof.
  intros H m Hm. pose proof (H 0 ltac:(lra)) as H0. pose proof (H 1 ltac:(lra)) as H1.
  pose proof (H (1/2) ltac:(lra)) as H2. pose proof (H (1/3) ltac:(lra)) as H3. unfold cub in *.
  assert (m = 0 \/ m = 1 \/ m = 2 \/ m = 3)%nat as [->|[->|[->| ->]]] by lia; lra.
Qed.
Lemma lag_cub o i : (o <= 3)%nat -> (i <= o)%nat -> exists k, forall t, lagrange o i t = cub k t.
Proof.
  intros Ho Hi.
  destruct o as [|[|[|[|o]]]]; try lia; destruct i as [|[|[|[|i]]]]; try lia; unfold lagrange, node, cub; cbn.
  - exists (fun m => match m with 0%nat => 1 | _ => 0 end). intro; ring.
  - exists (fun m => match m with 0%nat => 1 | 1%nat => -1 | _ => 0 end). intro; field.
  - exists (fun m => match m with 1%nat => 1 | _ => 0 end). intro; field.
  - exists (fun m => match m with 0%nat => 1 | 1%nat => -3 | 2%nat => 2 | _ => 0 end). intro; field.
  - exists (fun m => match m with 1%nat => 4 | 2%nat => -4 | _ => 0 end). intro; field.
  - exists (fun m => match m with 1%nat => -1 | 2%nat => 2 | _ => 0 end). intro; field.
  - exists (fun m => match m with 0%nat => 1 | 1%nat => -11/2 | 2%nat => 9 | _ => -9/2 end). intro; field.
  - exists (fun m => match m with 0%nat => 0 | 1%nat => 9 | 2%nat => -45/2 | _ => 27/2 end). intro; field.
  - exists (fun m => match m with 0%nat => 0 | 1%nat => -9/2 | 2%nat => 18 | _ => -27/2 end). intro; field.
  - exists (fun m => match m with 0%nat => 0 | 1%nat => 1 | 2%nat => -9/2 | _ => 9/2 end). intro; field.
Qed.
(** the same coefficients for all basis functions *)
Lemma lag_cubs o : (o <= 3)%nat -> exists k : nat -> nat -> R, forall i t, (i <= o)%nat -> lagrange o i t = cub (k i) t.
Proof.
  intro Ho. assert (G : forall N, (N <= S o)%nat -> exists k : nat -> nat -> R, forall i t, (i < N)%nat -> lagrange o i t = cub (k i) t).
  { induction N as [|N IH]; intro HN; [exists (fun _ _ => 0); intros; lia|].
    destruct (IH ltac:(lia)) as [k Hk]. destruct (lag_cub o N Ho ltac:(lia)) as [k' Hk'].
    exists (fun i => if Nat.eqb i N then k' else k i). intros i t Hi.
    destruct (Nat.eqb_spec i N) as [->|]; [apply Hk'|apply Hk; lia]. }
  destruct (G (S o) (le_n _)) as [k Hk]. exists k. intros; apply Hk; lia.
Qed.
Lemma cub_sum n (r : nat -> R) (k : nat -> nat -> R) t :
  sumn n (fun i => cub (k i) t * r i) = cub (fun m => sumn n (fun i => k i m * r i)) t.
Proof.
  unfold cub. rewrite <- !Rsum_scal_r, <- !Rsum_plus. apply Rsum_ext; intro; ring.
Qed.
Definition dcub (a : nat -> R) (t : R) : R := a 1%nat + 2 * a 2%nat * t + 3 * a 3%nat * t ^ 2.
Lemma Derive_cub a t : Derive (cub a) t = dcub a t.
Proof. apply is_derive_unique. unfold cub, dcub. auto_derive; [exact I|]. ring. Qed.
Lemma dcub_sum n (r : nat -> R) (k : nat -> nat -> R) t :
  sumn n (fun i => dcub (k i) t * r i) = dcub (fun m => sumn n (fun i => k i m * r i)) t.
Proof.
  unfold dcub. rewrite <- !Rsum_scal, <- !Rsum_scal_r, <- !Rsum_plus. apply Rsum_ext; intro; ring.
Qed.

(** a finite element function that is a cubic in time *)
Definition vcub (C : nat -> vec) (t : R) : vec := fun l => cub (fun m => C m l) t.
Definition vdcub (C : nat -> vec) (t : R) : vec := fun l => dcub (fun m => C m l) t.
Lemma fev_lin4 D m s o (C : nat -> vec) (r : nat -> R) p k :
  fev D m s o (fun l => sumn 4 (fun i => r i * C i l)) p k = sumn 4 (fun i => r i * fev D m s o (C i) p k).
Proof. apply fev_sum. Qed.
Lemma sumn4 (f : nat -> R) : sumn 4 f = f 0%nat + f 1%nat + f 2%nat + f 3%nat.
Proof. cbn [seq]. rewrite !Rsum_cons, Rsum_nil. ring. Qed.
Lemma fev_cub D m s o C t p k : fev D m s o (vcub C t) p k = cub (fun i => fev D m s o (C i) p k) t.
Proof.
  rewrite (fev_ext D m s o (vcub C t) (fun l => sumn 4 (fun i => t ^ i * C i l))).
  - rewrite fev_lin4, sumn4. unfold cub. ring.
  - intros l _. unfold vcub, cub. rewrite sumn4. ring.
Qed.
Lemma fev_dcub D m s o C t p k : fev D m s o (vdcub C t) p k = dcub (fun i => fev D m s o (C i) p k) t.
Proof.
  rewrite (fev_ext D m s o (vdcub C t) (fun l => sumn 4 (fun i => (INR i * t ^ (i - 1)) * C i l))).
  - rewrite fev_lin4, sumn4. unfold dcub. cbn. ring.
  - intros l _. unfold vdcub, dcub. rewrite sumn4. cbn. ring.
Qed.

Section WP.
  Variables (P : params) (c : config) (g : gammas) (om : nat -> R) (D : disc).
  Hypothesis HB : built P c.
  Hypothesis Hdt : 0 < c_dt c.
  Let d := td c.
  Let Hq := q_le P c HB.
  Let Hqs := qs_le P c HB.
  Hypothesis HR : regular D om.
  Hypothesis HDp : forall a, L2 D Vp Vp a a = 0 -> forall l, (l < d_dim D Vp)%nat -> a l = 0.

  Lemma at_cub X j n : exists C, forall t l,
    at_time d X j n t l = vcub C ((t - INR n * c_dt c) / c_dt c) l
    /\ ddt (at_time d X j n) t l = 1 / c_dt c * vdcub C ((t - INR n * c_dt c) / c_dt c) l.
  Proof.
    destruct (lag_cubs (ord d j) (ord_le c Hq Hqs j)) as [k Hk].
    exists (fun m l => sumn (S (ord d j)) (fun i => k i m * restr (ntime c) n X j i l)). intros t l. split.
    - unfold d. rewrite (at_time_rep c). fold d. unfold vcub. rewrite <- cub_sum.
      apply sumn_ext; intros i Hi. rewrite Hk by lia. reflexivity.
    - unfold d. rewrite (ddt_rep c Hdt Hq Hqs). fold d. unfold vdcub. rewrite <- dcub_sum, <- Rsum_scal.
      apply sumn_ext; intros i Hi.
      rewrite (Derive_ext (lagrange (ord d j) i) (cub (k i))) by (intro; apply Hk; lia).
      rewrite Derive_cub. ring.
  Qed.

  (** zero residuals and zero values at the start of a slab: zero on the slab *)
  Lemma slab_unique X n : primal D d (c_lam c) X X n = 0 ->
    (forall j l, (j < 2)%nat -> (l < d_dim D Vp)%nat -> X j (n * S (c_q c))%nat l = 0) ->
    forall j i l, (j < 2)%nat -> (i <= c_q c)%nat -> (l < d_dim D Vp)%nat -> X j (n * S (c_q c) + i)%nat l = 0.
  Proof.
    intros HP H0.
    assert (Hat : forall t, INR n * c_dt c <= t <= INR n * c_dt c + c_dt c ->
       L2 D Vp Vp (vsub (ddt (at_time d X 0 n) t) (at_time d X 1 n t)) (vsub (ddt (at_time d X 0 n) t) (at_time d X 1 n t)) = 0
       /\ integ D Dx WH2 1 (fun p _ => res2 D d X n t p) (fun p _ => res2 D d X n t p) = 0).
    { intros t Ht.
      assert (P3 : primal_at c D X X n t = 0).
      { apply (slab_zero c Hdt (primal_at c D X X n) n); auto.
        - intro x; apply (primal_cont P); assumption.
        - intro x; pose proof (primal_at_pos P c om D HB HR X n x); unfold primal_at; lra. }
      pose proof (primal_at_pos P c om D HB HR X n t) as Q3. unfold primal_at in P3. fold d in P3, Q3. lra. }
    destruct (at_cub X 0 n) as [C HC]. destruct (at_cub X 1 n) as [E HE].
    set (tm := fun tau => INR n * c_dt c + tau * c_dt c).
    assert (Htau : forall tau, (tm tau - INR n * c_dt c) / c_dt c = tau) by (intro; unfold tm; field; lra).
    assert (Hin : forall tau, 0 <= tau <= 1 -> INR n * c_dt c <= tm tau <= INR n * c_dt c + c_dt c).
    { intros tau Ht. unfold tm. pose proof (Rmult_le_compat_r (c_dt c) _ _ ltac:(lra) (proj2 Ht)).
      pose proof (Rmult_le_pos _ _ (proj1 Ht) (Rlt_le _ _ Hdt)). lra. }
    (* first equation: coefficients *)
    assert (E1 : forall l m, (l < d_dim D Vp)%nat -> (m < 4)%nat ->
       (match m with 0%nat => C 1%nat l | 1%nat => 2 * C 2%nat l | 2%nat => 3 * C 3%nat l | _ => 0 end) - c_dt c * E m l = 0).
    { intros l m Hl Hm.
      apply (cub_zero (fun m => (match m with 0%nat => C 1%nat l | 1%nat => 2 * C 2%nat l | 2%nat => 3 * C 3%nat l | _ => 0 end) - c_dt c * E m l)); [|exact Hm].
      intros tau Ht. destruct (Hat (tm tau) (Hin tau Ht)) as [H1 _]. pose proof (HDp _ H1 l Hl) as H2.
      unfold vsub in H2. destruct (HC (tm tau) l) as [_ H3]. destruct (HE (tm tau) l) as [H4 _].
      rewrite H3, H4, Htau in H2. unfold vdcub, vcub, dcub in H2. unfold cub in *.
      apply (Rmult_eq_compat_l (c_dt c)) in H2. rewrite Rmult_0_r, Rmult_minus_distr_l in H2.
      rewrite <- Rmult_assoc in H2. replace (c_dt c * (1 / c_dt c)) with 1 in H2 by (field; lra). lra. }
    (* second equation at the points that carry weight *)
    assert (E2 : forall p m, In p (d_pts D Dx) -> d_w D Dx p <> 0 -> (m < 4)%nat ->
       (match m with 0%nat => fev D Dx Vp Val (E 1%nat) p 0 | 1%nat => 2 * fev D Dx Vp Val (E 2%nat) p 0
          | 2%nat => 3 * fev D Dx Vp Val (E 3%nat) p 0 | _ => 0 end) - c_dt c * fev D Dx Vp Lap (C m) p 0 = 0).
    { intros p m Hp Hw Hm.
      apply (cub_zero (fun m => (match m with 0%nat => fev D Dx Vp Val (E 1%nat) p 0 | 1%nat => 2 * fev D Dx Vp Val (E 2%nat) p 0
          | 2%nat => 3 * fev D Dx Vp Val (E 3%nat) p 0 | _ => 0 end) - c_dt c * fev D Dx Vp Lap (C m) p 0)); [|exact Hm].
      intros tau Ht. destruct (Hat (tm tau) (Hin tau Ht)) as [_ H1].
      unfold integ in H1. cbn [wval] in H1.
      assert (H2 : d_w D Dx p * d_h D Dx p ^ 2 * sumn 1 (fun _ => res2 D d X n (tm tau) p * res2 D d X n (tm tau) p) = 0).
      { apply (Rsum_nonneg_zero (d_pts D Dx) (fun p => d_w D Dx p * d_h D Dx p ^ 2 * sumn 1 (fun _ => res2 D d X n (tm tau) p * res2 D d X n (tm tau) p))); [|exact H1|exact Hp].
        intros p' Hp'. apply Rmult_le_pos; [apply Rmult_le_pos; [apply (rg_w _ _ HR); exact Hp'|apply pow2_ge_0]|].
        cbn [seq]. rewrite Rsum_cons, Rsum_nil. rewrite Rplus_0_r. apply Rle_0_sqr. }
      cbn [seq] in H2. rewrite Rsum_cons, Rsum_nil, Rplus_0_r in H2.
      assert (H3 : res2 D d X n (tm tau) p = 0).
      { pose proof (rg_h _ _ HR Dx p Hp) as Hh. apply Rmult_integral in H2. destruct H2 as [H2|H2].
        - apply Rmult_integral in H2. destruct H2 as [H2|H2]; [contradiction|].
          assert (0 < d_h D Dx p ^ 2) by (apply pow_lt; exact Hh). lra.
        - apply Rmult_integral in H2. tauto. }
      unfold res2 in H3.
      rewrite (fev_ext D Dx Vp Val (ddt (at_time d X 1 n) (tm tau)) (fun l => sumn 1 (fun _ => 1 / c_dt c * vdcub E tau l))) in H3.
      2: { intros l _. cbn [seq]. rewrite Rsum_cons, Rsum_nil, Rplus_0_r. rewrite (proj2 (HE (tm tau) l)), Htau. reflexivity. }
      rewrite (fev_sum D Dx Vp Val (seq 0 1) (fun _ => 1 / c_dt c) (fun _ => vdcub E tau)) in H3.
      cbn [seq] in H3. rewrite Rsum_cons, Rsum_nil, Rplus_0_r, fev_dcub in H3.
      rewrite (fev_ext D Dx Vp Lap (at_time d X 0 n (tm tau)) (vcub C tau)) in H3.
      2: { intros l _. rewrite (proj1 (HC (tm tau) l)), Htau. reflexivity. }
      rewrite fev_cub in H3. unfold dcub in H3. unfold cub in *.
      apply (Rmult_eq_compat_l (c_dt c)) in H3. rewrite Rmult_0_r, Rmult_minus_distr_l in H3.
      rewrite <- Rmult_assoc in H3. replace (c_dt c * (1 / c_dt c)) with 1 in H3 by (field; lra). lra. }
    (* values vanish where the Laplacian does *)
    assert (ZV : forall (b : vec) (k : R), k <> 0 ->
       (forall p, In p (d_pts D Dx) -> d_w D Dx p <> 0 -> k * fev D Dx Vp Val b p 0 = 0) ->
       forall l, (l < d_dim D Vp)%nat -> b l = 0).
    { intros b k Hk Hb. apply HDp. unfold L2, sp, integ. apply Rsum_zero; intros p Hp. cbn [ncomp seq].
      rewrite Rsum_cons, Rsum_nil. destruct (Req_dec (d_w D Dx p) 0) as [->|Hw]; [ring|].
      pose proof (Hb p Hp Hw) as H. apply Rmult_integral in H. destruct H as [H|H]; [contradiction|]. rewrite H. ring. }
    assert (ZL : forall (b : vec), (forall l, (l < d_dim D Vp)%nat -> b l = 0) -> forall p, fev D Dx Vp Lap b p 0 = 0).
    { intros b Hb p. unfold fev. apply Rsum_zero; intros l Hl. apply in_seq in Hl. rewrite Hb by lia. ring. }
    assert (C0 : forall l, (l < d_dim D Vp)%nat -> C 0%nat l = 0).
    { intros l Hl. pose proof (H0 0%nat l ltac:(lia) Hl) as H. rewrite <- (upper_p P c HB Hdt X 0 n l) in H by lia.
      unfold upper in H. destruct (HC (INR n * c_dt c) l) as [H1 _]. unfold d in H1. cbn [t_dt td] in H.
      rewrite H1 in H. unfold vcub, cub in H. replace ((INR n * c_dt c - INR n * c_dt c) / c_dt c) with 0 in H by (field; lra). lra. }
    assert (D0 : forall l, (l < d_dim D Vp)%nat -> E 0%nat l = 0).
    { intros l Hl. pose proof (H0 1%nat l ltac:(lia) Hl) as H. rewrite <- (upper_p P c HB Hdt X 1 n l) in H by lia.
      unfold upper in H. destruct (HE (INR n * c_dt c) l) as [H1 _]. unfold d in H1. cbn [t_dt td] in H.
      rewrite H1 in H. unfold vcub, cub in H. replace ((INR n * c_dt c - INR n * c_dt c) / c_dt c) with 0 in H by (field; lra). lra. }
    assert (C1 : forall l, (l < d_dim D Vp)%nat -> C 1%nat l = 0).
    { intros l Hl. pose proof (E1 l 0%nat Hl ltac:(lia)) as H. cbn in H. rewrite D0 in H by exact Hl. lra. }
    assert (D1 : forall l, (l < d_dim D Vp)%nat -> E 1%nat l = 0).
    { apply (ZV (E 1%nat) 1 ltac:(lra)). intros p Hp Hw. pose proof (E2 p 0%nat Hp Hw ltac:(lia)) as H. cbn in H. rewrite (ZL _ C0) in H. lra. }
    assert (C2 : forall l, (l < d_dim D Vp)%nat -> C 2%nat l = 0).
    { intros l Hl. pose proof (E1 l 1%nat Hl ltac:(lia)) as H. cbn in H. rewrite D1 in H by exact Hl. lra. }
    assert (D2 : forall l, (l < d_dim D Vp)%nat -> E 2%nat l = 0).
    { apply (ZV (E 2%nat) 2 ltac:(lra)). intros p Hp Hw. pose proof (E2 p 1%nat Hp Hw ltac:(lia)) as H. cbn in H. rewrite (ZL _ C1) in H. lra. }
    assert (C3 : forall l, (l < d_dim D Vp)%nat -> C 3%nat l = 0).
    { intros l Hl. pose proof (E1 l 2%nat Hl ltac:(lia)) as H. cbn in H. rewrite D2 in H by exact Hl. lra. }
    assert (D3 : forall l, (l < d_dim D Vp)%nat -> E 3%nat l = 0).
    { intros l Hl. pose proof (E1 l 3%nat Hl ltac:(lia)) as H. cbn in H. rewrite Rminus_0_l in H.
      apply Ropp_eq_0_compat in H. rewrite Ropp_involutive in H. apply Rmult_integral in H. destruct H; [lra|assumption]. }
    intros j i l Hj Hi Hl.
    assert (Z : forall tau, at_time d X j n (tm tau) l = 0).
    { intro tau. assert (j = 0 \/ j = 1)%nat as [->| ->] by lia.
      - rewrite (proj1 (HC (tm tau) l)). unfold vcub, cub. rewrite C0, C1, C2, C3 by exact Hl. ring.
      - rewrite (proj1 (HE (tm tau) l)). unfold vcub, cub. rewrite D0, D1, D2, D3 by exact Hl. ring. }
    pose proof (Z (node (c_q c) i)) as Zi. unfold at_time in Zi.
    assert (Eo : ord d j = c_q c) by (unfold ord; destruct (Nat.ltb_spec j 2); [reflexivity|lia]).
    rewrite Eo in Zi. cbn [t_dt td d] in Zi. rewrite Htau in Zi.
    rewrite (sumn_ext _ _ (fun i0 => delta i i0 * X j (n * S (c_q c) + i0)%nat l)) in Zi.
    - rewrite sumn_delta in Zi by lia. exact Zi.
    - intros i0 Hi0. f_equal. apply lag_node; lia.
  Qed.
End WP.
