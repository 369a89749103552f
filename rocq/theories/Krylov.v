(** Krylov.v -- an operator that differs from a preconditioner in r rows: every linear
    system has its solution in the Krylov space of dimension r + 1. *)
From Coq Require Import Reals List ZArith Lra Lia Bool.
From Verif Require Import Base FormModel FormSpec FormProofs SpaceTimeForms SpaceTimeModel LinAlg.
Import ListNotations.
Open Scope R_scope.

Definition same (n : nat) (v w : vec) : Prop := forall i, (i < n)%nat -> v i = w i.
Definition linop (n : nat) (F : vec -> vec) : Prop :=
  (forall v w, same n v w -> same n (F v) (F w)) /\
  forall k1 v1 k2 v2, same n (F (fun i => k1 * v1 i + k2 * v2 i)) (fun i => k1 * F v1 i + k2 * F v2 i).
(** combinations of v, K v, .., K^(m-1) v *)
Definition comb (m : nat) (a : nat -> R) (K : vec -> vec) (v : vec) : vec :=
  fun l => sumn m (fun i => a i * Nat.iter i K v l).

Lemma lin_zero n F : linop n F -> same n (F (fun _ => 0)) (fun _ => 0).
Proof.
  intros [HE HL] i Hi. rewrite (HE (fun _ => 0) (fun _ => 0 * 0 + 0 * 0)) by (try exact Hi; intros j _; ring).
  rewrite (HL 0 (fun _ => 0) 0 (fun _ => 0)) by exact Hi. ring.
Qed.
Lemma lin_sum n F m a (w : nat -> vec) : linop n F ->
  same n (F (fun l => sumn m (fun i => a i * w i l))) (fun l => sumn m (fun i => a i * F (w i) l)).
Proof.
  intros HF. induction m as [|m IH].
  - intros i Hi. cbn [seq]. rewrite Rsum_nil. apply (lin_zero n F HF i Hi).
  - intros i Hi. destruct HF as [HE HL]. rewrite sumn_S.
    rewrite (HE _ (fun l => 1 * sumn m (fun i => a i * w i l) + a m * w m l)); [|intros j _; rewrite sumn_S; ring|exact Hi].
    rewrite (HL 1 _ (a m) (w m)) by exact Hi. rewrite (IH i Hi). ring.
Qed.
Lemma comb_ext m a a' K v l : (forall i, (i < m)%nat -> a i = a' i) -> comb m a K v l = comb m a' K v l.
Proof. intro H. unfold comb. apply sumn_ext. intros i Hi. rewrite H by exact Hi. reflexivity. Qed.
(** K applied to a combination *)
Lemma comb_apply n m a K v : linop n K -> same n (K (comb m a K v)) (fun l => sumn m (fun i => a i * Nat.iter (S i) K v l)).
Proof. intros HK. exact (lin_sum n K m a (fun i => Nat.iter i K v) HK). Qed.

(** a non-trivial relation among the first m + 1 powers gives the solution of K x = v *)
Lemma krylov_relation n K : linop n K -> (forall x, same n (K x) (fun _ => 0) -> same n x (fun _ => 0)) ->
  forall m d v, (exists i, (i < m)%nat /\ d i <> 0) -> same n (comb m d K v) (fun _ => 0) ->
  exists a, same n (K (comb (Nat.pred m) a K v)) v.
Proof.
  intros HK HI. induction m as [|m IH]; intros d v [i0 [Hi0 Hd]] H; [lia|]. cbn [Nat.pred].
  assert (HS : forall l, comb (S m) d K v l = d 0%nat * v l + sumn m (fun i => d (S i) * Nat.iter (S i) K v l)).
  { intro l. unfold comb. rewrite (sumn_skip 0 m) by lia. cbn [Nat.iter]. f_equal. }
  destruct (Req_dec (d 0%nat) 0) as [Z|Z].
  - assert (H' : same n (comb m (fun i => d (S i)) K v) (fun _ => 0)).
    { apply HI. intros l Hl. rewrite (comb_apply n m _ K v HK l Hl). specialize (H l Hl). rewrite HS, Z in H. lra. }
    destruct i0 as [|i0]; [contradiction|].
    destruct (IH (fun i => d (S i)) v) as [a Ha]; [exists i0; split; [lia|exact Hd]|exact H'|].
    exists (fun i => if Nat.ltb i (Nat.pred m) then a i else 0). intros l Hl. rewrite <- (Ha l Hl).
    rewrite !(comb_apply n _ _ K v HK l Hl). destruct m as [|m]; [lia|]. cbn [Nat.pred]. rewrite sumn_S.
    destruct (Nat.ltb_spec m m); [lia|]. rewrite Rmult_0_l, Rplus_0_r. apply sumn_ext. intros i Hi.
    destruct (Nat.ltb_spec i m); [reflexivity|lia].
  - exists (fun i => - (d (S i) / d 0%nat)). intros l Hl. rewrite (comb_apply n m _ K v HK l Hl).
    specialize (H l Hl). rewrite HS in H.
    rewrite (sumn_ext m _ (fun i => - / d 0%nat * (d (S i) * Nat.iter (S i) K v l))) by (intros; field; exact Z).
    rewrite Rsum_scal. set (s := sumn m _) in *.
    apply (Rmult_eq_reg_l (d 0%nat)); [|exact Z]. replace (d 0%nat * (- / d 0%nat * s)) with (- s) by (field; exact Z). lra.
Qed.

Section Precond.
  Variables (n : nat) (A C B : vec -> vec) (rows : list nat).
  Hypotheses (HA : linop n A) (HC : linop n C) (CB : forall v, same n (C (B v)) v)
    (Off : forall x i, (i < n)%nat -> ~ In i rows -> A x i = C x i).

  Lemma C_inj x : same n (C x) (fun _ => 0) -> same n x (fun _ => 0).
  Proof.
    intros Hx. set (X := fun j k : nat => B (unitv k) j).
    assert (E : forall v, same n (C (fun j => sumn n (fun k => v k * X j k))) v).
    { intros v i Hi. unfold X. rewrite (lin_sum n C n v (fun k => B (unitv k)) HC i Hi).
      rewrite (sumn_ext n _ (fun k => delta i k * v k)).
      - apply sumn_delta. exact Hi.
      - intros k _. rewrite CB by exact Hi. unfold unitv, delta. rewrite Nat.eqb_sym. ring. }
    assert (E2 : forall v j, mult n X v j = sumn n (fun k => v k * X j k)) by (intros; unfold mult; apply Rsum_ext; intro; ring).
    assert (IX : injective n X).
    { intros v Hv i Hi. rewrite <- (E v i Hi). rewrite (proj1 HC _ (fun _ => 0)); [apply (lin_zero n C HC i Hi)| |exact Hi].
      intros j Hj. rewrite <- E2. apply Hv, Hj. }
    destruct (injective_solve n X x IX) as [v Hv].
    assert (Zv : same n v (fun _ => 0)).
    { intros i Hi. rewrite <- (E v i Hi), <- (Hx i Hi). apply (proj1 HC); [|exact Hi]. intros j Hj. rewrite <- E2. apply Hv, Hj. }
    intros j Hj. rewrite <- (Hv j Hj). unfold mult. apply Rsum_zero. intros k Hk. apply in_seq in Hk. rewrite Zv by lia. ring.
  Qed.
  Lemma C_inj2 x y : same n (C x) (C y) -> same n x y.
  Proof.
    intros H i Hi. assert (Z : same n (fun i => 1 * x i + (-1) * y i) (fun _ => 0)).
    { apply C_inj. intros j Hj. rewrite (proj2 HC 1 x (-1) y j Hj), (H j Hj). ring. }
    specialize (Z i Hi). lra.
  Qed.
  Lemma B_lin : linop n B.
  Proof.
    split.
    - intros v w H. apply C_inj2. intros i Hi. rewrite !CB by exact Hi. apply H, Hi.
    - intros k1 v1 k2 v2. apply C_inj2. intros i Hi. rewrite CB by exact Hi. rewrite (proj2 HC) by exact Hi. rewrite !CB by exact Hi. reflexivity.
  Qed.
  Lemma K_lin : linop n (fun x => B (A x)).
  Proof.
    pose proof B_lin as [BE BL]. split.
    - intros v w H. apply BE, (proj1 HA), H.
    - intros k1 v1 k2 v2 i Hi. rewrite (BE _ (fun i => k1 * A v1 i + k2 * A v2 i)) by (try exact Hi; apply (proj2 HA)). apply BL, Hi.
  Qed.
  Lemma B_inj x : same n (B x) (fun _ => 0) -> same n x (fun _ => 0).
  Proof. intros H i Hi. rewrite <- (CB x i Hi), (proj1 HC _ _ H i Hi). apply (lin_zero n C HC i Hi). Qed.

  (** [r + 1] powers suffice *)
  Hypothesis Ainj : forall x, same n (A x) (fun _ => 0) -> same n x (fun _ => 0).
  Lemma krylov_exact b : exists a, same n (A (comb (S (List.length rows)) a (fun x => B (A x)) (B b))) b.
  Proof.
    set (r := List.length rows). set (K := fun x => B (A x)). set (v := B b).
    pose proof K_lin as HK. fold K in HK. pose proof B_lin as HB.
    assert (KI : forall x, same n (K x) (fun _ => 0) -> same n x (fun _ => 0)) by (intros x H; apply Ainj, B_inj, H).
    pose (w := fun i => Nat.iter i K v).
    destruct (underdetermined r (S r) (fun k i => A (w i) (nth k rows 0%nat) - C (w i) (nth k rows 0%nat)) ltac:(lia)) as [c [[i0 [Hi0 Hc0]] Hc]].
    pose (y := comb (S r) c K v).
    assert (AC : same n (A y) (C y)).
    { intros i Hi. destruct (in_dec Nat.eq_dec i rows) as [I|I]; [|apply Off; assumption].
      destruct (In_nth rows i 0%nat I) as [k [Hk Ek]]. specialize (Hc k Hk). rewrite Ek in Hc.
      change y with (fun l => sumn (S r) (fun i => c i * w i l)). rewrite (lin_sum n A (S r) c w HA i Hi), (lin_sum n C (S r) c w HC i Hi).
      rewrite (sumn_ext (S r) _ (fun j => c j * A (w j) i - c j * C (w j) i)) in Hc by (intros; ring). rewrite Rsum_minus in Hc. lra. }
    assert (Ky : same n (K y) y).
    { apply C_inj2. intros i Hi. unfold K. rewrite CB by exact Hi. apply AC, Hi. }
    destruct (krylov_relation n K HK KI (S (S r)) (fun i => (if Nat.eqb i 0 then 0 else c (Nat.pred i)) - (if Nat.ltb i (S r) then c i else 0)) v) as [a Ha].
    - destruct (Req_dec (c r) 0) as [Z|Z].
      + (* the last index with c <> 0, one further *)
        assert (L : forall m, (m <= S r)%nat -> (exists i, (i < m)%nat /\ c i <> 0) -> (forall i, (m <= i < S r)%nat -> c i = 0) ->
          exists i, (i < S r)%nat /\ c i <> 0 /\ ((S i < S r)%nat -> c (S i) = 0)).
        { induction m as [|m IH]; intros Hm [i [Hi Hci]] Hz; [lia|]. destruct (Req_dec (c m) 0) as [Zm|Zm].
          - apply IH; [lia| |intros j Hj; destruct (Nat.eq_dec j m) as [->|]; [exact Zm|apply Hz; lia]].
            exists i. split; [|exact Hci]. destruct (Nat.eq_dec i m) as [->|]; [contradiction|lia].
          - exists m. split; [lia|]. split; [exact Zm|]. intro. apply Hz. lia. }
        destruct (L (S r)) as [i [Hi [Hci Hn]]]; [lia|exists i0; auto|intros; lia|].
        exists (S i). split; [lia|]. cbn [Nat.eqb Nat.pred]. destruct (Nat.ltb_spec (S i) (S r)); [rewrite (Hn H)|]; lra.
      + exists (S r). split; [lia|]. cbn [Nat.eqb Nat.pred]. destruct (Nat.ltb_spec (S r) (S r)); [lia|]. lra.
    - intros l Hl. pose proof (Ky l Hl) as E. unfold y in E. rewrite (comb_apply n (S r) c K v HK l Hl) in E. unfold comb in E |- *.
      rewrite (sumn_ext (S (S r)) _ (fun i => (if Nat.eqb i 0 then 0 else c (Nat.pred i)) * Nat.iter i K v l - (if Nat.ltb i (S r) then c i else 0) * Nat.iter i K v l)) by (intros; ring).
      rewrite Rsum_minus. rewrite (sumn_skip 0 (S r)) by lia. rewrite (sumn_S (S r) (fun i => (if Nat.ltb i (S r) then c i else 0) * _)).
      destruct (Nat.ltb_spec (S r) (S r)) as [F|_]; [lia|].
      rewrite (sumn_ext (S r) (fun j => (if Nat.eqb (skip 0 j) 0 then 0 else c (Nat.pred (skip 0 j))) * Nat.iter (skip 0 j) K v l)
        (fun i => c i * Nat.iter (S i) K v l)) by (intros; reflexivity).
      rewrite (sumn_ext (S r) (fun i => (if Nat.ltb i (S r) then c i else 0) * Nat.iter i K v l) (fun i => c i * Nat.iter i K v l)).
      + change (Nat.eqb 0 0) with true. cbv iota. rewrite !Rmult_0_l. lra.
      + intros i Hi. destruct (Nat.ltb_spec i (S r)); [reflexivity|lia].
    - cbn [Nat.pred] in Ha. exists a. intros i Hi. rewrite <- (CB (A _) i Hi), <- (CB b i Hi). apply (proj1 HC); [|exact Hi].
      exact Ha.
  Qed.
  (** a minimiser of the preconditioned residual over a Krylov space of dimension at
      least r + 1 solves the system *)
  Lemma krylov_minimal b m x : (List.length rows < m)%nat ->
    (forall a, sumn n (fun i => (B b i - B (A x) i) ^ 2) <= sumn n (fun i => (B b i - B (A (comb m a (fun x => B (A x)) (B b))) i) ^ 2)) ->
    same n (A x) b.
  Proof.
    intros Hm Hmin. destruct (krylov_exact b) as [a Ha]. set (r := List.length rows) in *.
    set (a' := fun i => if Nat.ltb i (S r) then a i else 0).
    assert (Ec : forall l, comb m a' (fun x => B (A x)) (B b) l = comb (S r) a (fun x => B (A x)) (B b) l).
    { intro l. unfold comb. replace m with (S r + (m - S r))%nat by lia. rewrite seq_app, Rsum_app.
      rewrite (Rsum_zero (seq (0 + S r) (m - S r))).
      - rewrite Rplus_0_r. apply sumn_ext. intros i Hi. unfold a'. destruct (Nat.ltb_spec i (S r)); [reflexivity|lia].
      - intros i Hi. apply in_seq in Hi. unfold a'. destruct (Nat.ltb_spec i (S r)); [lia|ring]. }
    specialize (Hmin a'). pose proof B_lin as [BE _].
    assert (Z : sumn n (fun i => (B b i - B (A (comb m a' (fun x => B (A x)) (B b))) i) ^ 2) = 0).
    { apply Rsum_zero. intros i Hi. apply in_seq in Hi.
      assert (Hi' : (i < n)%nat) by lia.
      rewrite (BE (A (comb m a' (fun x => B (A x)) (B b))) b); [ring| |exact Hi'].
      intros j Hj. rewrite <- (Ha j Hj). apply (proj1 HA); [|exact Hj]. intros l _. apply Ec. }
    rewrite Z in Hmin.
    assert (Q : same n (B b) (B (A x))).
    { intros i Hi. assert (T : (B b i - B (A x) i) ^ 2 = 0).
      { apply (Rsum_nonneg_zero (seq 0 n) (fun i => (B b i - B (A x) i) ^ 2)).
        - intros; apply pow2_ge_0.
        - apply Rle_antisym; [exact Hmin|]. apply Rsum_nonneg. intros; apply pow2_ge_0.
        - apply in_seq. lia. }
      assert (T' : Rsqr (B b i - B (A x) i) = 0) by (unfold Rsqr; lra). apply Rsqr_0_uniq in T'. lra. }
    intros i Hi. rewrite <- (CB (A x) i Hi), <- (CB b i Hi). symmetry. apply (proj1 HC); [exact Q|exact Hi].
  Qed.
End Precond.
