(** FormTime.v -- the slab forms as integrals over time (C12, C16). *)
From Coq Require Import Reals List ZArith Lra Lia Bool String.
From Coquelicot Require Import Coquelicot.
From Verif Require Import Base TimeModel TimeSpec TimeProofs QuadProofs FormModel FormSpec FormProofs
  SpaceTimeForms FormBlocks GuardProofs.
Import ListNotations.
Open Scope R_scope.

(** * The constructor *)
Lemma rbind_ok {A B} (r : res A) (f : A -> res B) b :
  rbind r f = Ok b -> exists a, r = Ok a /\ f a = Ok b.
Proof. destruct r; cbn; [eauto|discriminate]. Qed.

Record built (P : params) (c : config) : Prop := {
  bu_N : (1 <= c_N c)%nat;
  bu_NP : c_N c = p_N P;
  bu_q : (0 <= p_q P <= 3)%Z; bu_qs : (0 <= p_qstar P <= 3)%Z;
  bu_cq : c_q c = Z.to_nat (p_q P); bu_cqs : c_qs c = Z.to_nat (p_qstar P);
  bu_k : c_k c = p_k P; bu_ks : c_kstar c = p_kstar P;
  bu_T : c_T c = p_T P; bu_t : c_t c = p_t P;
  bu_dt : c_dt c = p_T P / INR (p_N P);
  bu_lam : c_lam c = 5 * INR (p_k P) ^ 2;
  bu_stab : c_stab c = p_stab P;
  bu_jumps : c_jumps c = p_jumps P; bu_wp : c_wp c = p_wp P;
  bu_el : get_elmat_time (p_q P) (p_qstar P) = Ok (c_el c);
  bu_phi : basis_in_time (p_q P) = Ok (c_phi c, c_dphi c);
  bu_qr : exists qr, QuadRule "Gauss-Radau" 4 = Ok qr /\ zip_rule qr = Ok (c_qr c);
  bu_qrho : exists qr, QuadRule "Gauss-Radau" 5 = Ok qr /\ zip_rule qr = Ok (c_qr_ho c);
  bu_samples : c_samples c = linspace105 (p_T P);
  bu_eps : c_eps c = if Z.eqb (p_qstar P) 0 then 1e-15 else 0;
  bu_v : c_v c = p_v P; bu_dv : c_dv c = p_dv P }.

Lemma construct_inv P c : construct P = Ok c -> built P c.
Proof.
  unfold construct. destruct (Nat.eqb_spec (p_N P) 0) as [|HN]; [discriminate|].
  intro H. apply rbind_ok in H; destruct H as [el [Eel H]].
  apply rbind_ok in H; destruct H as [qr [Eqr H]].
  apply rbind_ok in H; destruct H as [qrh [Eqrh H]].
  apply rbind_ok in H; destruct H as [[phi dphi] [Ephi H]].
  apply rbind_ok in H; destruct H as [z1 [Ez1 H]].
  apply rbind_ok in H; destruct H as [z2 [Ez2 H]].
  injection H; intros <-; clear H.
  destruct (get_elmat_inv _ _ _ Eel) as [a [b [Ea [Eb _]]]].
  apply basis_sym_dom in Ea. apply basis_sym_dom in Eb.
  constructor; try exact Eel; try exact Ephi; eauto; cbn [c_N]; lia.
Qed.

Definition td (c : config) : tdisc := mkTD (c_q c) (c_qs c) (c_dt c).

(** * Lagrange functions of the supported orders *)
Section Lag.
  Variable o : nat.
  Hypothesis Ho : (o <= 3)%nat.
  Lemma lag_basis : exists phis dphis, basis_in_time (Z.of_nat o) = Ok (phis, dphis).
  Proof. destruct (basis_ok (Z.of_nat o)) as [p [d [E _]]]; [lia|]. eauto. Qed.
  Lemma lag_derive i t : (i <= o)%nat -> ex_derive (lagrange o i) t.
  Proof.
    intro Hi. destruct lag_basis as [p [d E]].
    exists (fn d i t). apply is_derive_ext_R with (f := fn p i).
    - intro s. rewrite (basis_lagrange _ _ _ E) by lia. rewrite Nat2Z.id. reflexivity.
    - apply (basis_derivative _ _ _ E).
  Qed.
  Lemma lag_cont i t : (i <= o)%nat -> continuous (lagrange o i) t.
  Proof. intro Hi. apply (ex_derive_continuous (V := R_NormedModule)). apply lag_derive; exact Hi. Qed.
  Lemma dlag_cont i t : (i <= o)%nat -> continuous (Derive (lagrange o i)) t.
  Proof.
    intro Hi. destruct lag_basis as [p [d E]].
    destruct (basis_sym_ok (Z.of_nat o)) as [s [Es _]]; [lia|].
    apply (continuous_ext (peval (pdiff (nth i s [])))).
    - intro x. symmetry. apply is_derive_unique.
      apply is_derive_ext_R with (f := peval (nth i s [])); [|apply is_derive_peval].
      intro y. rewrite <- (tables_agree _ _ _ _ E Es).
      rewrite (basis_lagrange _ _ _ E) by lia. rewrite Nat2Z.id. reflexivity.
    - apply continuous_peval.
  Qed.
End Lag.

(** end-point values *)
Lemma lag_ends o i : (o <= 3)%nat -> (i <= o)%nat ->
  lagrange o i 0 = (if Nat.eqb i 0 then 1 else 0)
  /\ lagrange o i 1 = (if Nat.eqb i o then 1 else 0).
Proof.
  intros Ho Hi. destruct o as [|[|[|[|o]]]]; try lia;
  destruct i as [|[|[|[|i]]]]; try lia; unfold lagrange, node; cbn; split; field.
Qed.

(** * Element matrices in terms of Lagrange functions *)
Lemma Derive_fn_lag q phis dphis j t :
  basis_in_time q = Ok (phis, dphis) -> (j <= Z.to_nat q)%nat ->
  Derive (fn phis j) t = Derive (lagrange (Z.to_nat q) j) t.
Proof. intros H Hj. apply Derive_ext; intro s. apply (basis_lagrange _ _ _ H); exact Hj. Qed.

Section Built.
  Variables (P : params) (c : config).
  Hypothesis HB : built P c.
  Let q := c_q c.
  Let qs := c_qs c.
  Lemma q_le : (q <= 3)%nat.
  Proof. unfold q. rewrite (bu_cq _ _ HB). pose proof (bu_q _ _ HB). lia. Qed.
  Lemma qs_le : (qs <= 3)%nat.
  Proof. unfold qs. rewrite (bu_cqs _ _ HB). pose proof (bu_qs _ _ HB). lia. Qed.

  Lemma el_entries :
    (forall k j, (k < S qs)%nat -> (j < S q)%nat ->
       mget (M_time_q_qstar (c_el c)) k j = RInt (fun t => lagrange q j t * lagrange qs k t) 0 1
       /\ mget (DM_time_q_qstar (c_el c)) k j = RInt (fun t => Derive (lagrange q j) t * lagrange qs k t) 0 1)
    /\ (forall k j, (k < S q)%nat -> (j < S q)%nat ->
       mget (M_time_q_q (c_el c)) k j = RInt (fun t => lagrange q j t * lagrange q k t) 0 1
       /\ mget (DM_time_q_q (c_el c)) k j = RInt (fun t => Derive (lagrange q j) t * lagrange q k t) 0 1
       /\ mget (DDM_time_q_q (c_el c)) k j = RInt (fun t => Derive (lagrange q j) t * Derive (lagrange q k) t) 0 1)
    /\ (forall k j, (k < S qs)%nat -> (j < S qs)%nat ->
       mget (M_time_qstar_qstar (c_el c)) k j = RInt (fun t => lagrange qs j t * lagrange qs k t) 0 1).
  Proof.
    destruct (basis_ok (p_qstar P)) as [chis [dchis [Echi _]]]; [apply (bu_qs _ _ HB)|].
    pose proof (elmat_all _ _ _ _ _ _ _ (bu_el _ _ HB) (bu_phi _ _ HB) Echi) as [E1 [E2 E3]].
    cbn zeta in *. rewrite <- (bu_cq _ _ HB) in E1, E2. rewrite <- (bu_cqs _ _ HB) in E1, E3.
    fold q qs in E1, E2, E3.
    pose proof (basis_lagrange _ _ _ (bu_phi _ _ HB)) as Lp. rewrite <- (bu_cq _ _ HB) in Lp.
    pose proof (basis_lagrange _ _ _ Echi) as Lc. rewrite <- (bu_cqs _ _ HB) in Lc.
    assert (Dp : forall j t, (j <= q)%nat -> Derive (fn (c_phi c) j) t = Derive (lagrange q j) t).
    { intros j t Hj. apply Derive_ext; intro s. apply Lp; exact Hj. }
    fold q in Lp. fold qs in Lc.
    split; [|split]; intros k j Hk Hj.
    - destruct (E1 k j Hk Hj) as [-> ->]. split; apply RInt_ext; intros x _;
      rewrite ?Dp, ?Lp, ?Lc by lia; reflexivity.
    - destruct (E2 k j Hk Hj) as [-> [-> ->]]. split; [|split]; apply RInt_ext; intros x _;
      rewrite ?Dp, ?Lp, ?Lc by lia; reflexivity.
    - rewrite (E3 k j Hk Hj). apply RInt_ext; intros x _; rewrite ?Dp, ?Lp, ?Lc by lia; reflexivity.
  Qed.
End Built.


(** * Integrals over a slab *)
Lemma is_RInt_sumn n (f : nat -> R -> R) (I : nat -> R) a b :
  (forall i, (i < n)%nat -> is_RInt (f i) a b (I i)) ->
  is_RInt (fun t => sumn n (fun i => f i t)) a b (sumn n I).
Proof.
  induction n as [|n IH]; intro H.
  - apply (is_RInt_ext (V := R_NormedModule) (fun _ => 0)); [intros; reflexivity|].
    pose proof (is_RInt_const (V := R_NormedModule) a b 0) as E.
    replace (sumn 0 I) with (scal (b - a) 0); [exact E|]. unfold scal; cbn; unfold mult; cbn.
    unfold Rsum; cbn; ring.
  - rewrite sumn_S.
    apply (is_RInt_ext (V := R_NormedModule) (fun t => plus (sumn n (fun i => f i t)) (f n t))).
    + intros x _. rewrite sumn_S. reflexivity.
    + apply (is_RInt_plus (V := R_NormedModule)); [apply IH; intros; apply H; lia|apply H; lia].
Qed.
Lemma is_RInt_scal_R (f : R -> R) k a b I : is_RInt f a b I -> is_RInt (fun t => k * f t) a b (k * I).
Proof. intro H. apply (is_RInt_scal (V := R_NormedModule) f a b k I H). Qed.
Lemma is_RInt_plus_R (f g : R -> R) a b I J :
  is_RInt f a b I -> is_RInt g a b J -> is_RInt (fun t => f t + g t) a b (I + J).
Proof. intros Hf Hg. apply (is_RInt_plus (V := R_NormedModule) f g a b I J Hf Hg). Qed.
Lemma is_RInt_minus_R (f g : R -> R) a b I J :
  is_RInt f a b I -> is_RInt g a b J -> is_RInt (fun t => f t - g t) a b (I - J).
Proof. intros Hf Hg. apply (is_RInt_minus (V := R_NormedModule) f g a b I J Hf Hg). Qed.
Lemma is_RInt_ext_R (f g : R -> R) a b I :
  (forall x, f x = g x) -> is_RInt f a b I -> is_RInt g a b I.
Proof. intros H Hf. apply (is_RInt_ext (V := R_NormedModule) f g); [intros; apply H|exact Hf]. Qed.
Lemma is_RInt_unique_R (f : R -> R) a b I : is_RInt f a b I -> RInt f a b = I.
Proof. apply (is_RInt_unique (V := R_CompleteNormedModule)). Qed.

Lemma is_RInt_eq (f : R -> R) a b (I J : R) : is_RInt f a b I -> I = J -> is_RInt f a b J.
Proof. intros H <-. exact H. Qed.
Lemma prod_int a dt f g : 0 < dt ->
  (forall x, continuous f x) -> (forall x, continuous g x) ->
  is_RInt (fun t => f ((t - a) / dt) * g ((t - a) / dt)) a (a + dt) (dt * RInt (fun x => f x * g x) 0 1).
Proof.
  intros Hdt Hf Hg.
  assert (Hc : forall x, continuous (fun x => f x * g x) x)
    by (intro x; apply (continuous_mult (K := R_AbsRing) f g); auto).
  pose proof (RInt_transport a (a + dt) (fun x => f x * g x) ltac:(lra) Hc) as E.
  replace (a + dt - a) with dt in E by ring.
  replace (dt * RInt (fun x => f x * g x) 0 1)
    with (RInt (fun t => f ((t - a) / dt) * g ((t - a) / dt)) a (a + dt)) by exact E.
  apply (RInt_correct (V := R_CompleteNormedModule)).
  apply (ex_RInt_continuous (V := R_CompleteNormedModule)). intros x _.
  apply (continuous_comp (fun t => (t - a) / dt) (fun x => f x * g x)); [|apply Hc].
  apply (ex_derive_continuous (V := R_NormedModule)). auto_derive; lra.
Qed.

(** bilinear spatial products of functions given by finite combinations in time *)
Lemma time_sp D m w o1 s1 o2 s2 a dt (F G : R -> vec) na nb f g A B :
  0 < dt ->
  (forall i x, (i < na)%nat -> continuous (f i) x) -> (forall i x, (i < nb)%nat -> continuous (g i) x) ->
  (forall t l, F t l = sumn na (fun i => f i ((t - a) / dt) * A i l)) ->
  (forall t l, G t l = sumn nb (fun i => g i ((t - a) / dt) * B i l)) ->
  is_RInt (fun t => sp D m w o1 s1 o2 s2 (F t) (G t)) a (a + dt)
    (sumn na (fun j => sumn nb (fun k =>
       dt * RInt (fun x => f j x * g k x) 0 1 * sp D m w o1 s1 o2 s2 (A j) (B k)))).
Proof.
  intros Hdt Hf Hg HF HG.
  apply is_RInt_ext_R with (f := fun t => sumn na (fun j => sumn nb (fun k =>
     sp D m w o1 s1 o2 s2 (A j) (B k) * (f j ((t - a) / dt) * g k ((t - a) / dt))))).
  - intro t.
    rewrite (sp_ext D m w o1 s1 o2 s2 (F t) (G t) _ _ (fun l _ => HF t l) (fun l _ => HG t l)).
    rewrite sp_sum1. apply Rsum_ext; intro j. rewrite sp_sum2, <- Rsum_scal.
    apply Rsum_ext; intro k. ring.
  - apply is_RInt_sumn; intros j Hj. apply is_RInt_sumn; intros k Hk.
    rewrite Rmult_comm. apply is_RInt_scal_R. apply prod_int; auto.
Qed.

(** double sums *)
Lemma dsum_plus n m (f h : nat -> nat -> R) :
  sumn n (fun j => sumn m (fun k => f j k)) + sumn n (fun j => sumn m (fun k => h j k))
  = sumn n (fun j => sumn m (fun k => f j k + h j k)).
Proof. rewrite <- Rsum_plus. apply Rsum_ext; intro j. symmetry. apply Rsum_plus. Qed.
Lemma dsum_minus n m (f h : nat -> nat -> R) :
  sumn n (fun j => sumn m (fun k => f j k)) - sumn n (fun j => sumn m (fun k => h j k))
  = sumn n (fun j => sumn m (fun k => f j k - h j k)).
Proof. rewrite <- Rsum_minus. apply Rsum_ext; intro j. symmetry. apply Rsum_minus. Qed.
Lemma dsum_scal n m r (f : nat -> nat -> R) :
  r * sumn n (fun j => sumn m (fun k => f j k)) = sumn n (fun j => sumn m (fun k => r * f j k)).
Proof. rewrite <- Rsum_scal. apply Rsum_ext; intro j. symmetry. apply Rsum_scal. Qed.
Lemma dsum_ext n m (f h : nat -> nat -> R) :
  (forall j k, (j < n)%nat -> (k < m)%nat -> f j k = h j k) ->
  sumn n (fun j => sumn m (fun k => f j k)) = sumn n (fun j => sumn m (fun k => h j k)).
Proof. intro H. apply sumn_ext; intros j Hj. apply sumn_ext; intros k Hk. apply H; assumption. Qed.
Lemma eval_loop2 D n m f X Y :
  eval D (loop2 n m f) X Y = sumn n (fun j => sumn m (fun k => eval D (f j k) X Y)).
Proof.
  unfold loop2. rewrite eval_flat_map. apply Rsum_ext; intro j. apply eval_flat_map.
Qed.

(** * Discrete functions of time *)
Section AtTime.
  Variables (c : config) (D : disc).
  Hypothesis Hdt : 0 < c_dt c.
  Hypothesis Hq : (c_q c <= 3)%nat.
  Hypothesis Hqs : (c_qs c <= 3)%nat.
  Let d := td c.
  Let a (n : nat) := INR n * c_dt c.

  Lemma ord_le j : (ord d j <= 3)%nat.
  Proof. unfold ord. destruct (Nat.ltb j 2); cbn; lia. Qed.
  Lemma ord_ntime j : S (ord d j) = ntime c j.
  Proof. unfold ord, ntime, sto. cbn. destruct (Nat.ltb j 2); reflexivity. Qed.
  Lemma at_time_rep X j n t l :
    at_time d X j n t l
    = sumn (S (ord d j)) (fun i => lagrange (ord d j) i ((t - a n) / c_dt c) * restr (ntime c) n X j i l).
  Proof. unfold at_time, restr. rewrite <- ord_ntime. reflexivity. Qed.
  Lemma ddt_rep X j n t l :
    ddt (at_time d X j n) t l
    = sumn (S (ord d j)) (fun i => (1 / c_dt c * Derive (lagrange (ord d j) i) ((t - a n) / c_dt c))
                                   * restr (ntime c) n X j i l).
  Proof.
    unfold ddt. apply is_derive_unique.
    apply is_derive_ext_R with (f := fun s => sumn (S (ord d j))
       (fun i => lagrange (ord d j) i ((s - a n) / c_dt c) * restr (ntime c) n X j i l)).
    { intro s. symmetry. apply at_time_rep. }
    assert (G : forall N, (N <= S (ord d j))%nat -> is_derive (fun s => sumn N
       (fun i => lagrange (ord d j) i ((s - a n) / c_dt c) * restr (ntime c) n X j i l)) t
       (sumn N (fun i => (1 / c_dt c * Derive (lagrange (ord d j) i) ((t - a n) / c_dt c))
                                   * restr (ntime c) n X j i l))); [|apply G; lia].
    induction N as [|N IH]; intro HN.
    - apply is_derive_ext_R with (f := fun _ => 0); [intro; reflexivity|].
      apply (is_derive_const (V := R_NormedModule)).
    - rewrite sumn_S.
      apply is_derive_ext_R with (f := fun s => plus (sumn N
         (fun i => lagrange (ord d j) i ((s - a n) / c_dt c) * restr (ntime c) n X j i l))
         (lagrange (ord d j) N ((s - a n) / c_dt c) * restr (ntime c) n X j N l)).
      { intro s. rewrite sumn_S. reflexivity. }
      apply (is_derive_plus (V := R_NormedModule)); [apply IH; lia|].
      pose proof (lag_derive (ord d j) (ord_le j) N ((t - a n) / c_dt c) ltac:(lia)) as HD.
      apply Derive_correct in HD.
      assert (HC : is_derive (fun s => lagrange (ord d j) N ((s - a n) / c_dt c)) t
                     (1 / c_dt c * Derive (lagrange (ord d j) N) ((t - a n) / c_dt c))).
      { apply (is_derive_comp (V := R_NormedModule) (lagrange (ord d j) N) (fun s => (s - a n) / c_dt c) t
           _ (1 / c_dt c) HD). auto_derive; [trivial|]. field. lra. }
      pose proof (is_derive_scal_l (V := R_NormedModule) _ t _ (restr (ntime c) n X j N l) HC) as HS.
      exact HS.
  Qed.

  (** traces *)
  Lemma upper_coef X j n l : upper d X j n l = X j (n * ntime c j)%nat l.
  Proof.
    unfold upper. rewrite at_time_rep.
    replace ((INR n * t_dt d - a n) / c_dt c) with 0 by (unfold a; cbn; field; lra).
    rewrite (sumn_ext _ _ (fun i => delta 0 i * restr (ntime c) n X j i l)).
    - rewrite sumn_delta by lia. unfold restr. rewrite Nat.add_0_r. reflexivity.
    - intros i Hi. rewrite (proj1 (lag_ends (ord d j) i (ord_le j) ltac:(lia))).
      unfold delta. rewrite Nat.eqb_sym. reflexivity.
  Qed.
  Lemma lower_coef X j n l : (1 <= n)%nat -> lower d X j n l = X j (n * ntime c j - 1)%nat l.
  Proof.
    intro Hn. unfold lower. rewrite at_time_rep.
    replace ((INR n * t_dt d - a (n - 1)) / c_dt c) with 1.
    2: { unfold a. cbn. rewrite minus_INR by lia. cbn. field. lra. }
    rewrite (sumn_ext _ _ (fun i => delta (ord d j) i * restr (ntime c) (n - 1) X j i l)).
    - rewrite sumn_delta by lia. unfold restr. f_equal. rewrite <- ord_ntime. nia.
    - intros i Hi. rewrite (proj2 (lag_ends (ord d j) i (ord_le j) ltac:(lia))).
      unfold delta. rewrite Nat.eqb_sym. reflexivity.
  Qed.

  (** integrals of products of the functions or their derivatives *)
  Notation X' n X := (restr (ntime c) n X).
  Lemma int_vv m w o1 s1 o2 s2 X j Y k n :
    is_RInt (fun t => sp D m w o1 s1 o2 s2 (at_time d X j n t) (at_time d Y k n t)) (a n) (a n + c_dt c)
      (sumn (S (ord d j)) (fun i => sumn (S (ord d k)) (fun i' =>
         c_dt c * RInt (fun x => lagrange (ord d j) i x * lagrange (ord d k) i' x) 0 1
         * sp D m w o1 s1 o2 s2 (X' n X j i) (X' n Y k i')))).
  Proof.
    apply time_sp; auto; intros; try (apply lag_cont; [apply ord_le|lia]); apply at_time_rep.
  Qed.
  Lemma int_dv m w o1 s1 o2 s2 X j Y k n :
    is_RInt (fun t => sp D m w o1 s1 o2 s2 (ddt (at_time d X j n) t) (at_time d Y k n t)) (a n) (a n + c_dt c)
      (sumn (S (ord d j)) (fun i => sumn (S (ord d k)) (fun i' =>
         RInt (fun x => Derive (lagrange (ord d j) i) x * lagrange (ord d k) i' x) 0 1
         * sp D m w o1 s1 o2 s2 (X' n X j i) (X' n Y k i')))).
  Proof.
    eapply is_RInt_eq; [apply (time_sp D m w o1 s1 o2 s2 (a n) (c_dt c) (ddt (at_time d X j n)) (at_time d Y k n)
      (S (ord d j)) (S (ord d k)) (fun i => Derive (lagrange (ord d j) i)) (fun i => lagrange (ord d k) i)
      (fun i l => 1 / c_dt c * X' n X j i l) (X' n Y k) Hdt)|].
    5: { apply dsum_ext; intros. rewrite sp_scal1. field. lra. }
    - intros; apply dlag_cont; [apply ord_le|lia].
    - intros; apply lag_cont; [apply ord_le|lia].
    - intros. rewrite ddt_rep. apply Rsum_ext; intro; ring.
    - intros. apply at_time_rep.
  Qed.
  Lemma int_vd m w o1 s1 o2 s2 X j Y k n :
    is_RInt (fun t => sp D m w o1 s1 o2 s2 (at_time d X j n t) (ddt (at_time d Y k n) t)) (a n) (a n + c_dt c)
      (sumn (S (ord d j)) (fun i => sumn (S (ord d k)) (fun i' =>
         RInt (fun x => Derive (lagrange (ord d k) i') x * lagrange (ord d j) i x) 0 1
         * sp D m w o1 s1 o2 s2 (X' n X j i) (X' n Y k i')))).
  Proof.
    eapply is_RInt_eq; [apply (time_sp D m w o1 s1 o2 s2 (a n) (c_dt c) (at_time d X j n) (ddt (at_time d Y k n))
      (S (ord d j)) (S (ord d k)) (fun i => lagrange (ord d j) i) (fun i => Derive (lagrange (ord d k) i))
      (X' n X j) (fun i l => 1 / c_dt c * X' n Y k i l) Hdt)|].
    5: { apply dsum_ext; intros. rewrite sp_scal2.
      rewrite (RInt_ext (fun x => lagrange (ord d j) j0 x * Derive (lagrange (ord d k) k0) x)
        (fun x => Derive (lagrange (ord d k) k0) x * lagrange (ord d j) j0 x))
        by (intros; apply Rmult_comm).
      field. lra. }
    - intros; apply lag_cont; [apply ord_le|lia].
    - intros; apply dlag_cont; [apply ord_le|lia].
    - intros. apply at_time_rep.
    - intros. rewrite ddt_rep. apply Rsum_ext; intro; ring.
  Qed.
  Lemma int_dd m w o1 s1 o2 s2 X j Y k n :
    is_RInt (fun t => sp D m w o1 s1 o2 s2 (ddt (at_time d X j n) t) (ddt (at_time d Y k n) t)) (a n) (a n + c_dt c)
      (sumn (S (ord d j)) (fun i => sumn (S (ord d k)) (fun i' =>
         1 / c_dt c * RInt (fun x => Derive (lagrange (ord d j) i) x * Derive (lagrange (ord d k) i') x) 0 1
         * sp D m w o1 s1 o2 s2 (X' n X j i) (X' n Y k i')))).
  Proof.
    eapply is_RInt_eq; [apply (time_sp D m w o1 s1 o2 s2 (a n) (c_dt c) (ddt (at_time d X j n)) (ddt (at_time d Y k n))
      (S (ord d j)) (S (ord d k)) (fun i => Derive (lagrange (ord d j) i)) (fun i => Derive (lagrange (ord d k) i))
      (fun i l => 1 / c_dt c * X' n X j i l) (fun i l => 1 / c_dt c * X' n Y k i l) Hdt)|].
    5: { apply dsum_ext; intros. rewrite sp_scal1, sp_scal2. field. lra. }
    - intros; apply dlag_cont; [apply ord_le|lia].
    - intros; apply dlag_cont; [apply ord_le|lia].
    - intros. rewrite ddt_rep. apply Rsum_ext; intro; ring.
    - intros. rewrite ddt_rep. apply Rsum_ext; intro; ring.
  Qed.
End AtTime.
