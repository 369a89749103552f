(** Props_Errors.v -- properties C43 to C47: error measurement and plot arrays. *)
From Coq Require Import Reals List ZArith Lra Lia Bool String Sorted.
From Coquelicot Require Import Coquelicot.
From Verif Require Import QuadProofs Base TimeModel TimeSpec TimeProofs FormModel FormSpec FormProofs SpaceTimeForms FormBlocks FormTime FormC12
  FormCons FormExample Props_Forms SpaceTimeModel SlabOps ApplyProofs MarchProofs MarchLoops ErrorsModel Lifecycle LifeProofs OpsProofs SetupOk
  OpsExample Props_Ops ErrorsSpec ErrorsProofs PlotProofs.
From Verif Require FloatModel.
Import ListNotations.
Open Scope R_scope.
Open Scope monad_scope.

(** the i-th of the 105 sample times *)
Definition sample (P : params) (i : nat) : R := INR i * (p_T P / 104).
(** the quadrature weights of dx are not negative *)
Definition nonneg_dx (D : disc) : Prop := forall p, In p (d_pts D Dx) -> 0 <= d_w D Dx p.

Lemma sample_in_list P c i : construct P = Ok c -> (i <= 104)%nat -> In (sample P i) (c_samples c).
Proof. intros HC Hi. apply (in_samples P (mkEnv c exI (std_layout 0 (fun _ => 0%nat) (fun _ => 0%nat)) (std_layout 0 (fun _ => 0%nat) (fun _ => 0%nat)) (std_layout 0 (fun _ => 0%nat) (fun _ => 0%nat)) (std_layout 0 (fun _ => 0%nat) (fun _ => 0%nat))) (construct_inv _ _ HC)). exists i. split; [exact Hi|reflexivity]. Qed.

(** * C43 *)
(** In exact arithmetic every sample time lies in a slab of the grid and passes
    the test of the loop over the samples, so its error is among the values of
    which the maxima are taken.  The first sample is 0, the last is T. *)
Theorem C43_partial : forall P E i, construct P = Ok (e_c E) -> 0 < p_T P -> (i <= 104)%nat ->
  In (sample P i) (c_samples (e_c E)) /\
  (exists n, (n < p_N P)%nat /\ within (tgrid P) n (sample P i) /\
     in_slab E (INR n * c_dt (e_c E)) (sample P i) = true) /\
  sample P 0 = 0 /\ sample P 104 = p_T P.
Proof.
  intros P E i HC HT Hi. pose proof (construct_inv _ _ HC) as HB.
  split; [apply (sample_in_list P (e_c E)); assumption|]. split.
  - destruct (some_slab P E HB HT (sample P i) (sample_in P HT i Hi)) as [n [Hn Hw]].
    exists n. rewrite <- (bu_NP _ _ HB). split; [exact Hn|]. rewrite <- (tgrid_td _ _ HC). split; [exact Hw|].
    apply in_n_within. exact Hw.
  - unfold sample. split; [cbn [INR]; ring|]. rewrite INR_IZR_INZ. cbn. field.
Qed.
(** In double precision this fails: on [0,1] with 6 slabs no slab takes the last
    sample, t = 1.0, because 5 * delta_t + delta_t < 1.0.  (The same happens for
    6 slabs on [0,2], and for the other numbers of slabs listed.) *)
Theorem C43_doubles_refuted :
  nth 104 (FloatModel.f_samples (FloatModel.fn 1)) (FloatModel.fn 0) = FloatModel.fn 1 /\
  (forall n, (n < 6)%nat -> FloatModel.f_in_slab (FloatModel.fn 1) 6 n (FloatModel.fn 1) = false) /\
  FloatModel.f_missed (FloatModel.fn 1) 6 = [104%nat] /\
  FloatModel.f_missed (FloatModel.fn 2) 6 = [104%nat] /\
  List.Forall (fun N => FloatModel.f_evaluated (FloatModel.fn 1) N (FloatModel.fn 1) = false) [6; 14; 24; 28; 29; 38; 54]%nat.
Proof.
  split; [vm_compute; reflexivity|]. split.
  - intros n Hn. do 6 (destruct n as [|n]; [vm_compute; reflexivity|]). lia.
  - split; [vm_compute; reflexivity|]. split; [vm_compute; reflexivity|].
    repeat (constructor; [vm_compute; reflexivity|]). constructor.
Qed.
(** Props_Float.v says when it fails, for every final time and number of slabs. *)

(** * C44 *)
Theorem C44_reconstruction : forall P c U l, construct P = Ok c -> 0 < p_T P ->
  let d := tgrid P in
  (* the same value at an interface from both sides *)
  (forall n, recon d U (S n) (INR (S n) * t_dt d) l = recon d U n (INR (S n) * t_dt d) l) /\
  (* the discrete solution at the end of each slab and at time 0 *)
  (forall n, recon d U n (INR (S n) * t_dt d) l = at_time d U 0 n (INR (S n) * t_dt d) l) /\
  recon d U 0 0 l = at_time d U 0 0 0 l /\
  (* the derivative *)
  (forall n t, is_derive (fun s => recon d U n s l) t (ddt (recon d U n) t l)).
Proof.
  intros P c U l HC HT d. pose proof (construct_inv _ _ HC) as HB. pose proof (dt_pos _ _ HC HT) as Hdt.
  unfold d. rewrite <- (tgrid_td _ _ HC).
  assert (En : forall n, INR (S n) * t_dt (td c) = INR n * c_dt c + c_dt c) by (intro n; rewrite S_INR; cbn; ring).
  assert (Ee : forall n, recon (td c) U n (INR (S n) * t_dt (td c)) l = at_time (td c) U 0 n (INR (S n) * t_dt (td c)) l).
  { intro n. rewrite En, (rec_end P c U HB Hdt), <- En. unfold lower. replace (S n - 1)%nat with n by lia. reflexivity. }
  split; [|split; [exact Ee|split]].
  - intro n. change (t_dt (td c)) with (c_dt c) at 1. rewrite (rec_cont P c U HB Hdt), <- En. reflexivity.
  - replace 0 with (INR 0 * c_dt c) at 1 by (cbn; ring). rewrite (rec_start P c U HB Hdt). cbn [Nat.ltb Nat.leb].
    unfold upper. replace (INR 0 * t_dt (td c)) with 0 by (cbn; ring). reflexivity.
  - intros n t. apply (rec_derive P c U HB).
Qed.
(** The two expressions the code builds at a time t of slab n are the
    reconstruction and its time derivative. *)
Theorem C44_sampled : forall P E uh us um n t p, construct P = Ok (e_c E) -> 0 < p_T P ->
  let d := tgrid P in let U := field_of (e_Lf E) uh in
  (forall j l, (j <= Z.to_nat (p_q P))%nat -> (l < d_dim (e_D E) Vp)%nat -> us j l = U 0%nat (n * S (Z.to_nat (p_q P)) + j)%nat l) ->
  (forall l, (0 < n)%nat -> (l < d_dim (e_D E) Vp)%nat -> um l = U 0%nat (n * S (Z.to_nat (p_q P)) - 1)%nat l) ->
  uh_at E n (INR n * t_dt d) t us um p = fev (e_D E) Dx Vp Val (recon d U n t) p 0 /\
  duh_at E n (INR n * t_dt d) t us um p = fev (e_D E) Dx Vp Val (ddt (recon d U n) t) p 0.
Proof.
  intros P E uh us um n t p HC HT d U H1 H2. pose proof (construct_inv _ _ HC) as HB. pose proof (dt_pos _ _ HC HT) as Hdt.
  unfold d. rewrite <- (tgrid_td _ _ HC). rewrite <- (bu_cq _ _ HB) in H1, H2. cbn [t_dt td].
  assert (H1' : forall j l, (j < S (c_q (e_c E)))%nat -> (l < d_dim (e_D E) Vp)%nat -> us j l = U 0%nat (n * S (c_q (e_c E)) + j)%nat l)
    by (intros; apply H1; [lia|assumption]).
  split; [apply (uh_rec P (e_c E) (e_D E) U HB Hdt us um n H1' H2 E eq_refl eq_refl)|
          apply (duh_rec P (e_c E) (e_D E) U HB Hdt us um n H1' H2 E eq_refl eq_refl)].
Qed.

(** * C45 *)
Lemma all_e_in E f N x : In x (all_e E f (seq 0 N)) <->
  exists n t, (n < N)%nat /\ In t (c_samples (e_c E)) /\ within (td (e_c E)) n t /\ x = sqrt (f n t).
Proof.
  unfold all_e. rewrite in_flat_map. split.
  - intros [n [Hn H]]. apply in_seq in Hn. apply in_map_iff in H. destruct H as [t [<- H]]. apply filter_In in H. destruct H as [H1 H2].
    apply in_n_within in H2. exists n, t. split; [lia|]. tauto.
  - intros [n [t [Hn [H1 [H2 ->]]]]]. exists n. split; [apply in_seq; lia|]. apply in_map_iff. exists t. split; [reflexivity|].
    apply filter_In. split; [exact H1|]. apply in_n_within. exact H2.
Qed.
(** two slabs containing t give the same error *)
Lemma err2_one P c D v U n m t : construct P = Ok c -> 0 < p_T P -> within (tgrid P) n t -> within (tgrid P) m t ->
  err2 D (tgrid P) v U n t = err2 D (tgrid P) v U m t.
Proof.
  intros HC HT. pose proof (dt_pos _ _ HC HT) as Hdt. pose proof (tgrid_td _ _ HC) as Ht.
  assert (W : forall n m, (n < m)%nat -> within (tgrid P) n t -> within (tgrid P) m t -> err2 D (tgrid P) v U n t = err2 D (tgrid P) v U m t).
  { clear n m. intros n m Hnm [A1 A2] [B1 B2]. assert (Hd : t_dt (tgrid P) = c_dt c) by (rewrite <- Ht; reflexivity).
    rewrite Hd in *. assert (INR (S n) <= INR m) by (apply le_INR; lia). rewrite S_INR in *.
    assert (Hm : m = S n).
    { apply INR_eq. rewrite S_INR. assert (INR m * c_dt c <= (INR n + 1) * c_dt c) by lra.
      apply Rmult_le_reg_r in H0; [lra|exact Hdt]. }
    subst m. rewrite S_INR in *. assert (Et : t = INR (S n) * t_dt (tgrid P)) by (rewrite Hd, S_INR; lra).
    unfold err2, dist2. apply Rsum_ext. intro p. do 2 f_equal. f_equal. apply fev_ext. intros l _. rewrite Et. symmetry.
    apply (proj1 (C44_reconstruction P c U l HC HT)). }
  intros A B. destruct (Nat.lt_trichotomy n m) as [H|[->|H]]; [apply W; assumption|reflexivity|symmetry; apply W; assumption].
Qed.

Section Measured.
  Variables (P : params) (E : env).
  Hypothesis HC : construct P = Ok (e_c E).
  Hypothesis HE : env_ok E.
  Hypothesis HT : 0 < p_T P.
  Hypothesis Hw : nonneg_dx (e_D E).
  Variables (u : nat) (s : state).
  Hypothesis Hf : s_fes s = true.
  Notation D := (e_D E).
  Notation d := (tgrid P).
  Notation U := (field_of (e_Lf E) (s_heap s u)).
  Definition e_at (n : nat) (t : R) : R := sqrt (err2 D d (p_v P) U n t).
  Definition de_at (n : nat) (t : R) : R := sqrt (derr2 D d (p_dv P) U n t).
  (** all values of f at sample times in the slabs are bounded by m, which is one of them *)
  Definition max_over (f : nat -> R -> R) (m : R) : Prop :=
    (forall n i, (n < p_N P)%nat -> (i <= 104)%nat -> within d n (sample P i) -> f n (sample P i) <= m) /\
    exists n i, (n < p_N P)%nat /\ (i <= 104)%nat /\ within d n (sample P i) /\ f n (sample P i) = m.
  Lemma max_of f m : py_max (all_e E f (seq 0 (c_N (e_c E)))) = Ok m -> max_over (fun n t => sqrt (f n t)) m.
  Proof.
    intro H. destruct (py_max_spec _ _ H) as [A B]. pose proof (construct_inv _ _ HC) as HB. split.
    - intros n i Hn Hi Hwi. apply B. apply all_e_in. exists n, (sample P i). rewrite (bu_NP _ _ HB). split; [exact Hn|].
      split; [apply sample_in_list; assumption|]. rewrite (tgrid_td _ _ HC). split; [exact Hwi|reflexivity].
    - apply all_e_in in A. destruct A as [n [t [Hn [H1 [H2 H3]]]]]. apply (in_samples P E HB) in H1. destruct H1 as [i [Hi Et]].
      exists n, i. rewrite (bu_NP _ _ HB) in Hn. split; [exact Hn|]. split; [exact Hi|]. unfold sample. rewrite <- Et.
      rewrite <- (tgrid_td _ _ HC). split; [exact H2|symmetry; exact H3].
  Qed.
  Theorem measured : exists r s', measured_errors E u s = (Ok r, s') /\ s_heap s' = s_heap s
    /\ er_T r = e_at (p_N P - 1) (p_T P) /\ max_over e_at (er_inf r) /\ max_over de_at (er_dinf r)
    /\ er_l2 r = sqrt (Rsum (seq 0 (p_N P)) (fun n => Rsum (c_qr_ho (e_c E)) (fun '(tau, om) =>
         om * t_dt d * derr2 D d (p_dv P) U n (INR n * t_dt d + t_dt d * tau)))).
  Proof.
    pose proof (construct_inv _ _ HC) as HB.
    destruct (measure_run P E HB HE HT Hw u s Hf) as [m1 [m2 [s' H]]]. cbn zeta in H. destruct H as [H1 [H2 [H3 H4]]].
    rewrite (tgrid_td _ _ HC), (bu_v _ _ HB) in *. rewrite (bu_dv _ _ HB) in *.
    eexists _, s'. split; [exact H1|]. split; [exact H2|]. cbn [er_T er_inf er_dinf er_l2].
    split; [rewrite (bu_NP _ _ HB), (bu_T _ _ HB); reflexivity|].
    split; [apply (max_of _ _ H3)|]. split; [apply (max_of _ _ H4)|].
    rewrite (bu_NP _ _ HB). f_equal. apply Rsum_ext. intro n. unfold quad_n. rewrite (tgrid_td _ _ HC), (bu_dv _ _ HB).
    apply Rsum_ext. intros [tau om]. rewrite <- (tgrid_td _ _ HC). reflexivity.
  Qed.
End Measured.

(** "L-infty-L2-error-u" is the maximum over the sample times of the L2 error of
    the reconstruction, a function [e] of time alone: an interface is measured
    twice with the same result.  The maximum for the time derivative is over
    both one-sided derivatives at an interface. *)
Theorem C45_maximum : forall P E u s r s', construct P = Ok (e_c E) -> env_ok E -> 0 < p_T P -> nonneg_dx (e_D E) -> s_fes s = true ->
  measured_errors E u s = (Ok r, s') ->
  (exists e : R -> R,
     (forall n t, (n < p_N P)%nat -> within (tgrid P) n t -> e_at P E u s n t = e t) /\
     (forall i, (i <= 104)%nat -> e (sample P i) <= er_inf r) /\
     (exists i, (i <= 104)%nat /\ e (sample P i) = er_inf r) /\
     er_T r = e (p_T P) /\ er_T r <= er_inf r) /\
  max_over P (de_at P E u s) (er_dinf r).
Proof.
  intros P E u s r s' HC HE HT Hw Hf Hm. pose proof (construct_inv _ _ HC) as HB.
  destruct (measured P E HC HE HT Hw u s Hf) as [r1 [s1 [M [_ [HT1 [[B1 B2] [Hd _]]]]]]]. rewrite Hm in M. injection M as -> ->.
  split; [|exact Hd].
  set (slab := fix slab (n : nat) (t : R) : nat := match n with O => O | S n' => if Rle_dec (INR n * t_dt (tgrid P)) t then n else slab n' t end).
  assert (SN : forall n t, (slab n t <= n)%nat).
  { induction n as [|n IH]; intro t; [cbn; lia|]. cbn [slab]. destruct (Rle_dec _ _); [lia|]. specialize (IH t). lia. }
  assert (dt0 : 0 < t_dt (tgrid P)) by (rewrite <- (tgrid_td _ _ HC); apply (dt_pos _ _ HC HT)).
  assert (SL : forall n t, 0 <= t <= INR (S n) * t_dt (tgrid P) -> within (tgrid P) (slab n t) t).
  { induction n as [|n IH]; intros t Ht.
    - unfold within. cbn in *. lra.
    - cbn [slab]. destruct (Rle_dec (INR (S n) * t_dt (tgrid P)) t) as [A|A].
      + unfold within. rewrite (S_INR (S n)) in Ht. lra.
      + apply IH. lra. }
  assert (N1 : (1 <= p_N P)%nat) by (rewrite <- (bu_NP _ _ HB); apply (bu_N _ _ HB)).
  assert (ET : INR (S (p_N P - 1)) * t_dt (tgrid P) = p_T P).
  { replace (S (p_N P - 1)) with (p_N P) by lia. cbn [t_dt tgrid]. field. apply not_0_INR. lia. }
  assert (ST : forall t, 0 <= t <= p_T P -> within (tgrid P) (slab (p_N P - 1)%nat t) t) by (intros t Ht; apply SL; rewrite ET; exact Ht).
  assert (SB : forall t, (slab (p_N P - 1)%nat t < p_N P)%nat) by (intro t; pose proof (SN (p_N P - 1)%nat t); lia).
  exists (fun t => e_at P E u s (slab (p_N P - 1)%nat t) t).
  assert (Hone : forall n t, (n < p_N P)%nat -> within (tgrid P) n t -> e_at P E u s n t = e_at P E u s (slab (p_N P - 1)%nat t) t).
  { intros n t Hn Hwt. unfold e_at. f_equal. apply (err2_one P (e_c E)); [assumption|assumption|assumption|].
    apply ST. destruct Hwt as [A B]. assert (0 <= INR n * t_dt (tgrid P)) by (apply Rmult_le_pos; [apply pos_INR|lra]).
    assert ((INR n + 1) * t_dt (tgrid P) <= p_T P).
    { rewrite <- ET. apply Rmult_le_compat_r; [lra|]. rewrite <- S_INR. apply le_INR. lia. }
    lra. }
  assert (WT : within (tgrid P) (p_N P - 1) (p_T P)).
  { rewrite <- ET at 1. unfold within. rewrite S_INR. lra. }
  assert (HeT : er_T r1 = e_at P E u s (slab (p_N P - 1)%nat (p_T P)) (p_T P)).
  { rewrite HT1. apply Hone; [lia|exact WT]. }
  assert (S104 : sample P 104 = p_T P) by (unfold sample; rewrite INR_IZR_INZ; cbn; field).
  split; [exact Hone|]. split; [|split; [|split]].
  - intros i Hi. apply B1; [apply SB|exact Hi|]. apply ST. apply sample_in; assumption.
  - destruct B2 as [n [i [Hn [Hi [Hwi Hx]]]]]. exists i. split; [exact Hi|]. rewrite <- Hx. symmetry. apply Hone; assumption.
  - exact HeT.
  - rewrite HeT. rewrite <- S104. apply B1; [apply SB|lia|]. apply ST. apply sample_in; [assumption|lia].
Qed.

(** * C46 *)
Theorem C46_total_nonnegative : forall P E u s, construct P = Ok (e_c E) -> env_ok E -> 0 < p_T P -> nonneg_dx (e_D E) -> s_fes s = true ->
  exists r s', measured_errors E u s = (Ok r, s') /\ s_heap s' = s_heap s /\
    0 <= er_T r /\ 0 <= er_inf r /\ 0 <= er_dinf r /\ 0 <= er_l2 r.
Proof.
  intros P E u s HC HE HT Hw Hf. destruct (measured P E HC HE HT Hw u s Hf) as [r [s' [M [Hh [H1 [[_ B1] [[_ B2] H4]]]]]]].
  exists r, s'. split; [exact M|]. split; [exact Hh|]. split; [rewrite H1; apply sqrt_pos|].
  destruct B1 as [n [i [_ [_ [_ <-]]]]]. destruct B2 as [n' [i' [_ [_ [_ <-]]]]]. rewrite H4.
  split; [apply sqrt_pos|]. split; apply sqrt_pos.
Qed.
Lemma dist2_zero D f : (forall p, In p (d_pts D Dx) -> f p = 0) -> dist2 D f = 0.
Proof.
  intro H. unfold dist2. induction (d_pts D Dx) as [|p l IH]; [apply Rsum_nil|]. rewrite Rsum_cons, IH.
  - rewrite H by (left; reflexivity). ring.
  - intros q Hq. apply H. right. exact Hq.
Qed.
Theorem C46_zero_when_exact : forall P E u s r s', construct P = Ok (e_c E) -> env_ok E -> 0 < p_T P -> nonneg_dx (e_D E) -> s_fes s = true ->
  measured_errors E u s = (Ok r, s') ->
  let U := field_of (e_Lf E) (s_heap s u) in let d := tgrid P in let D := e_D E in
  (forall n t p, (n < p_N P)%nat -> within d n t -> In p (d_pts D Dx) ->
     fev D Dx Vp Val (recon d U n t) p 0 = p_v P t (d_x D p) /\ fev D Dx Vp Val (ddt (recon d U n) t) p 0 = p_dv P t (d_x D p)) ->
  er_T r = 0 /\ er_inf r = 0 /\ er_dinf r = 0 /\ er_l2 r = 0.
Proof.
  intros P E u s r s' HC HE HT Hw Hf Hm U d D Hx. pose proof (construct_inv _ _ HC) as HB.
  destruct (measured P E HC HE HT Hw u s Hf) as [r1 [s1 [M [_ [H1 [[_ B1] [[_ B2] H4]]]]]]]. rewrite Hm in M. injection M as -> ->.
  assert (Z1 : forall n t, (n < p_N P)%nat -> within d n t -> e_at P E u s n t = 0).
  { intros n t Hn Ht. unfold e_at, err2. rewrite dist2_zero; [apply sqrt_0|]. intros p Hp. destruct (Hx n t p Hn Ht Hp) as [A _].
    fold U d D. rewrite A. ring. }
  assert (Z2 : forall n t, (n < p_N P)%nat -> within d n t -> derr2 D d (p_dv P) U n t = 0).
  { intros n t Hn Ht. unfold derr2. apply dist2_zero. intros p Hp. destruct (Hx n t p Hn Ht Hp) as [_ A]. rewrite A. ring. }
  assert (dt0 : 0 < t_dt d) by (unfold d; rewrite <- (tgrid_td _ _ HC); apply (dt_pos _ _ HC HT)).
  assert (N1 : (1 <= p_N P)%nat) by (rewrite <- (bu_NP _ _ HB); apply (bu_N _ _ HB)).
  split; [rewrite H1; apply Z1; [lia|]|split; [|split]].
  - unfold within. assert (p_T P = INR (S (p_N P - 1)) * t_dt d) as ->; [|rewrite S_INR; lra].
    replace (S (p_N P - 1)) with (p_N P) by lia. cbn. field. apply not_0_INR. lia.
  - destruct B1 as [n [i [Hn [_ [Ht <-]]]]]. apply Z1; assumption.
  - destruct B2 as [n [i [Hn [_ [Ht <-]]]]]. unfold de_at. fold U d D. rewrite (Z2 n _ Hn Ht). apply sqrt_0.
  - rewrite H4. rewrite <- sqrt_0. f_equal.
    assert (G : forall ns, (forall n, In n ns -> (n < p_N P)%nat) -> Rsum ns (fun n => Rsum (c_qr_ho (e_c E)) (fun '(tau, om) =>
      om * t_dt d * derr2 D d (p_dv P) U n (INR n * t_dt d + t_dt d * tau))) = 0).
    { induction ns as [|n ns IH]; intro Hn; [apply Rsum_nil|]. rewrite Rsum_cons, IH; [|intros m Hm'; apply Hn; right; exact Hm'].
      rewrite Rplus_0_r.
      assert (K : forall l, (forall tau om, In (tau, om) l -> 0 <= tau <= 1) ->
        Rsum l (fun '(tau, om) => om * t_dt d * derr2 D d (p_dv P) U n (INR n * t_dt d + t_dt d * tau)) = 0).
      { induction l as [|[tau om] l IHl]; intro Hl; [apply Rsum_nil|]. rewrite Rsum_cons, IHl; [|intros; apply (Hl tau0 om0); right; assumption].
        pose proof (Hl tau om (or_introl eq_refl)). rewrite Z2; [ring|apply Hn; left; reflexivity|].
        unfold within. split; [pose proof (Rmult_le_pos (t_dt d) tau); lra|].
        pose proof (Rmult_le_compat_l (t_dt d) tau 1). lra. }
      apply K. intros tau om Hin. destruct (bu_qrho _ _ HB) as [qr [E1 E2]]. unfold zip_rule in E2.
      destruct (current_pts qr 0 1) as [[ps|]|e] eqn:Ep; cbn [rbind] in E2; try discriminate.
      2: { destruct (t_weights qr 1) as [[ws|]|e]; discriminate. }
      destruct (t_weights qr 1) as [[ws|]|e] eqn:Ew; cbn [rbind] in E2; try discriminate.
      assert (Ew' : t_weights qr (1 - 0) = Ok (Some ws)) by (replace (1 - 0) with 1 by ring; exact Ew).
      destruct (rule_admissible "Gauss-Radau" 5 eq_refl qr 0 1 ps ws E1 ltac:(lra) Ep Ew') as [_ [W _]].
      injection E2 as E2. rewrite <- E2 in Hin. apply in_combine_l in Hin. specialize (W _ Hin). lra. }
    apply G. intros n Hn. apply in_seq in Hn. lia.
Qed.

(** * C47 *)
(** evaluating a finite element function with n coefficients at a point: a
    linear function of the coefficients *)
Definition point_eval (n : nat) (ev : vec -> R -> R) : Prop :=
  forall x, exists w : nat -> R, forall u, ev u x = sumn n (fun l => w l * u l).
Lemma point_eval_comb n ev k (a : nat -> R) (us : nat -> vec) f x : point_eval n ev ->
  (forall l, (l < n)%nat -> f l = sumn k (fun j => a j * us j l)) -> sumn k (fun j => a j * ev (us j) x) = ev f x.
Proof.
  intros Hev Hf. destruct (Hev x) as [w Hw]. rewrite Hw.
  rewrite (sumn_ext n _ (fun l => sumn k (fun j => w l * (a j * us j l)))).
  2: { intros l Hl. rewrite Hf by exact Hl. rewrite Rsum_scal. reflexivity. }
  rewrite Rsum_swap. apply sumn_ext. intros j _. rewrite Hw, <- Rsum_scal. apply Rsum_ext. intro l. ring.
Qed.
Lemma linspace_nth nsp k : (k < nsp)%nat -> nth k (linspace01 nsp) 0 = INR k / INR (nsp - 1).
Proof.
  intro H. unfold linspace01. destruct (Nat.eqb_spec nsp 1) as [->|Hn].
  - replace k with 0%nat by lia. cbn. unfold Rdiv. ring.
  - rewrite (nth_indep _ 0 (INR 0 / INR (nsp - 1))) by (rewrite map_length, seq_length; exact H).
    rewrite (map_nth (fun i => INR i / INR (nsp - 1))). rewrite seq_nth by exact H. reflexivity.
Qed.
Theorem C47_plot_arrays : forall P E ev u nsp nsub abs_val s, construct P = Ok (e_c E) -> env_ok E -> 0 < p_T P -> s_fes s = true ->
  point_eval (d_dim (e_D E) Vp) ev -> (1 <= nsp)%nat ->
  let d := tgrid P in let U := field_of (e_Lf E) (s_heap s u) in let show := if abs_val : bool then Rabs else fun x => x in
  exists a, plot E ev u nsp nsub abs_val s = (Ok a, s) /\ plot_error E ev u nsp nsub s = plot E ev u nsp nsub false s /\
  List.length (pd_ts a) = (p_N P * nsub)%nat /\
  (forall r r', (r < r' < p_N P * nsub)%nat -> nth r (pd_ts a) 0 < nth r' (pd_ts a) 0) /\
  (forall r, (r < p_N P * nsub)%nat ->
     let n := (r / nsub)%nat in let t := nth r (pd_ts a) 0 in
     (n < p_N P)%nat /\ INR n * t_dt d <= t < INR n * t_dt d + t_dt d /\
     forall k, (k < nsp)%nat -> let x := INR k / INR (nsp - 1) in
       pd_val a r k = show (ev (at_time d U 0 n t) x) /\
       pd_dval a r k = show (ev (ddt (at_time d U 0 n) t) x) /\
       pd_err a r k = Rabs (ev (at_time d U 0 n t) x - p_v P t [x]) /\
       pd_derr a r k = Rabs (ev (ddt (at_time d U 0 n) t) x - p_dv P t [x])).
Proof.
  intros P E ev u nsp nsub abs_val s HC HE HT Hf Hev Hnsp d U show.
  pose proof (construct_inv _ _ HC) as HB. pose proof (dt_pos _ _ HC HT) as Hdt. pose proof (tgrid_td _ _ HC) as Ht. fold d in Ht.
  exists (plot_arrays E ev show (s_heap s u) nsp nsub).
  split; [|split; [reflexivity|]].
  { unfold plot. rewrite bind_fes_ok by exact Hf. rewrite bind_err_if_ok.
    - rewrite bind_get. reflexivity.
    - rewrite (nz_dt E Hdt). reflexivity. }
  rewrite (ts_eq E ev show (s_heap s u) nsp nsub Hnsp). rewrite (bu_NP _ _ HB).
  assert (Hts : forall r, (r < p_N P * nsub)%nat -> nth r (map (fun r0 => INR r0 * (c_dt (e_c E) / INR nsub)) (seq 0 (p_N P * nsub))) 0
    = INR r * (c_dt (e_c E) / INR nsub)).
  { intros r Hr. rewrite (nth_indep _ 0 (INR 0 * (c_dt (e_c E) / INR nsub))) by (rewrite map_length, seq_length; exact Hr).
    rewrite (map_nth (fun r0 => INR r0 * (c_dt (e_c E) / INR nsub))). rewrite seq_nth by exact Hr. reflexivity. }
  split; [rewrite map_length, seq_length; reflexivity|]. split.
  { intros r r' [Hr Hr']. rewrite !Hts by lia. apply Rmult_lt_compat_r; [|apply lt_INR; exact Hr].
    apply Rmult_lt_0_compat; [exact Hdt|]. apply Rinv_0_lt_compat. apply lt_0_INR. nia. }
  intros r Hr n t. assert (Hs : (0 < nsub)%nat) by nia. assert (Hs' : 0 < INR nsub) by (apply lt_0_INR; exact Hs).
  pose proof (Nat.div_mod r nsub ltac:(lia)) as Er. fold n in Er. pose proof (Nat.mod_upper_bound r nsub ltac:(lia)) as Hm.
  set (m := (r mod nsub)%nat) in *. assert (Hn : (n < p_N P)%nat) by nia.
  assert (Et : t = INR n * c_dt (e_c E) + c_dt (e_c E) * (INR m / INR nsub)).
  { unfold t. rewrite Hts by exact Hr. rewrite Er, plus_INR, mult_INR. field. lra. }
  assert (Hfr : 0 <= INR m / INR nsub < 1).
  { split; [apply Rmult_le_pos; [apply pos_INR|left; apply Rinv_0_lt_compat; exact Hs']|].
    apply (Rmult_lt_reg_r (INR nsub)); [exact Hs'|]. replace (INR m / INR nsub * INR nsub) with (INR m) by (field; lra).
    rewrite Rmult_1_l. apply lt_INR. exact Hm. }
  split; [exact Hn|]. split.
  { rewrite <- Ht. cbn [t_dt td]. rewrite Et. pose proof (Rmult_le_pos (c_dt (e_c E)) (INR m / INR nsub)).
    pose proof (Rmult_lt_compat_l (c_dt (e_c E)) (INR m / INR nsub) 1). lra. }
  intros k Hk x. rewrite <- Ht.
  assert (Ec : cell_t E nsub n m = t) by (unfold cell_t; rewrite (tau_at nsub m Hm), Et; reflexivity).
  assert (Ex : nth k (linspace01 nsp) 0 = x) by (apply linspace_nth; exact Hk).
  assert (Hcomp : forall i l, (i < S (c_q (e_c E)))%nat -> (l < d_dim (e_D E) Vp)%nat ->
    slab_us E (s_heap s u) n i l = U 0%nat (n * S (c_q (e_c E)) + i)%nat l).
  { intros i l Hi Hl. unfold slab_us. apply (comp_at E HE); [lia|apply idx_lt; [rewrite (bu_NP _ _ HB); exact Hn|exact Hi]|exact Hl]. }
  assert (Eu : cell_u E ev (s_heap s u) nsp nsub n m k = ev (at_time (td (e_c E)) U 0 n t) x).
  { unfold cell_u. rewrite Ec, Ex.
    rewrite (sumn_ext _ _ (fun i => lagrange (c_q (e_c E)) i ((t - INR n * c_dt (e_c E)) / c_dt (e_c E)) * ev (slab_us E (s_heap s u) n i) x)).
    2: { intros i Hi. rewrite (phi_lag P (e_c E) HB) by exact Hi. reflexivity. }
    apply (point_eval_comb (d_dim (e_D E) Vp) ev (S (c_q (e_c E))) (fun i => lagrange (c_q (e_c E)) i ((t - INR n * c_dt (e_c E)) / c_dt (e_c E))) _ _ x Hev).
    intros l Hl. unfold at_time. apply sumn_ext. intros i Hi. rewrite Hcomp by assumption. reflexivity. }
  assert (Ed : cell_du E ev (s_heap s u) nsp nsub n m k = ev (ddt (at_time (td (e_c E)) U 0 n) t) x).
  { unfold cell_du. rewrite Ec, Ex.
    rewrite (sumn_ext _ _ (fun i => (1 / c_dt (e_c E) * Derive (lagrange (c_q (e_c E)) i) ((t - INR n * c_dt (e_c E)) / c_dt (e_c E))) * ev (slab_us E (s_heap s u) n i) x)).
    2: { intros i Hi. rewrite (dphi_lag P (e_c E) HB) by exact Hi. reflexivity. }
    apply (point_eval_comb (d_dim (e_D E) Vp) ev (S (c_q (e_c E))) (fun i => 1 / c_dt (e_c E) * Derive (lagrange (c_q (e_c E)) i) ((t - INR n * c_dt (e_c E)) / c_dt (e_c E))) _ _ x Hev).
    intros l Hl. rewrite (ddt_rep (e_c E) Hdt (q_le P (e_c E) HB) (qs_le P (e_c E) HB)). apply sumn_ext. intros i Hi. rewrite Hcomp by assumption. reflexivity. }
  assert (HnC : (n < c_N (e_c E))%nat) by (rewrite (bu_NP _ _ HB); exact Hn).
  assert (Err : r = (n * nsub + m)%nat) by lia. rewrite Err.
  rewrite (array_at E ev show (s_heap s u) nsp nsub pd_val _ n m k (fills_val _ _ _ _ _ _)) by assumption.
  rewrite (array_at E ev show (s_heap s u) nsp nsub pd_dval _ n m k (fills_dval _ _ _ _ _ _)) by assumption.
  rewrite (array_at E ev show (s_heap s u) nsp nsub pd_err _ n m k (fills_err _ _ _ _ _ _)) by assumption.
  rewrite (array_at E ev show (s_heap s u) nsp nsub pd_derr _ n m k (fills_derr _ _ _ _ _ _)) by assumption.
  rewrite Eu, Ed, Ec, Ex, (bu_v _ _ HB), (bu_dv _ _ HB). repeat (split; [reflexivity|]). reflexivity.
Qed.
(** plot_para_view: the numbers written are |exact - discrete| at the interpolation points, both
    for u1 and u2 and both at the final time; vectors of the caller are left alone *)
Theorem C47_paraview : forall P E pt u s, construct P = Ok (e_c E) -> env_ok E -> 0 < p_T P -> s_fes s = true ->
  let d := tgrid P in let U := field_of (e_Lf E) (s_heap s u) in
  exists a b s', plot_para_view E pt u s = (Ok (a, b), s') /\ s_heap s' = s_heap s /\
  forall l, (l < d_dim (e_D E) Vp)%nat ->
    a l = Rabs (p_v P (p_T P) (pt l) - at_time d U 0 (p_N P - 1) (p_T P) l) /\
    b l = Rabs (p_dv P (p_T P) (pt l) - at_time d U 1 (p_N P - 1) (p_T P) l).
Proof.
  intros P E pt u s HC HE HT Hf d U. pose proof (construct_inv _ _ HC) as HB. pose proof (dt_pos _ _ HC HT) as Hdt.
  set (c := e_c E) in *. set (uh := s_heap s u) in *.
  set (s1 := w_u20 (comp_of (e_Lf E) uh 1 (nc_full c 1 - 1)) (w_u10 (comp_of (e_Lf E) uh 0 (nc_full c 0 - 1)) (w_uh uh s))).
  assert (L : load_solution E u s = (Ok tt, s1)).
  { unfold load_solution. rewrite bind_fes_ok by exact Hf. rewrite bind_modify, bind_get, bind_modify. reflexivity. }
  eexists _, _, s1. split; [unfold plot_para_view; rewrite (bind_ok _ _ _ _ _ L), bind_get; reflexivity|]. split; [reflexivity|].
  intros l Hl. cbn [s_u10 s_u20].
  assert (HN : (1 <= c_N c)%nat) by exact (bu_N _ _ HB).
  assert (EL : forall j, (j < 2)%nat -> comp_of (e_Lf E) uh j (nc_full c j - 1) l = at_time d U j (p_N P - 1) (p_T P) l).
  { intros j Hj. assert (ET : p_T P = INR (p_N P) * t_dt d).
    { unfold d. rewrite <- (tgrid_td _ _ HC). cbn [t_dt td]. rewrite <- (bu_NP _ _ HB), <- (bu_T _ _ HB). fold c. exact (m_T P E HB). }
    rewrite ET. change (at_time d U j (p_N P - 1) (INR (p_N P) * t_dt d)) with (lower d U j (p_N P)).
    unfold d. rewrite <- (tgrid_td _ _ HC), <- (bu_NP _ _ HB). fold c. rewrite (lower_coef c Hdt (q_le P c HB) (qs_le P c HB)) by exact HN.
    assert (0 < nc_full c j)%nat by (unfold nc_full; destruct j as [|[|]]; [cbn; nia|cbn; nia|lia]).
    rewrite (comp_at E HE uh) by (first [fold c; lia|destruct j as [|[|]]; [exact Hl|exact Hl|lia]]). unfold nc_full. rewrite Nat.mul_comm. reflexivity. }
  rewrite <- (EL 0%nat ltac:(lia)), <- (EL 1%nat ltac:(lia)), <- (bu_T _ _ HB), <- (bu_v _ _ HB), <- (bu_dv _ _ HB). split; reflexivity.
Qed.

(** * Examples *)
(** exact solution v(t, x) = t on (0,1) x (0,1), piecewise linear in time, any
    number of slabs; the coefficient vector of v itself *)
Definition ex_exact (N : nat) : vec := fun I => INR (I / 3 / 2 + (I / 3) mod 2) * (1 / INR N).
Lemma exI_nonneg : nonneg_dx exI.
Proof. intros p _. cbn. lra. Qed.
Section ExErr.
  Variables (N : nat) (c : config).
  Hypothesis HN : (1 <= N)%nat.
  Hypothesis HC : construct (exP 1 1 N false false) = Ok c.
  Notation E := (exE exI c).
  Notation P := (exP 1 1 N false false).
  Let HB := construct_inv _ _ HC.
  Lemma xx_env : env_ok E.
  Proof. apply exE_ok, (bu_N _ _ HB). Qed.
  Definition ex_s (v : vec) : state := after E [Setup_fes] (init_state false om1 (fun _ => v) 5).
  Lemma xx_s v : s_fes (ex_s v) = true /\ s_heap (ex_s v) 0%nat = v.
  Proof. split; reflexivity. Qed.
  Lemma xx_dt : t_dt (tgrid P) = 1 / INR N.
  Proof. reflexivity. Qed.
  Lemma xx_U i l : (l < 3)%nat -> field_of (e_Lf E) (ex_exact N) 0%nat i l = INR (i / 2 + i mod 2) * (1 / INR N).
  Proof.
    intro Hl. unfold field_of, dof. cbn [e_Lf exE lay_sub std_layout base]. cbn [spc Nat.ltb Nat.leb d_dim exI].
    rewrite seq_nth by exact Hl. unfold ex_exact. replace ((0 + i * 3 + l) / 3)%nat with i; [reflexivity|].
    rewrite Nat.add_0_l, Nat.add_comm, Nat.div_add, Nat.div_small by lia. reflexivity.
  Qed.
  Lemma xx_at n t l : (l < 3)%nat -> at_time (tgrid P) (field_of (e_Lf E) (ex_exact N)) 0 n t l = t.
  Proof.
    intro Hl. unfold at_time. change (ord (tgrid P) 0) with 1%nat. cbn [seq]. rewrite !Rsum_cons, Rsum_nil.
    rewrite !xx_U by exact Hl. rewrite xx_dt.
    replace ((n * 2 + 0) / 2 + (n * 2 + 0) mod 2)%nat with n.
    2: { rewrite Nat.add_0_r, Nat.div_mul, Nat.mod_mul by lia. lia. }
    replace ((n * 2 + 1) / 2 + (n * 2 + 1) mod 2)%nat with (S n).
    2: { rewrite (Nat.add_comm (n * 2) 1), Nat.div_add, Nat.mod_add by lia. change (S n = (0 + n) + 1)%nat. lia. }
    rewrite S_INR. unfold lagrange, node. cbn. field. apply not_0_INR. lia.
  Qed.
  Lemma xx_rec n t l : (l < 3)%nat -> recon (tgrid P) (field_of (e_Lf E) (ex_exact N)) n t l = t.
  Proof.
    intro Hl. unfold recon, jumpv, vsub, upper, lower. rewrite !xx_at by exact Hl. destruct (Nat.ltb 0 n); ring.
  Qed.
  Lemma xx_fev (f : vec) k p : In p (d_pts exI Dx) -> (forall l, (l < 3)%nat -> f l = k) -> fev exI Dx Vp Val f p 0 = k.
  Proof.
    intros Hp Hf. rewrite (fev_ext exI Dx Vp Val f (fun _ => k)) by exact Hf. unfold fev. cbn [d_dim exI seq].
    rewrite !Rsum_cons, Rsum_nil. cbn [d_tab exI].
    cbn in Hp. destruct Hp as [<-|[<-|[<-|[<-|[]]]]]; cbn; ring.
  Qed.
  Lemma xx_all_zero : exists r s', measured_errors E 0 (ex_s (ex_exact N)) = (Ok r, s') /\
    er_T r = 0 /\ er_inf r = 0 /\ er_dinf r = 0 /\ er_l2 r = 0.
  Proof.
    destruct (xx_s (ex_exact N)) as [Hf Hh]. assert (HT : 0 < p_T P) by (cbn; lra).
    destruct (C46_total_nonnegative P E 0 _ HC xx_env HT exI_nonneg Hf) as [r [s' [M _]]]. exists r, s'. split; [exact M|].
    apply (C46_zero_when_exact P E 0 _ r s' HC xx_env HT exI_nonneg Hf M). rewrite Hh. cbn zeta. intros n t p Hn Ht Hp. cbn [e_D exE] in *. split.
    - apply xx_fev; [exact Hp|]. intros l Hl. rewrite xx_rec by exact Hl. reflexivity.
    - apply xx_fev; [exact Hp|]. intros l Hl. unfold ddt. rewrite (Derive_ext _ (fun s => s)) by (intro; apply xx_rec; exact Hl). apply Derive_id.
  Qed.
  (** the zero vector: the error at time t is t *)
  Lemma xx_e0 n t : 0 <= t -> e_at P E 0 (ex_s vzero) n t = t.
  Proof.
    intro Ht. unfold e_at, err2, dist2. destruct (xx_s vzero) as [_ ->]. cbn [e_D exE d_pts exI].
    rewrite !Rsum_cons, Rsum_nil. cbn [d_w p_v exP exI].
    assert (Z : forall p, fev exI Dx Vp Val (recon (tgrid P) (field_of (e_Lf E) vzero) n t) p 0 = 0).
    { assert (Z0 : forall m t' l, at_time (tgrid P) (field_of (e_Lf E) vzero) 0 m t' l = 0).
      { intros m t' l. unfold at_time. apply Rsum_zero. intros i _. change (field_of (e_Lf E) vzero 0%nat (m * S (ord (tgrid P) 0) + i)%nat l) with 0. ring. }
      intro p. unfold fev. apply Rsum_zero. intros l _. unfold recon, jumpv, vsub, upper, lower.
      rewrite !Z0. destruct (Nat.ltb 0 n); ring. }
    fold exI. rewrite !Z. match goal with |- sqrt ?x = _ => replace x with (t * t) by field end. apply sqrt_square. exact Ht.
  Qed.
  Lemma xx_zero_vector : exists r s', measured_errors E 0 (ex_s vzero) = (Ok r, s') /\ er_T r = 1 /\ er_inf r = 1.
  Proof.
    destruct (xx_s vzero) as [Hf Hh]. assert (HT : 0 < p_T P) by (cbn; lra).
    destruct (measured P E HC xx_env HT exI_nonneg 0 _ Hf) as [r [s' [M [_ [A [[B1 B2] _]]]]]]. exists r, s'. split; [exact M|].
    split; [rewrite A; apply xx_e0; cbn; lra|]. apply Rle_antisym.
    - destruct B2 as [n [i [_ [Hi [_ <-]]]]]. destruct (sample_in P HT i Hi) as [C1 C2]. rewrite xx_e0 by exact C1. exact C2.
    - destruct (C43_partial P E 104 HC HT ltac:(lia)) as [_ [[n [Hn [Hw _]]] [_ S1]]].
      specialize (B1 n 104%nat Hn ltac:(lia) Hw). rewrite S1 in B1. rewrite xx_e0 in B1 by (cbn; lra). exact B1.
  Qed.
End ExErr.
Example errors_nonvacuous : forall N, (1 <= N)%nat -> exists P E, construct P = Ok (e_c E) /\ env_ok E /\ 0 < p_T P /\ nonneg_dx (e_D E) /\ p_N P = N /\
  (exists u s r s', s_fes s = true /\ measured_errors E u s = (Ok r, s') /\ er_T r = 0 /\ er_inf r = 0 /\ er_dinf r = 0 /\ er_l2 r = 0) /\
  (exists u s r s', s_fes s = true /\ measured_errors E u s = (Ok r, s') /\ er_T r = 1 /\ er_inf r = 1).
Proof.
  intros N HN. destruct (exP_ok 1 1 N false false) as [c HC]; try lia.
  exists (exP 1 1 N false false), (exE exI c). split; [exact HC|]. split; [apply (xx_env N c HC)|]. split; [cbn; lra|].
  split; [apply exI_nonneg|]. split; [reflexivity|]. split.
  - destruct (xx_all_zero N c HN HC) as [r [s' [A B]]]. exists 0%nat, (ex_s c (ex_exact N)), r, s'. split; [reflexivity|]. split; [exact A|exact B].
  - destruct (xx_zero_vector N c HN HC) as [r [s' [A B]]]. exists 0%nat, (ex_s c vzero), r, s'. split; [reflexivity|]. split; [exact A|exact B].
Qed.
(** a plot of the exact solution: entry (r, k) is the time of row r *)
Definition ex_ev : vec -> R -> R := fun u x => (1 - x) * u 0%nat + x * u 2%nat.
Lemma ex_ev_point : point_eval 3 ex_ev.
Proof.
  intro x. exists (fun l => match l with 0%nat => 1 - x | 2%nat => x | _ => 0 end). intro u. cbn [seq]. rewrite !Rsum_cons, Rsum_nil.
  unfold ex_ev. ring.
Qed.
Example plot_nonvacuous : forall N nsp nsub, (1 <= N)%nat -> (1 <= nsp)%nat -> exists E s a,
  plot E ex_ev 0 nsp nsub false s = (Ok a, s) /\
  forall r k, (r < N * nsub)%nat -> (k < nsp)%nat -> pd_val a r k = nth r (pd_ts a) 0 /\ pd_err a r k = 0.
Proof.
  intros N nsp nsub HN Hsp. destruct (exP_ok 1 1 N false false) as [c HC]; try lia.
  destruct (C47_plot_arrays _ (exE exI c) ex_ev 0 nsp nsub false (ex_s c (ex_exact N)) HC (xx_env N c HC) ltac:(cbn; lra) eq_refl ex_ev_point Hsp)
    as [a [H1 [_ [_ [_ H2]]]]]. exists (exE exI c), (ex_s c (ex_exact N)), a. split; [exact H1|].
  intros r k Hr Hk. destruct (H2 r Hr) as [_ [_ H3]]. destruct (H3 k Hk) as [V [_ [W _]]].
  assert (Z : forall n t, ex_ev (at_time (tgrid (exP 1 1 N false false)) (field_of (e_Lf (exE exI c)) (s_heap (ex_s c (ex_exact N)) 0%nat)) 0 n t) (INR k / INR (nsp - 1)) = t).
  { intros n t. unfold ex_ev. change (s_heap (ex_s c (ex_exact N)) 0%nat) with (ex_exact N). rewrite !(xx_at N c HN) by lia. ring. }
  rewrite Z in V, W. split; [exact V|]. rewrite W. cbn [p_v exP]. rewrite Rminus_diag_eq by reflexivity. apply Rabs_R0.
Qed.

Print Assumptions C43_partial.
Print Assumptions C43_doubles_refuted.
Print Assumptions C44_reconstruction.
Print Assumptions C44_sampled.
Print Assumptions C45_maximum.
Print Assumptions C46_total_nonnegative.
Print Assumptions C46_zero_when_exact.
Print Assumptions C47_plot_arrays.
Print Assumptions C47_paraview.
Print Assumptions errors_nonvacuous.
Print Assumptions plot_nonvacuous.
