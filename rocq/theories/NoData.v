(** NoData.v -- the primal stabilisation alone determines the discrete solution of the
    first slab if the spatial discretisation controls its functions by their Laplacian
    inside the cells, gradient jumps and boundary values. *)
From Coq Require Import Reals List ZArith Lra Lia Bool String FunctionalExtensionality.
From Coquelicot Require Import Coquelicot.
From Verif Require Import Base TimeModel TimeSpec TimeProofs QuadProofs FormModel FormSpec FormProofs
  SpaceTimeForms FormBlocks GuardProofs FormTime FormC12 FormSym FormStruct WellPosed Injective Stability ErrorBound Observe.
Import ListNotations.
Open Scope R_scope.

(** * Derivatives of cubics *)
Definition dcoef (a : nat -> R) (m : nat) : R :=
  match m with 0%nat => a 1%nat | 1%nat => 2 * a 2%nat | 2%nat => 3 * a 3%nat | _ => 0 end.
Lemma dcub_cub a t : dcub a t = cub (dcoef a) t.
Proof. unfold dcub, cub, dcoef. ring. Qed.
Lemma cub_sq_inverse a : cub_sq (dcoef a) <= 180 * cub_sq a.
Proof.
  unfold cub_sq, dcoef. set (a0 := a 0%nat). set (a1 := a 1%nat). set (a2 := a 2%nat). set (a3 := a 3%nat). cbn zeta.
  set (b3 := a3 / 20). set (b2 := (a2 + 30 * b3) / 6). set (b1 := (a1 + 6 * b2 - 12 * b3) / 2).
  set (b0 := a0 + b1 - b2 + b3).
  assert (E3 : a3 = 20 * b3) by (unfold b3; field).
  assert (E2 : a2 = 6 * b2 - 30 * b3) by (unfold b2; field).
  assert (E1 : a1 = 2 * b1 - 6 * b2 + 12 * b3) by (unfold b1; field).
  assert (E0 : a0 = b0 - b1 + b2 - b3) by (unfold b0; ring).
  rewrite E0, E1, E2, E3. clearbody b0 b1 b2 b3. clear.
  pose proof (Rle_0_sqr b0) as S0. pose proof (Rle_0_sqr b2) as S2. pose proof (Rle_0_sqr b3) as S3. pose proof (Rle_0_sqr b1) as S1.
  pose proof (Rle_0_sqr (b1 - b3 / 14)) as S4. unfold Rsqr in *. lra.
Qed.
Lemma cub_sq_three a b c : cub_sq (fun i => a i - b i - c i) <= 3 * (cub_sq a + cub_sq b + cub_sq c).
Proof.
  pose proof (cub_sq_pos (fun i => a i + b i)) as S1. pose proof (cub_sq_pos (fun i => a i + c i)) as S2. pose proof (cub_sq_pos (fun i => b i - c i)) as S3.
  assert (E : 3 * (cub_sq a + cub_sq b + cub_sq c) = cub_sq (fun i => a i - b i - c i) + cub_sq (fun i => a i + b i) + cub_sq (fun i => a i + c i) + cub_sq (fun i => b i - c i))
    by (unfold cub_sq; field). lra.
Qed.
Lemma cub_sq_ext a b : (forall m, (m < 4)%nat -> a m = b m) -> cub_sq a = cub_sq b.
Proof. intro H. unfold cub_sq. rewrite !H by lia. reflexivity. Qed.
(** low order in time: no quadratic and cubic part *)
Lemma lag_low o : (o <= 1)%nat -> exists k : nat -> nat -> R, (forall i t, (i <= o)%nat -> lagrange o i t = cub (k i) t) /\ (forall i, k i 2%nat = 0 /\ k i 3%nat = 0).
Proof.
  intro Ho. destruct o as [|[|o]]; [| |lia].
  - exists (fun _ m => match m with 0%nat => 1 | _ => 0 end). split; [|intro; split; reflexivity].
    intros i t Hi. assert (i = 0%nat) as -> by lia. unfold lagrange, cub. cbn. ring.
  - exists (fun i m => match i, m with 0%nat, 0%nat => 1 | 0%nat, 1%nat => -1 | 1%nat, 1%nat => 1 | _, _ => 0 end). split.
    + intros i t Hi. assert (i = 0 \/ i = 1)%nat as [-> | ->] by lia; unfold lagrange, cub, node; cbn; field.
    + intro i. destruct i as [|[|i]]; split; reflexivity.
Qed.

Section Slab.
  Variables (P : params) (c : config) (om : nat -> R) (D : disc).
  Hypothesis HB : built P c.
  Hypothesis Hdt : 0 < c_dt c.
  Let d := td c.
  Hypothesis HR : regular D om.

  (** time integral of a spatial product of functions that are cubic in time *)
  Definition ci (me : meas) (w : weight) (nc : nat) (f : nat -> nat -> nat -> R) : R :=
    Rsum (d_pts D me) (fun p => d_w D me p * wval D me w p * sumn nc (fun k => cub_sq (fun m => f m p k))).
  (** time derivative *)
  Definition Tf (f : nat -> nat -> nat -> R) : nat -> nat -> nat -> R := fun m p k => / c_dt c * dcoef (fun m => f m p k) m.
  Notation L := (180 / c_dt c ^ 2).
  Lemma L_pos : 0 < L.
  Proof. apply Rdiv_lt_0_compat; [lra|]. apply pow_lt, Hdt. Qed.
  Lemma ci_ext me w nc f h : (forall m p k, (m < 4)%nat -> f m p k = h m p k) -> ci me w nc f = ci me w nc h.
  Proof.
    intro H. unfold ci. apply Rsum_ext; intro p. f_equal. apply Rsum_ext; intro k. apply cub_sq_ext. intros m Hm. apply H, Hm.
  Qed.
  Lemma ci_nonneg me w nc f : nonneg_disc D me w -> 0 <= ci me w nc f.
  Proof. intro Hn. apply Rsum_nonneg. intros p Hp. apply Rmult_le_pos; [apply Hn, Hp|]. apply Rsum_nonneg. intros k _. apply cub_sq_pos. Qed.
  Lemma ci_mono me w nc f h C : nonneg_disc D me w -> 0 <= C ->
    (forall p k, cub_sq (fun m => f m p k) <= C * cub_sq (fun m => h m p k)) -> ci me w nc f <= C * ci me w nc h.
  Proof.
    intros Hn HC H. unfold ci. rewrite <- Rsum_scal. apply Rsum_le_in. intros p Hp.
    replace (C * (d_w D me p * wval D me w p * sumn nc (fun k => cub_sq (fun m => h m p k))))
      with (d_w D me p * wval D me w p * (C * sumn nc (fun k => cub_sq (fun m => h m p k)))) by ring.
    apply Rmult_le_compat_l; [apply Hn, Hp|]. rewrite <- Rsum_scal. apply Rsum_le_in. intros k _. apply H.
  Qed.
  Lemma ci_T me w nc f : nonneg_disc D me w -> ci me w nc (Tf f) <= L * ci me w nc f.
  Proof.
    intro Hn. apply ci_mono; [exact Hn|left; apply L_pos|]. intros p k. unfold Tf.
    rewrite (cub_sq_scal (/ c_dt c) (dcoef (fun m => f m p k))).
    replace (L * cub_sq (fun m => f m p k)) with ((/ c_dt c) ^ 2 * (180 * cub_sq (fun m => f m p k))) by (field; lra).
    apply Rmult_le_compat_l; [apply pow2_ge_0|apply cub_sq_inverse].
  Qed.
  Lemma ci_three me w nc f h e : nonneg_disc D me w ->
    ci me w nc (fun m p k => f m p k - h m p k - e m p k) <= 3 * (ci me w nc f + ci me w nc h + ci me w nc e).
  Proof.
    intro Hn. unfold ci. rewrite <- !Rsum_plus, <- Rsum_scal. apply Rsum_le_in. intros p Hp.
    rewrite <- !Rmult_plus_distr_l, <- !Rsum_plus.
    replace (3 * (d_w D me p * wval D me w p * sumn nc (fun k => cub_sq (fun m => f m p k) + cub_sq (fun m => h m p k) + cub_sq (fun m => e m p k))))
      with (d_w D me p * wval D me w p * (3 * sumn nc (fun k => cub_sq (fun m => f m p k) + cub_sq (fun m => h m p k) + cub_sq (fun m => e m p k)))) by ring.
    apply Rmult_le_compat_l; [apply Hn, Hp|]. rewrite <- Rsum_scal. apply Rsum_le_in. intros k _. apply cub_sq_three.
  Qed.
  Lemma ci_h2 H nc f : (forall p, In p (d_pts D Dx) -> d_h D Dx p <= H) -> ci Dx WH2 nc f <= H ^ 2 * ci Dx WOne nc f.
  Proof.
    intro HH. unfold ci. rewrite <- Rsum_scal. apply Rsum_le_in. intros p Hp. cbn [wval].
    pose proof (rg_w _ _ HR Dx p Hp) as W. pose proof (rg_h _ _ HR Dx p Hp) as Hh. specialize (HH p Hp).
    assert (S : 0 <= sumn nc (fun k => cub_sq (fun m => f m p k))) by (apply Rsum_nonneg; intros; apply cub_sq_pos).
    assert (Hs : d_h D Dx p ^ 2 <= H ^ 2) by (apply pow_incr; lra).
    set (s := sumn nc _) in *. pose proof (Rmult_le_pos _ _ W S) as WS. pose proof (Rmult_le_compat_l _ _ _ WS Hs). lra.
  Qed.
  (** it is an integral over the slab *)
  Lemma ci_int me w nc f n : is_RInt (fun t => integ D me w nc (fun p k => cub (fun m => f m p k) ((t - INR n * c_dt c) / c_dt c))
      (fun p k => cub (fun m => f m p k) ((t - INR n * c_dt c) / c_dt c))) (INR n * c_dt c) (INR n * c_dt c + c_dt c) (c_dt c * ci me w nc f).
  Proof.
    set (a := INR n * c_dt c). unfold ci, integ. rewrite <- Rsum_scal. apply is_RInt_Rsum. intro p.
    apply is_RInt_eq with (I := (d_w D me p * wval D me w p) * sumn nc (fun k => c_dt c * cub_sq (fun m => f m p k))).
    - apply is_RInt_scal_R. apply is_RInt_sumn. intros k _.
      pose proof (prod_int a (c_dt c) (cub (fun m => f m p k)) (cub (fun m => f m p k)) Hdt (cub_continuous _) (cub_continuous _)) as E.
      rewrite (is_RInt_unique _ _ _ _ (cub_sq_int _)) in E. exact E.
    - rewrite Rsum_scal. ring.
  Qed.

  (** values, Laplacians, .. of a function with coefficients C *)
  Definition vals (me : meas) (o : op) (C : nat -> vec) : nat -> nat -> nat -> R := fun m p k => fev D me Vp o (C m) p k.
  (** the three terms that control a function *)
  Definition ell0 (lam : R) (a : vec) : R :=
    integ D Dx WH2 1 (fun p _ => fev D Dx Vp Lap a p 0) (fun p _ => fev D Dx Vp Lap a p 0) + bndw D lam Vp a a + facet D Vp a a.
  Definition ell (lam : R) (C : nat -> vec) : R :=
    ci Dx WH2 1 (fun m p _ => fev D Dx Vp Lap (C m) p 0) + ci Ds (WLamH lam) 1 (vals Ds Val C) + ci DS WHavg (d_gd D) (vals DS JumpGrad C).
  Variables (K H : R).
  Hypothesis HK0 : 0 <= K.
  Hypothesis HK : forall a, L2 D Vp Vp a a <= K * ell0 (c_lam c) a.
  Hypothesis HH : forall p, In p (d_pts D Dx) -> d_h D Dx p <= H.
  Hypothesis Hlam : 0 <= c_lam c.
  Let N1 := reg_one D om Dx HR.
  Let N2 := reg_h2 D om Dx HR.
  Let N3 := reg_lamh D om Ds (c_lam c) Hlam HR.
  Let N4 := reg_havg D om HR.
  Notation cL2 f := (ci Dx WOne 1 f).
  Lemma ell_nonneg C : 0 <= ell (c_lam c) C.
  Proof. unfold ell. pose proof (ci_nonneg Dx WH2 1 (fun m p _ => fev D Dx Vp Lap (C m) p 0) N2). pose proof (ci_nonneg Ds _ 1 (vals Ds Val C) N3).
    pose proof (ci_nonneg DS _ (d_gd D) (vals DS JumpGrad C) N4). lra. Qed.
  Lemma ell_int lam C n : is_RInt (fun t => ell0 lam (vcub C ((t - INR n * c_dt c) / c_dt c))) (INR n * c_dt c) (INR n * c_dt c + c_dt c) (c_dt c * ell lam C).
  Proof.
    unfold ell. rewrite !Rmult_plus_distr_l.
    apply is_RInt_ext_R with (f := fun t =>
      integ D Dx WH2 1 (fun p k => cub (fun m => (fun m p _ => fev D Dx Vp Lap (C m) p 0%nat) m p k) ((t - INR n * c_dt c) / c_dt c))
         (fun p k => cub (fun m => (fun m p _ => fev D Dx Vp Lap (C m) p 0%nat) m p k) ((t - INR n * c_dt c) / c_dt c))
      + integ D Ds (WLamH lam) 1 (fun p k => cub (fun m => vals Ds Val C m p k) ((t - INR n * c_dt c) / c_dt c))
         (fun p k => cub (fun m => vals Ds Val C m p k) ((t - INR n * c_dt c) / c_dt c))
      + integ D DS WHavg (d_gd D) (fun p k => cub (fun m => vals DS JumpGrad C m p k) ((t - INR n * c_dt c) / c_dt c))
         (fun p k => cub (fun m => vals DS JumpGrad C m p k) ((t - INR n * c_dt c) / c_dt c))).
    - intro t. unfold ell0, bndw, facet, sp, integ, vals. cbn [ncomp]. f_equal; [f_equal|]; apply Rsum_ext; intro p; f_equal; apply Rsum_ext; intro k; rewrite fev_cub; reflexivity.
    - apply (is_RInt_plus (V := R_NormedModule)); [apply (is_RInt_plus (V := R_NormedModule))|]; apply ci_int.
  Qed.
  Lemma val_int C n : is_RInt (fun t => L2 D Vp Vp (vcub C ((t - INR n * c_dt c) / c_dt c)) (vcub C ((t - INR n * c_dt c) / c_dt c)))
    (INR n * c_dt c) (INR n * c_dt c + c_dt c) (c_dt c * cL2 (vals Dx Val C)).
  Proof.
    apply is_RInt_ext_R with (f := fun t => integ D Dx WOne 1 (fun p k => cub (fun m => vals Dx Val C m p k) ((t - INR n * c_dt c) / c_dt c))
         (fun p k => cub (fun m => vals Dx Val C m p k) ((t - INR n * c_dt c) / c_dt c))); [|apply ci_int].
    intro t. unfold L2, sp, integ, vals. cbn [ncomp]. apply Rsum_ext; intro p; f_equal; apply Rsum_ext; intro k; rewrite fev_cub; reflexivity.
  Qed.
  Lemma ell_controls C : cL2 (vals Dx Val C) <= K * ell (c_lam c) C.
  Proof.
    apply (Rmult_le_reg_l (c_dt c)); [exact Hdt|]. replace (c_dt c * (K * ell (c_lam c) C)) with (K * (c_dt c * ell (c_lam c) C)) by ring.
    apply (is_RInt_le (fun t => L2 D Vp Vp (vcub C ((t - INR 0 * c_dt c) / c_dt c)) (vcub C ((t - INR 0 * c_dt c) / c_dt c)))
      (fun t => K * ell0 (c_lam c) (vcub C ((t - INR 0 * c_dt c) / c_dt c))) (INR 0 * c_dt c) (INR 0 * c_dt c + c_dt c)).
    - lra.
    - apply val_int.
    - apply is_RInt_scal_R, ell_int.
    - intros t _. apply HK.
  Qed.
  (** coefficients of the time derivative *)
  Definition TC (C : nat -> vec) : nat -> vec := fun m l => / c_dt c * dcoef (fun m => C m l) m.
  Lemma fev_TC me o C m p k : (m < 4)%nat -> fev D me Vp o (TC C m) p k = Tf (vals me o C) m p k.
  Proof.
    intro Hm. unfold Tf, vals, TC, dcoef, fev. destruct m as [|[|[|[|m]]]]; [| | | |lia]; cbv beta iota; rewrite <- ?Rsum_scal, <- ?Rsum_scal.
    - apply Rsum_ext; intro l; ring.
    - apply Rsum_ext; intro l; ring.
    - apply Rsum_ext; intro l; ring.
    - rewrite Rmult_0_r. apply Rsum_zero. intros l _. ring.
  Qed.
  Definition M : R := 3 + 3 * H ^ 2 * L.
  Lemma M_ge : 3 <= M.
  Proof. unfold M. pose proof L_pos. pose proof (pow2_ge_0 H). pose proof (Rmult_le_pos _ _ H1 (Rlt_le _ _ H0)). lra. Qed.

  (** residuals of the two equations *)
  Definition r1 (C0 C1 : nat -> vec) : nat -> nat -> nat -> R := fun m p _ => fev D Dx Vp Val (TC C0 m) p 0 - fev D Dx Vp Val (C1 m) p 0.
  Definition r2 (C0 C1 : nat -> vec) : nat -> nat -> nat -> R := fun m p _ => fev D Dx Vp Val (TC C1 m) p 0 - fev D Dx Vp Lap (C0 m) p 0.
  Definition en (C0 C1 : nat -> vec) : R :=
    cL2 (r1 C0 C1) + ci Dx WH2 1 (r2 C0 C1) + ci Ds (WLamH (c_lam c)) 1 (vals Ds Val C0) + ci DS WHavg (d_gd D) (vals DS JumpGrad C0).
  (** one step: the controlling terms by the second time derivative and the residuals *)
  Lemma ell_step C0 C1 : ell (c_lam c) C0 <= 3 * H ^ 2 * cL2 (vals Dx Val (TC (TC C0))) + M * en C0 C1.
  Proof.
    unfold ell.
    rewrite (ci_ext Dx WH2 1 _ (fun m p k => vals Dx Val (TC (TC C0)) m p 0%nat - Tf (r1 C0 C1) m p k - r2 C0 C1 m p k)).
    2: { intros m p k Hm. unfold vals. unfold r2. rewrite !fev_TC by exact Hm.
      assert (E : Tf (vals Dx Val C1) m p 0 = Tf (vals Dx Val (TC C0)) m p 0 - Tf (r1 C0 C1) m p k).
      { unfold Tf, r1, vals. destruct m as [|[|[|[|m]]]]; [| | | |lia]; cbn [dcoef]; ring. }
      rewrite E. ring. }
    pose proof (ci_three Dx WH2 1 (fun m p _ => vals Dx Val (TC (TC C0)) m p 0%nat) (Tf (r1 C0 C1)) (r2 C0 C1) N2) as S.
    pose proof (ci_h2 H 1 (fun m p _ => vals Dx Val (TC (TC C0)) m p 0%nat) HH) as S1.
    pose proof (ci_h2 H 1 (Tf (r1 C0 C1)) HH) as S2.
    pose proof (ci_T Dx WOne 1 (r1 C0 C1) N1) as S3.
    assert (E : cL2 (fun m p _ => vals Dx Val (TC (TC C0)) m p 0%nat) = cL2 (vals Dx Val (TC (TC C0)))).
    { unfold ci. apply Rsum_ext; intro p. cbn [seq]. rewrite !Rsum_cons, !Rsum_nil. reflexivity. }
    rewrite E in S1. unfold en.
    pose proof (ci_nonneg Dx WOne 1 (r1 C0 C1) N1) as P1. pose proof (ci_nonneg Dx WH2 1 (r2 C0 C1) N2) as P2.
    pose proof (ci_nonneg Ds _ 1 (vals Ds Val C0) N3) as P3. pose proof (ci_nonneg DS _ (d_gd D) (vals DS JumpGrad C0) N4) as P4.
    set (x1 := cL2 (r1 C0 C1)) in *. set (x2 := ci Dx WH2 1 (r2 C0 C1)) in *. set (x3 := ci Ds _ _ _) in *. set (x4 := ci DS _ _ _) in *.
    set (y := cL2 (vals Dx Val (TC (TC C0)))) in *. set (z0 := ci Dx WH2 1 (fun m p k => _ - _ - _)) in *.
    set (z1 := ci Dx WH2 1 (fun m p _ => vals Dx Val (TC (TC C0)) m p 0%nat)) in *. set (z2 := ci Dx WH2 1 (Tf (r1 C0 C1))) in *.
    set (z3 := cL2 (Tf (r1 C0 C1))) in *. pose proof M_ge as HM.
    assert (Q : H ^ 2 * z3 <= H ^ 2 * (L * x1)) by (apply Rmult_le_compat_l; [apply pow2_ge_0|exact S3]).
    assert (Q2 : M * x2 >= 3 * x2) by nra. assert (Q3 : M * x3 >= x3) by nra. assert (Q4 : M * x4 >= x4) by nra.
    assert (Q1 : M * x1 = 3 * x1 + 3 * (H ^ 2 * (L * x1))) by (unfold M; ring). lra.
  Qed.
  Lemma vals_TC me o C m p k : (m < 4)%nat -> vals me o (TC C) m p k = Tf (vals me o C) m p k.
  Proof. intro Hm. unfold vals at 1. apply fev_TC, Hm. Qed.
  Lemma ci_TC me w nc o C : nonneg_disc D me w -> ci me w nc (vals me o (TC C)) <= L * ci me w nc (vals me o C).
  Proof. intro Hn. rewrite (ci_ext me w nc _ (Tf (vals me o C))) by (intros; apply vals_TC; assumption). apply ci_T, Hn. Qed.
  Lemma en_TC C0 C1 : en (TC C0) (TC C1) <= L * en C0 C1.
  Proof.
    unfold en.
    assert (E1 : forall m p k, (m < 4)%nat -> r1 (TC C0) (TC C1) m p k = Tf (r1 C0 C1) m p k).
    { intros m p k Hm. unfold r1. rewrite !fev_TC by exact Hm. unfold Tf, vals. destruct m as [|[|[|[|m]]]]; [| | | |lia]; cbn [dcoef]; ring. }
    assert (E2 : forall m p k, (m < 4)%nat -> r2 (TC C0) (TC C1) m p k = Tf (r2 C0 C1) m p k).
    { intros m p k Hm. unfold r2. rewrite !fev_TC by exact Hm. unfold Tf, vals. destruct m as [|[|[|[|m]]]]; [| | | |lia]; cbn [dcoef]; ring. }
    rewrite (ci_ext Dx WOne 1 _ _ E1), (ci_ext Dx WH2 1 _ _ E2).
    pose proof (ci_T Dx WOne 1 (r1 C0 C1) N1). pose proof (ci_T Dx WH2 1 (r2 C0 C1) N2).
    pose proof (ci_TC Ds _ 1 Val C0 N3). pose proof (ci_TC DS _ (d_gd D) JumpGrad C0 N4). lra.
  Qed.
  Lemma en_nonneg C0 C1 : 0 <= en C0 C1.
  Proof.
    unfold en. pose proof (ci_nonneg Dx WOne 1 (r1 C0 C1) N1). pose proof (ci_nonneg Dx WH2 1 (r2 C0 C1) N2).
    pose proof (ci_nonneg Ds _ 1 (vals Ds Val C0) N3). pose proof (ci_nonneg DS _ (d_gd D) (vals DS JumpGrad C0) N4). lra.
  Qed.
  Lemma ci_zero me w nc f : (forall m p k, (m < 4)%nat -> f m p k = 0) -> ci me w nc f = 0.
  Proof.
    intro Z. unfold ci. apply Rsum_zero. intros p _. rewrite Rsum_zero; [ring|]. intros k _.
    rewrite (cub_sq_ext _ (fun _ => 0)) by (intros; apply Z; assumption). unfold cub_sq. field.
  Qed.
  (** the fourth derivative of a cubic vanishes, the second one of a linear function *)
  Lemma TC4 C : cL2 (vals Dx Val (TC (TC (TC (TC C))))) = 0.
  Proof.
    apply ci_zero. intros m p k Hm. unfold vals, TC, fev. apply Rsum_zero. intros l _.
    destruct m as [|[|[|[|m]]]]; [| | | |lia]; cbn [dcoef]; ring.
  Qed.
  Lemma TC2 C : (forall l, C 2%nat l = 0 /\ C 3%nat l = 0) -> cL2 (vals Dx Val (TC (TC C))) = 0.
  Proof.
    intro Z. apply ci_zero. intros m p k Hm. unfold vals, TC, fev. apply Rsum_zero. intros l _. destruct (Z l) as [Z2 Z3].
    destruct m as [|[|[|[|m]]]]; [| | | |lia]; cbn [dcoef]; rewrite ?Z2, ?Z3; ring.
  Qed.
  Definition gain : R := K * M * (if Nat.leb (c_q c) 1 then 1 else 1 + 3 * H ^ 2 * K * L ^ 2).
  Lemma gain_nonneg : 0 <= gain.
  Proof.
    unfold gain. pose proof M_ge. apply Rmult_le_pos; [apply Rmult_le_pos; lra|]. destruct (Nat.leb _ _); [lra|].
    pose proof (Rmult_le_pos _ _ (Rmult_le_pos _ _ (pow2_ge_0 H) HK0) (pow2_ge_0 L)). lra.
  Qed.
  Lemma cub_bound C0 C1 : ((c_q c <= 1)%nat -> forall l, C0 2%nat l = 0 /\ C0 3%nat l = 0) ->
    cL2 (vals Dx Val C0) <= gain * en C0 C1.
  Proof.
    intro Hlow. pose proof (ell_controls C0) as A. pose proof (ell_step C0 C1) as B. pose proof M_ge as HM. pose proof (en_nonneg C0 C1) as E0.
    unfold gain. destruct (Nat.leb_spec (c_q c) 1) as [Hq|Hq].
    - rewrite (TC2 C0 (Hlow Hq)) in B. rewrite Rmult_0_r, Rplus_0_l in B. rewrite Rmult_1_r, Rmult_assoc.
      apply (Rle_trans _ _ _ A). apply Rmult_le_compat_l; assumption.
    - pose proof (ell_controls (TC (TC C0))) as A2. pose proof (ell_step (TC (TC C0)) (TC (TC C1))) as B2.
      rewrite TC4, Rmult_0_r, Rplus_0_l in B2. pose proof (en_TC C0 C1) as T1. pose proof (en_TC (TC C0) (TC C1)) as T2. pose proof L_pos as HL.
      set (e := en C0 C1) in *. set (e1 := en (TC C0) (TC C1)) in *. set (e2 := en (TC (TC C0)) (TC (TC C1))) in *.
      set (y := cL2 (vals Dx Val (TC (TC C0)))) in *. set (l := L) in *. clearbody l.
      assert (T3 : e2 <= l ^ 2 * e). { apply (Rle_trans _ _ _ T2). replace (l ^ 2 * e) with (l * (l * e)) by ring. apply Rmult_le_compat_l; lra. }
      assert (Y : y <= K * (M * (l ^ 2 * e))).
      { apply (Rle_trans _ _ _ A2). apply Rmult_le_compat_l; [exact HK0|]. apply (Rle_trans _ _ _ B2). apply Rmult_le_compat_l; lra. }
      pose proof (Rmult_le_compat_l (3 * H ^ 2) _ _ ltac:(pose proof (pow2_ge_0 H); lra) Y) as Y2.
      apply (Rle_trans _ _ _ A). rewrite !Rmult_assoc. apply Rmult_le_compat_l; [exact HK0|].
      replace (M * ((1 + 3 * (H ^ 2 * (K * l ^ 2))) * e)) with (3 * H ^ 2 * (K * (M * (l ^ 2 * e))) + M * e) by ring. lra.
  Qed.

  (** ** in terms of the slab functions *)
  Lemma at_cub_low X n : (c_q c <= 1)%nat -> exists C, (forall t l,
    at_time d X 0 n t l = vcub C ((t - INR n * c_dt c) / c_dt c) l
    /\ ddt (at_time d X 0 n) t l = 1 / c_dt c * vdcub C ((t - INR n * c_dt c) / c_dt c) l) /\ (forall l, C 2%nat l = 0 /\ C 3%nat l = 0).
  Proof.
    intro Hq. change (c_q c) with (ord d 0) in Hq. destruct (lag_low (ord d 0) Hq) as [k [Hk Hz]].
    exists (fun m l => sumn (S (ord d 0)) (fun i => k i m * restr (ntime c) n X 0%nat i l)). split.
    - intros t l. split.
      + unfold d. rewrite (at_time_rep c). fold d. unfold vcub. rewrite <- cub_sum. apply sumn_ext; intros i Hi. rewrite Hk by lia. reflexivity.
      + unfold d. rewrite (ddt_rep c Hdt (q_le P c HB) (qs_le P c HB)). fold d. unfold vdcub. rewrite <- dcub_sum, <- Rsum_scal.
        apply sumn_ext; intros i Hi. rewrite (Derive_ext (lagrange (ord d 0) i) (cub (k i))) by (intro; apply Hk; lia). rewrite Derive_cub. ring.
    - intro l. split; apply Rsum_zero; intros i _; destruct (Hz i) as [Z2 Z3]; rewrite ?Z2, ?Z3; ring.
  Qed.
  Lemma slab_cubs X n : exists C0 C1, (forall t l, at_time d X 0 n t l = vcub C0 ((t - INR n * c_dt c) / c_dt c) l
      /\ ddt (at_time d X 0 n) t l = 1 / c_dt c * vdcub C0 ((t - INR n * c_dt c) / c_dt c) l)
    /\ (forall t l, at_time d X 1 n t l = vcub C1 ((t - INR n * c_dt c) / c_dt c) l
      /\ ddt (at_time d X 1 n) t l = 1 / c_dt c * vdcub C1 ((t - INR n * c_dt c) / c_dt c) l)
    /\ ((c_q c <= 1)%nat -> forall l, C0 2%nat l = 0 /\ C0 3%nat l = 0).
  Proof.
    destruct (at_cub P c HB Hdt X 1 n) as [C1 H1]. destruct (le_dec (c_q c) 1) as [Hq|Hq].
    - destruct (at_cub_low X n Hq) as [C0 [H0 Z]]. exists C0, C1. split; [exact H0|]. split; [exact H1|]. intros _. exact Z.
    - destruct (at_cub P c HB Hdt X 0 n) as [C0 H0]. exists C0, C1. split; [exact H0|]. split; [exact H1|]. intro; lia.
  Qed.
  Lemma vdcub_TC C t l : 1 / c_dt c * vdcub C t l = vcub (TC C) t l.
  Proof. unfold vdcub, vcub, TC. rewrite dcub_cub. unfold cub, dcoef. field. lra. Qed.
  Lemma primal_ci X n C0 C1 : (forall t l, at_time d X 0 n t l = vcub C0 ((t - INR n * c_dt c) / c_dt c) l
      /\ ddt (at_time d X 0 n) t l = 1 / c_dt c * vdcub C0 ((t - INR n * c_dt c) / c_dt c) l) ->
    (forall t l, at_time d X 1 n t l = vcub C1 ((t - INR n * c_dt c) / c_dt c) l
      /\ ddt (at_time d X 1 n) t l = 1 / c_dt c * vdcub C1 ((t - INR n * c_dt c) / c_dt c) l) ->
    primal D d (c_lam c) X X n = c_dt c * en C0 C1.
  Proof.
    intros H0 H1. unfold primal, over_slab. cbn [t_dt td d]. apply (is_RInt_unique (V := R_CompleteNormedModule)).
    unfold en. rewrite !Rmult_plus_distr_l.
    apply is_RInt_ext_R with (f := fun t =>
      integ D Dx WOne 1 (fun p k => cub (fun m => r1 C0 C1 m p k) ((t - INR n * c_dt c) / c_dt c)) (fun p k => cub (fun m => r1 C0 C1 m p k) ((t - INR n * c_dt c) / c_dt c))
      + integ D Dx WH2 1 (fun p k => cub (fun m => r2 C0 C1 m p k) ((t - INR n * c_dt c) / c_dt c)) (fun p k => cub (fun m => r2 C0 C1 m p k) ((t - INR n * c_dt c) / c_dt c))
      + integ D Ds (WLamH (c_lam c)) 1 (fun p k => cub (fun m => vals Ds Val C0 m p k) ((t - INR n * c_dt c) / c_dt c)) (fun p k => cub (fun m => vals Ds Val C0 m p k) ((t - INR n * c_dt c) / c_dt c))
      + integ D DS WHavg (d_gd D) (fun p k => cub (fun m => vals DS JumpGrad C0 m p k) ((t - INR n * c_dt c) / c_dt c)) (fun p k => cub (fun m => vals DS JumpGrad C0 m p k) ((t - INR n * c_dt c) / c_dt c))).
    - intro t. set (s := (t - INR n * c_dt c) / c_dt c).
      assert (V0 : forall me o p k, fev D me Vp o (at_time d X 0 n t) p k = cub (fun m => fev D me Vp o (C0 m) p k) s).
      { intros. rewrite <- fev_cub. apply fev_ext. intros l _. apply H0. }
      assert (V1 : forall me o p k, fev D me Vp o (ddt (at_time d X 1 n) t) p k = cub (fun m => fev D me Vp o (TC C1 m) p k) s).
      { intros. rewrite <- fev_cub. apply fev_ext. intros l _. rewrite <- vdcub_TC. apply H1. }
      assert (V2 : forall p k, fev D Dx Vp Val (vsub (ddt (at_time d X 0 n) t) (at_time d X 1 n t)) p k
         = cub (fun m => fev D Dx Vp Val (TC C0 m) p k) s - cub (fun m => fev D Dx Vp Val (C1 m) p k) s).
      { intros. rewrite <- !fev_cub. unfold fev. rewrite <- Rsum_minus. apply Rsum_ext; intro l. unfold vsub.
        rewrite (proj2 (H0 t l)), (proj1 (H1 t l)), vdcub_TC. fold s. ring. }
      unfold L2, bndw, facet, sp, integ. cbn [ncomp].
      f_equal; [f_equal; [f_equal|]|]; apply Rsum_ext; intro p; f_equal.
      + cbn [seq]. rewrite !Rsum_cons, !Rsum_nil. rewrite (V2 p 0%nat). unfold r1, cub. ring.
      + apply Rsum_ext; intro k. unfold FormSpec.res2. fold d. rewrite V1, V0. unfold r2, cub. fold s. ring.
      + apply Rsum_ext; intro k. unfold vals. fold s. rewrite !V0. reflexivity.
      + apply Rsum_ext; intro k. unfold vals. fold s. rewrite !V0. reflexivity.
    - apply (is_RInt_plus (V := R_NormedModule)); [apply (is_RInt_plus (V := R_NormedModule)); [apply (is_RInt_plus (V := R_NormedModule))|]|]; apply ci_int.
  Qed.
  (** the mean square of u1 over a slab is bounded by its primal stabilisation *)
  Theorem values_by_primal X n :
    RInt (fun t => L2 D Vp Vp (at_time d X 0 n t) (at_time d X 0 n t)) (INR n * c_dt c) (INR n * c_dt c + c_dt c)
    <= gain * primal D d (c_lam c) X X n.
  Proof.
    destruct (slab_cubs X n) as [C0 [C1 [H0 [H1 Hlow]]]]. rewrite (primal_ci X n C0 C1 H0 H1).
    rewrite (is_RInt_unique (V := R_CompleteNormedModule) _ _ _ (c_dt c * cL2 (vals Dx Val C0))).
    - pose proof (Rmult_le_compat_l (c_dt c) _ _ (Rlt_le _ _ Hdt) (cub_bound C0 C1 Hlow)). lra.
    - apply is_RInt_ext_R with (f := fun t => L2 D Vp Vp (vcub C0 ((t - INR n * c_dt c) / c_dt c)) (vcub C0 ((t - INR n * c_dt c) / c_dt c))); [|apply val_int].
      intro t. unfold L2, sp, integ. apply Rsum_ext; intro p. f_equal. apply Rsum_ext; intro k.
      rewrite (fev_ext D Dx Vp Val (at_time d X 0 n t) (vcub C0 ((t - INR n * c_dt c) / c_dt c))) by (intros l _; apply H0). reflexivity.
  Qed.
End Slab.
