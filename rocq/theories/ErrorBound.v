(** ErrorBound.v -- distance of the discrete solution from an arbitrary discrete
    function, in terms of the residuals of that function (C71). *)
From Coq Require Import Reals List ZArith Lra Lia Bool String.
From Coquelicot Require Import Coquelicot.
From Verif Require Import Base TimeModel TimeSpec TimeProofs QuadProofs FormModel FormSpec FormProofs
  SpaceTimeForms FormBlocks GuardProofs FormTime FormC12 FormSym RhsProofs FormStruct FormCons WellPosed Injective Stability.
Import ListNotations.
Open Scope R_scope.

(** the rule of setup_rhs on products of polynomials of degree three *)
Lemma radau_sq_close a qr zs : QuadRule "Gauss-Radau" 4 = Ok qr -> zip_rule qr = Ok zs ->
  (1 - 1e-5) * cub_sq a <= Rsum zs (fun '(tau, w) => w * (cub a tau * cub a tau)) <= (1 + 1e-5) * cub_sq a.
Proof.
  intros E1 E2. cbn in E1. injection E1; intros <-; clear E1. cbn in E2. injection E2; intros <-; clear E2.
  rewrite !Rsum_cons, Rsum_nil. unfold cub, cub_sq.
  set (a0 := a 0%nat). set (a1 := a 1%nat). set (a2 := a 2%nat). set (a3 := a 3%nat). cbn zeta.
  set (b3 := a3 / 20). set (b2 := (a2 + 30 * b3) / 6). set (b1 := (a1 + 6 * b2 - 12 * b3) / 2).
  set (b0 := a0 + b1 - b2 + b3).
  assert (E3 : a3 = 20 * b3) by (unfold b3; field).
  assert (E2 : a2 = 6 * b2 - 30 * b3) by (unfold b2; field).
  assert (E1 : a1 = 2 * b1 - 6 * b2 + 12 * b3) by (unfold b1; field).
  assert (E0 : a0 = b0 - b1 + b2 - b3) by (unfold b0; ring).
  rewrite E0, E1, E2, E3. clearbody b0 b1 b2 b3. clear.
  pose proof (Rle_0_sqr (b0 + b1)) as P1. pose proof (Rle_0_sqr (b0 - b1)) as N1.
  pose proof (Rle_0_sqr (b0 + b2)) as P2. pose proof (Rle_0_sqr (b0 - b2)) as N2.
  pose proof (Rle_0_sqr (b0 + b3)) as P3. pose proof (Rle_0_sqr (b0 - b3)) as N3.
  pose proof (Rle_0_sqr (b1 + b2)) as P4. pose proof (Rle_0_sqr (b1 - b2)) as N4.
  pose proof (Rle_0_sqr (b1 + b3)) as P5. pose proof (Rle_0_sqr (b1 - b3)) as N5.
  pose proof (Rle_0_sqr (b2 + b3)) as P6. pose proof (Rle_0_sqr (b2 - b3)) as N6.
  pose proof (Rle_0_sqr b0) as S0. pose proof (Rle_0_sqr b1) as S1.
  pose proof (Rle_0_sqr b2) as S2. pose proof (Rle_0_sqr b3) as S3.
  unfold Rsqr in *. decimals. split; lra.
Qed.
Definition cub_dot (a b : nat -> R) : R := / 4 * cub_sq (fun i => a i + b i) - / 4 * cub_sq (fun i => a i - b i).
Lemma cub_dot_int a b : is_RInt (fun t => cub a t * cub b t) 0 1 (cub_dot a b).
Proof.
  apply is_RInt_ext_R with (f := fun t => / 4 * (cub (fun i => a i + b i) t * cub (fun i => a i + b i) t)
     - / 4 * (cub (fun i => a i - b i) t * cub (fun i => a i - b i) t)).
  - intro t. unfold cub. field.
  - apply is_RInt_minus_R; apply is_RInt_scal_R, cub_sq_int.
Qed.
Lemma cub_sq_pos a : 0 <= cub_sq a.
Proof. pose proof (cub_sq_ge a). pose proof (Rle_0_sqr (a 0%nat)). unfold Rsqr in *. lra. Qed.
Lemma cub_sq_par a b : cub_sq (fun i => a i + b i) + cub_sq (fun i => a i - b i) = 2 * cub_sq a + 2 * cub_sq b.
Proof. unfold cub_sq. field. Qed.
Lemma cub_sq_scal k a : cub_sq (fun i => k * a i) = k ^ 2 * cub_sq a.
Proof. unfold cub_sq. field. Qed.
Lemma cub_scal k a t : cub (fun i => k * a i) t = k * cub a t.
Proof. unfold cub. ring. Qed.
Lemma cub_dot_scal k a b : cub_dot (fun i => k * a i) b = k * cub_dot a b.
Proof. unfold cub_dot, cub_sq. field. Qed.
Lemma radau_dot1 a b qr zs : QuadRule "Gauss-Radau" 4 = Ok qr -> zip_rule qr = Ok zs ->
  Rsum zs (fun '(tau, w) => w * (cub a tau * cub b tau)) - cub_dot a b <= 1e-5 / 2 * (cub_sq a + cub_sq b).
Proof.
  intros E1 E2. pose proof (radau_sq_close (fun i => a i + b i) qr zs E1 E2) as [_ Hp].
  pose proof (radau_sq_close (fun i => a i - b i) qr zs E1 E2) as [Hm _].
  assert (E : Rsum zs (fun '(tau, w) => w * (cub a tau * cub b tau))
    = / 4 * Rsum zs (fun '(tau, w) => w * (cub (fun i => a i + b i) tau * cub (fun i => a i + b i) tau))
      + - / 4 * Rsum zs (fun '(tau, w) => w * (cub (fun i => a i - b i) tau * cub (fun i => a i - b i) tau))).
  { rewrite <- !Rsum_scal, <- Rsum_plus. apply Rsum_ext; intros [tau w]. unfold cub. field. }
  rewrite E. unfold cub_dot. pose proof (cub_sq_par a b). lra.
Qed.
(** products of a comparison function with the error *)
Lemma radau_dot a b qr zs : QuadRule "Gauss-Radau" 4 = Ok qr -> zip_rule qr = Ok zs ->
  Rsum zs (fun '(tau, w) => w * (cub a tau * cub b tau)) - cub_dot a b <= 2e-10 * cub_sq a + / 8 * cub_sq b.
Proof.
  intros E1 E2. pose proof (radau_dot1 (fun i => 4e-5 * a i) b qr zs E1 E2) as H.
  rewrite cub_dot_scal, cub_sq_scal in H.
  rewrite (Rsum_ext zs _ (fun x => 4e-5 * (let '(tau, w) := x in w * (cub a tau * cub b tau)))) in H
    by (intros [tau w]; rewrite cub_scal; ring).
  rewrite Rsum_scal in H. revert H.
  set (q := Rsum zs _). set (x := cub_dot a b). set (y := cub_sq a). set (z := cub_sq b). clearbody q x y z. clear.
  intro H. revert H. decimals. intro H. lra.
Qed.

(** Young's inequality with factors 1 and 1/4 *)
Lemma integ_young D m w nc f h : nonneg_disc D m w -> integ D m w nc f h <= integ D m w nc f f + / 4 * integ D m w nc h h.
Proof.
  intro HN. unfold integ. rewrite <- Rsum_scal, <- Rsum_plus. apply Rsum_le_in. intros p Hp.
  replace (d_w D m p * wval D m w p * sumn nc (fun k => f p k * f p k) + / 4 * (d_w D m p * wval D m w p * sumn nc (fun k => h p k * h p k)))
    with (d_w D m p * wval D m w p * (sumn nc (fun k => f p k * f p k) + / 4 * sumn nc (fun k => h p k * h p k))) by ring.
  apply Rmult_le_compat_l; [apply HN, Hp|]. rewrite <- Rsum_scal, <- Rsum_plus. apply Rsum_le_in. intros k _.
  pose proof (Rle_0_sqr (f p k - / 2 * h p k)) as Q. unfold Rsqr in Q. lra.
Qed.
Lemma integ_opp D m w nc f h : integ D m w nc (fun p k => - f p k) h = - integ D m w nc f h.
Proof.
  unfold integ. replace (- Rsum (d_pts D m) (fun p => d_w D m p * wval D m w p * sumn nc (fun k => f p k * h p k)))
    with (-1 * Rsum (d_pts D m) (fun p => d_w D m p * wval D m w p * sumn nc (fun k => f p k * h p k))) by ring.
  rewrite <- Rsum_scal. apply Rsum_ext; intro p.
  replace (sumn nc (fun k => - f p k * h p k)) with (-1 * sumn nc (fun k => f p k * h p k))
    by (rewrite <- Rsum_scal; apply Rsum_ext; intro; ring). ring.
Qed.
Lemma integ_sq_opp D m w nc f : integ D m w nc (fun p k => - f p k) (fun p k => - f p k) = integ D m w nc f f.
Proof. unfold integ. apply Rsum_ext; intro p. f_equal. apply Rsum_ext; intro; ring. Qed.
Lemma integ_young_neg D m w nc f h : nonneg_disc D m w -> - integ D m w nc f h <= integ D m w nc f f + / 4 * integ D m w nc h h.
Proof. intro HN. pose proof (integ_young D m w nc (fun p k => - f p k) h HN) as H. rewrite integ_opp, integ_sq_opp in H. exact H. Qed.
Lemma integ_young_k D m w nc rho be f h : nonneg_disc D m w -> 0 < be ->
  rho * integ D m w nc f h <= rho ^ 2 / (4 * be) * integ D m w nc f f + be * integ D m w nc h h.
Proof.
  intros HN Hb. unfold integ. rewrite <- !Rsum_scal, <- Rsum_plus. apply Rsum_le_in. intros p Hp.
  pose proof (HN p Hp) as Hw. set (W := d_w D m p * wval D m w p) in *. clearbody W.
  replace (rho * (W * sumn nc (fun k => f p k * h p k))) with (W * sumn nc (fun k => rho * (f p k * h p k)))
    by (rewrite Rsum_scal; ring).
  replace (rho ^ 2 / (4 * be) * (W * sumn nc (fun k => f p k * f p k)) + be * (W * sumn nc (fun k => h p k * h p k)))
    with (W * sumn nc (fun k => rho ^ 2 / (4 * be) * (f p k * f p k) + be * (h p k * h p k)))
    by (rewrite Rsum_plus, !Rsum_scal; ring).
  apply Rmult_le_compat_l; [exact Hw|]. apply Rsum_le_in. intros k _.
  set (x := f p k). set (y := h p k). clearbody x y.
  assert (Q : 0 <= be * Rsqr (y - rho * x / (2 * be))) by (apply Rmult_le_pos; [lra|apply Rle_0_sqr]).
  assert (E : be * Rsqr (y - rho * x / (2 * be)) = rho ^ 2 / (4 * be) * (x * x) - rho * (x * y) + be * (y * y))
    by (unfold Rsqr; field; lra).
  lra.
Qed.

Section Err.
  Variables (P : params) (c : config) (g : gammas) (om : nat -> R) (D : disc).
  Hypothesis HB : built P c.
  Hypothesis Hdt : 0 < c_dt c.
  Let d := td c.
  Let Hq := q_le P c HB.
  Let Hqs := qs_le P c HB.
  Hypothesis HR : regular D om.
  Notation r := (restr (ntime c)).

  (** the form on a function with zero dual part *)
  Lemma po_form U Y : eval D (st_form c g om false) (primal_only U) Y
    = 1e-20 * L2 D Vp Vd (U 0%nat 0%nat) (Y 2%nat 0%nat)
      + sumn (c_N c) (fun n => wave D d U Y n + g_data g * data D d om U Y n + g_primal g * primal D d (c_lam c) U Y n
          + (if Nat.ltb 0 n then g_jump g * jumps D d U Y n + (if c_jumps c then (1 + c_eps c) * fwjumps D d U Y n else 0)
             else if c_wp c then g_jump g * init D d U Y else 0)).
  Proof.
    rewrite (st_form_spec P c g om D HB Hdt). f_equal. apply Rsum_ext; intro n. unfold slab_spec, extra_spec. fold d.
    assert (PP := po_p P c HB). fold d in PP.
    rewrite (wave_zero2 P c D HB Hdt), (dual_zero2 P c D HB Hdt).
    assert (E1 : wave D d (primal_only U) Y n = wave D d U Y n).
    { unfold d. rewrite !(wave_slab P c D HB Hdt), !(eval_fw P c D HB). reflexivity. }
    assert (DD : forall j n t l, (j < 2)%nat -> ddt (at_time d (primal_only U) j n) t l = ddt (at_time d U j n) t l).
    { intros. unfold ddt. apply Derive_ext; intro. apply PP; assumption. }
    assert (E2 : data D d om (primal_only U) Y n = data D d om U Y n).
    { unfold data. apply over_slab_ext; intro t. apply sp_ext; intros; [apply PP; lia|reflexivity]. }
    assert (E5 : primal D d (c_lam c) (primal_only U) Y n = primal D d (c_lam c) U Y n).
    { unfold primal. apply over_slab_ext; intro t. cbn zeta. unfold L2, bndw, facet.
      rewrite (sp_ext D Dx WOne Val Vp Val Vp _ _ (vsub (ddt (at_time d U 0 n) t) (at_time d U 1 n t))
          (vsub (ddt (at_time d Y 0 n) t) (at_time d Y 1 n t)));
        [|intros l _; unfold vsub; rewrite DD, PP by lia; reflexivity|reflexivity].
      rewrite (sp_ext D Ds (WLamH (c_lam c)) Val Vp Val Vp _ _ (at_time d U 0 n t) (at_time d Y 0 n t));
        [|intros l _; apply PP; lia|reflexivity].
      rewrite (sp_ext D DS WHavg JumpGrad Vp JumpGrad Vp _ _ (at_time d U 0 n t) (at_time d Y 0 n t));
        [|intros l _; apply PP; lia|reflexivity].
      apply f_equal2; [apply f_equal2; [apply f_equal2; [reflexivity|]|reflexivity]|reflexivity]. apply integ_ext; [|reflexivity]. intros p k. unfold res2.
      rewrite (fev_ext _ _ _ _ (ddt (at_time d (primal_only U) 1 n) t) (ddt (at_time d U 1 n) t)),
        (fev_ext _ _ _ _ (at_time d (primal_only U) 0 n t) (at_time d U 0 n t)) by (intros; first [apply DD | apply PP]; lia).
      reflexivity. }
    assert (E3 : init D d (primal_only U) Y = init D d U Y).
    { unfold init, energy, L2, H1. apply f_equal2; [apply f_equal2|]; f_equal; apply sp_ext; intros; try reflexivity;
      apply PP; lia. }
    assert (JJ : forall j l, (j < 2)%nat -> jumpv d (primal_only U) j n l = jumpv d U j n l).
    { intros j l Hj. unfold jumpv, vsub, upper, lower. rewrite !PP by exact Hj. reflexivity. }
    assert (E6 : jumps D d (primal_only U) Y n = jumps D d U Y n).
    { unfold jumps, energy, L2, H1. apply f_equal2; [apply f_equal2|]; f_equal; apply sp_ext; intros; try reflexivity;
      apply JJ; lia. }
    assert (E7 : fwjumps D d (primal_only U) Y n = fwjumps D d U Y n).
    { unfold fwjumps, L2. apply f_equal2; apply sp_ext; intros; try reflexivity; apply JJ; lia. }
    assert (E4 : fwjumps D d Y (primal_only U) n = 0 /\ dualjumps D d Y (primal_only U) n = 0).
    { unfold fwjumps, dualjumps, L2. rewrite !sp_zero2 by (intros; apply (po_d P c HB); lia). split; ring. }
    destruct E4 as [E4 E4']. rewrite E1, E2, E3, E4, E4', E5, E6, E7.
    destruct (Nat.ltb 0 n), (c_jumps c), (c_wp c); ring.
  Qed.

  Lemma energy_young a1 a2 b1 b2 : - energy D d a1 a2 b1 b2 <= energy D d a1 a2 a1 a2 + / 4 * energy D d b1 b2 b1 b2.
  Proof.
    unfold energy, L2, H1, sp. cbn [t_dt td d]. pose proof (reg_one D om Dx HR) as RO.
    pose proof (integ_young_neg D Dx WOne (ncomp D Val) (fev D Dx Vp Val a1) (fev D Dx Vp Val b1) RO) as Y1.
    pose proof (integ_young_neg D Dx WOne (ncomp D Grad) (fev D Dx Vp Grad a1) (fev D Dx Vp Grad b1) RO) as Y2.
    pose proof (integ_young_neg D Dx WOne (ncomp D Val) (fev D Dx Vp Val a2) (fev D Dx Vp Val b2) RO) as Y3.
    assert (Hi : 0 <= 1 / c_dt c) by (apply Rlt_le, Rdiv_lt_0_compat; lra).
    pose proof (Rmult_le_compat_l _ _ _ Hi Y1). pose proof (Rmult_le_compat_l _ _ _ (Rlt_le _ _ Hdt) Y2).
    pose proof (Rmult_le_compat_l _ _ _ Hi Y3). lra.
  Qed.
  Lemma jumps_young U E n : - jumps D d U E n <= jumps D d U U n + / 4 * jumps D d E E n.
  Proof. apply energy_young. Qed.
  Lemma over_slab_comb f h k n : (forall x, continuous f x) -> (forall x, continuous h x) -> (forall x, continuous k x) ->
    over_slab d n (fun t => f t + (/ 4 * h t + k t)) = over_slab d n f + (/ 4 * over_slab d n h + over_slab d n k).
  Proof.
    intros Hf Hh Hk. unfold over_slab.
    assert (EX : forall u : R -> R, (forall x, continuous u x) -> is_RInt u (INR n * t_dt d) (INR n * t_dt d + t_dt d)
        (RInt u (INR n * t_dt d) (INR n * t_dt d + t_dt d))).
    { intros u Hu. apply (RInt_correct (V := R_CompleteNormedModule)), (ex_RInt_continuous (V := R_CompleteNormedModule)). intros; apply Hu. }
    apply is_RInt_unique_R. apply is_RInt_plus_R; [apply EX, Hf|]. apply is_RInt_plus_R; [apply is_RInt_scal_R, EX, Hh|apply EX, Hk].
  Qed.
  Lemma primal_young U E n : - primal D d (c_lam c) U E n <= primal D d (c_lam c) U U n + / 4 * primal D d (c_lam c) E E n.
  Proof.
    assert (H : 0 <= primal D d (c_lam c) U U n + (/ 4 * primal D d (c_lam c) E E n + primal D d (c_lam c) U E n)); [|lra].
    change (primal D d (c_lam c) U U n) with (over_slab d n (primal_at c D U U n)).
    change (primal D d (c_lam c) E E n) with (over_slab d n (primal_at c D E E n)).
    change (primal D d (c_lam c) U E n) with (over_slab d n (primal_at c D U E n)).
    assert (PC : forall U W x, continuous (primal_at c D U W n) x) by (intros; apply (primal_cont P); assumption).
    rewrite <- over_slab_comb by (intro; apply PC).
    apply (slab_nonneg c Hdt).
    { intro x. apply (cont_plus_R (primal_at c D U U n)); [apply PC|].
      apply (cont_plus_R (fun t => / 4 * primal_at c D E E n t)); [|apply PC].
      apply (cont_mult_R (fun _ => / 4)); [apply continuous_const|apply PC]. }
    intro t. unfold primal_at. fold d. unfold L2, bndw, facet, sp. cbn zeta.
    pose proof (integ_young_neg D Dx WOne (ncomp D Val) (fev D Dx Vp Val (vsub (ddt (at_time d U 0 n) t) (at_time d U 1 n t)))
      (fev D Dx Vp Val (vsub (ddt (at_time d E 0 n) t) (at_time d E 1 n t))) (reg_one D om Dx HR)) as Y1.
    pose proof (integ_young_neg D Dx WH2 1 (fun p _ => res2 D d U n t p) (fun p _ => res2 D d E n t p) (reg_h2 D om Dx HR)) as Y2.
    pose proof (integ_young_neg D Ds (WLamH (c_lam c)) (ncomp D Val) (fev D Ds Vp Val (at_time d U 0 n t))
      (fev D Ds Vp Val (at_time d E 0 n t)) (reg_lamh D om Ds (c_lam c) (lam_pos P c HB) HR)) as Y3.
    pose proof (integ_young_neg D DS WHavg (ncomp D JumpGrad) (fev D DS Vp JumpGrad (at_time d U 0 n t))
      (fev D DS Vp JumpGrad (at_time d E 0 n t)) (reg_havg D om HR)) as Y4.
    lra.
  Qed.
  Hypothesis Gz : 0 < g_dual g.
  Lemma fwjumps_young kap U E n : kap * fwjumps D d U E n
    <= kap ^ 2 / g_dual g * jumps D d U U n + / 4 * (g_dual g * dualjumps D d E E n).
  Proof.
    assert (Gdt : 0 < g_dual g * c_dt c / 4) by (pose proof (Rmult_lt_0_compat _ _ Gz Hdt); lra).
    unfold fwjumps, dualjumps, jumps, energy. cbn [t_dt td d]. fold d.
    pose proof (young om D HR Vp Vd kap (g_dual g * c_dt c / 4) (jumpv d U 1 n) (upper d E 2 n) Gdt) as Y1.
    pose proof (young om D HR Vp Vd kap (g_dual g * c_dt c / 4) (jumpv d U 0 n) (upper d E 3 n) Gdt) as Y2.
    replace (kap ^ 2 / (4 * (g_dual g * c_dt c / 4))) with (kap ^ 2 / g_dual g * (1 / c_dt c)) in Y1, Y2 by (field; lra).
    assert (N : 0 <= kap ^ 2 / g_dual g * (c_dt c * H1 D Vp Vp (jumpv d U 0 n) (jumpv d U 0 n))).
    { apply Rmult_le_pos; [apply Rmult_le_pos; [apply pow2_ge_0|left; apply Rinv_0_lt_compat; exact Gz]|].
      apply Rmult_le_pos; [lra|apply (H1_nonneg om D HR)]. }
    lra.
  Qed.
  Lemma wave_young ka U E n : (forall Z, wave D d U Z n <= ka * sqrt (dual D d (c_lam c) Z Z n)) ->
    wave D d U E n <= ka ^ 2 / g_dual g + / 4 * (g_dual g * dual D d (c_lam c) E E n).
  Proof.
    intro H. eapply Rle_trans; [apply H|].
    pose proof (dual_pos P c om D HB Hdt HR E n) as DP. fold d in DP.
    set (s := sqrt (dual D d (c_lam c) E E n)).
    assert (ES : dual D d (c_lam c) E E n = s * s) by (unfold s; rewrite sqrt_sqrt; [reflexivity|exact DP]).
    rewrite ES. clearbody s. clear - Gz.
    assert (Q : 0 <= / g_dual g * Rsqr (ka - g_dual g * s / 2)) by (apply Rmult_le_pos; [left; apply Rinv_0_lt_compat; exact Gz|apply Rle_0_sqr]).
    assert (E : / g_dual g * Rsqr (ka - g_dual g * s / 2) = ka ^ 2 / g_dual g - ka * s + / 4 * (g_dual g * (s * s))) by (unfold Rsqr; field; lra).
    lra.
  Qed.

  (** ** the data term, integrated by the rule of setup_rhs *)
  Definition quad_data (f : R -> nat -> R) (Y : field) (n : nat) : R :=
    c_dt c * Rsum (c_qr c) (fun '(tau, w) => w * sumn (S (c_q c)) (fun k =>
        lagrange (c_q c) k tau
        * integ D Dx (WOm om) 1 (fun p _ => f (INR n * c_dt c + c_dt c * tau) p)
             (fev D Dx Vp Val (Y 0%nat (n * S (c_q c) + k)%nat)))).
  Lemma quad_data_pts f Y C n : (forall t l, at_time d Y 0 n t l = vcub C ((t - INR n * c_dt c) / c_dt c) l) ->
    quad_data f Y n = c_dt c * Rsum (d_pts D Dx) (fun p => d_w D Dx p * om p *
      Rsum (c_qr c) (fun '(tau, w) => w * (f (INR n * c_dt c + c_dt c * tau) p * cub (fun i => fev D Dx Vp Val (C i) p 0) tau))).
  Proof.
    intro HC. unfold quad_data. f_equal.
    rewrite (Rsum_ext (d_pts D Dx) _ (fun p => Rsum (c_qr c) (fun x => d_w D Dx p * om p * (let '(tau, w) := x in
        w * (f (INR n * c_dt c + c_dt c * tau) p * cub (fun i => fev D Dx Vp Val (C i) p 0) tau)))))
      by (intro p; rewrite Rsum_scal; reflexivity).
    rewrite (Rsum_swap (d_pts D Dx)). apply Rsum_ext; intros [tau w].
    set (t := INR n * c_dt c + c_dt c * tau).
    unfold integ. rewrite (Rsum_ext (seq 0 (S (c_q c))) _ (fun k => Rsum (d_pts D Dx) (fun p =>
         lagrange (c_q c) k tau * (d_w D Dx p * om p * (f t p * fev D Dx Vp Val (Y 0%nat (n * S (c_q c) + k)%nat) p 0))))).
    2: { intro k. rewrite <- Rsum_scal. apply Rsum_ext; intro p. cbn [wval seq]. rewrite Rsum_cons, Rsum_nil. ring. }
    rewrite Rsum_swap, <- Rsum_scal. apply Rsum_ext; intro p.
    assert (EC : cub (fun i => fev D Dx Vp Val (C i) p 0) tau
       = sumn (S (c_q c)) (fun k => lagrange (c_q c) k tau * fev D Dx Vp Val (Y 0%nat (n * S (c_q c) + k)%nat) p 0)).
    { rewrite <- fev_cub. rewrite (fev_ext D Dx Vp Val (vcub C tau) (at_time d Y 0 n t)).
      - unfold at_time. rewrite <- fev_sum. apply fev_ext. intros l _. cbn [ord Nat.ltb Nat.leb t_q t_dt td d].
        apply Rsum_ext; intro k. replace ((t - INR n * c_dt c) / c_dt c) with tau by (unfold t; field; lra). reflexivity.
      - intros l _. rewrite (HC t l). f_equal. unfold t. field. lra. }
    rewrite EC, <- !Rsum_scal. apply Rsum_ext; intro k. ring.
  Qed.
  Lemma data_pts U Y CU CY n : (forall t l, at_time d U 0 n t l = vcub CU ((t - INR n * c_dt c) / c_dt c) l) ->
    (forall t l, at_time d Y 0 n t l = vcub CY ((t - INR n * c_dt c) / c_dt c) l) ->
    data D d om U Y n = c_dt c * Rsum (d_pts D Dx) (fun p => d_w D Dx p * om p *
      cub_dot (fun i => fev D Dx Vp Val (CU i) p 0) (fun i => fev D Dx Vp Val (CY i) p 0)).
  Proof.
    intros HU HY. unfold data, over_slab, L2w. cbn [t_dt td d]. apply is_RInt_unique_R.
    set (a := INR n * c_dt c). rewrite <- Rsum_scal.
    apply is_RInt_ext_R with (f := fun t => Rsum (d_pts D Dx) (fun p => (d_w D Dx p * om p) *
       (cub (fun i => fev D Dx Vp Val (CU i) p 0) ((t - a) / c_dt c) * cub (fun i => fev D Dx Vp Val (CY i) p 0) ((t - a) / c_dt c)))).
    - intro t. unfold sp, integ. apply Rsum_ext; intro p. cbn [ncomp wval seq]. rewrite Rsum_cons, Rsum_nil, Rplus_0_r.
      rewrite (fev_ext D Dx Vp Val (at_time (td c) U 0 n t) (vcub CU ((t - a) / c_dt c))) by (intros l _; apply HU).
      rewrite (fev_ext D Dx Vp Val (at_time (td c) Y 0 n t) (vcub CY ((t - a) / c_dt c))) by (intros l _; apply HY).
      rewrite !fev_cub. reflexivity.
    - apply is_RInt_Rsum. intro p.
      apply is_RInt_eq with (I := (d_w D Dx p * om p) * (c_dt c * cub_dot (fun i => fev D Dx Vp Val (CU i) p 0) (fun i => fev D Dx Vp Val (CY i) p 0))); [|ring].
      apply is_RInt_scal_R.
      pose proof (prod_int a (c_dt c) _ _ Hdt (cub_continuous (fun i => fev D Dx Vp Val (CU i) p 0)) (cub_continuous (fun i => fev D Dx Vp Val (CY i) p 0))) as E.
      rewrite (is_RInt_unique _ _ _ _ (cub_dot_int _ _)) in E. exact E.
  Qed.
  Lemma cub_dot_sq a : cub_dot a a = cub_sq a.
  Proof. unfold cub_dot, cub_sq. field. Qed.
  Lemma quad_data_young U E n :
    quad_data (fun t p => fev D Dx Vp Val (at_time d U 0 n t) p 0) E n - data D d om U E n
    <= 2e-10 * data D d om U U n + / 8 * data D d om E E n.
  Proof.
    destruct (at_cub P c HB Hdt U 0 n) as [CU HU0]. destruct (at_cub P c HB Hdt E 0 n) as [CE HE0].
    assert (HU := fun t l => proj1 (HU0 t l)). assert (HE := fun t l => proj1 (HE0 t l)). fold d in HU, HE.
    rewrite (quad_data_pts _ E CE n HE), (data_pts U E CU CE n HU HE), (data_pts U U CU CU n HU HU), (data_pts E E CE CE n HE HE).
    destruct (bu_qr _ _ HB) as [qr [E1 E2]].
    rewrite <- Rmult_minus_distr_l.
    replace (2e-10 * (c_dt c * Rsum (d_pts D Dx) (fun p => d_w D Dx p * om p *
         cub_dot (fun i => fev D Dx Vp Val (CU i) p 0) (fun i => fev D Dx Vp Val (CU i) p 0)))
       + / 8 * (c_dt c * Rsum (d_pts D Dx) (fun p => d_w D Dx p * om p *
         cub_dot (fun i => fev D Dx Vp Val (CE i) p 0) (fun i => fev D Dx Vp Val (CE i) p 0))))
      with (c_dt c * Rsum (d_pts D Dx) (fun p => d_w D Dx p * om p *
         (2e-10 * cub_sq (fun i => fev D Dx Vp Val (CU i) p 0) + / 8 * cub_sq (fun i => fev D Dx Vp Val (CE i) p 0)))).
    2: { rewrite (Rsum_ext (d_pts D Dx) (fun p => d_w D Dx p * om p * (2e-10 * cub_sq (fun i => fev D Dx Vp Val (CU i) p 0) + / 8 * cub_sq (fun i => fev D Dx Vp Val (CE i) p 0)))
           (fun p => 2e-10 * (d_w D Dx p * om p * cub_dot (fun i => fev D Dx Vp Val (CU i) p 0) (fun i => fev D Dx Vp Val (CU i) p 0))
              + / 8 * (d_w D Dx p * om p * cub_dot (fun i => fev D Dx Vp Val (CE i) p 0) (fun i => fev D Dx Vp Val (CE i) p 0))))
           by (intro p; rewrite !cub_dot_sq; ring).
         rewrite Rsum_plus, !Rsum_scal. ring. }
    apply Rmult_le_compat_l; [lra|]. rewrite <- Rsum_minus. apply Rsum_le_in. intros p Hp.
    rewrite <- Rmult_minus_distr_l.
    apply Rmult_le_compat_l; [apply Rmult_le_pos; [apply (rg_w _ _ HR Dx p Hp)|apply (rg_om _ _ HR p Hp)]|].
    rewrite (Rsum_ext (c_qr c) _ (fun x => let '(tau, w) := x in w * (cub (fun i => fev D Dx Vp Val (CU i) p 0) tau * cub (fun i => fev D Dx Vp Val (CE i) p 0) tau))).
    - apply (radau_dot _ _ qr (c_qr c) E1 E2).
    - intros [tau w]. f_equal. f_equal. rewrite <- fev_cub. apply fev_ext. intros l _. rewrite HU. f_equal. field. lra.
  Qed.
  Lemma quad_data_sub f h Y n : quad_data f Y n = quad_data (fun t p => f t p - h t p) Y n + quad_data h Y n.
  Proof.
    unfold quad_data. rewrite <- Rmult_plus_distr_l, <- Rsum_plus. f_equal. apply Rsum_ext; intros [tau w].
    rewrite <- Rmult_plus_distr_l, <- Rsum_plus. f_equal. apply Rsum_ext; intro k.
    rewrite <- Rmult_plus_distr_l. f_equal. unfold integ. rewrite <- Rsum_plus. apply Rsum_ext; intro p.
    cbn [seq]. rewrite !Rsum_cons, !Rsum_nil. ring.
  Qed.
  (** difference of the measurement and the comparison function *)
  Definition misfit (xs : nat -> list R) (U : field) (n : nat) (t : R) (p : nat) : R :=
    c_v c t (xs p) - fev D Dx Vp Val (at_time d U 0 n t) p 0.
  Lemma data_bound xs U E n :
    quad_data (fun t p => c_v c t (xs p)) E n - data D d om U E n
    <= 4 * slab_noise c om D (misfit xs U n) n + 2e-10 * data D d om U U n + / 4 * data D d om E E n.
  Proof.
    rewrite (quad_data_sub _ (fun t p => fev D Dx Vp Val (at_time d U 0 n t) p 0)).
    pose proof (quad_data_young U E n) as Y1.
    pose proof (slab_noise_young P c om D HB Hdt HR (misfit xs U n) E n 8 ltac:(lra)) as Y2. fold d in Y2.
    change (c_dt c * Rsum (c_qr c) (fun '(tau, w) => w * sumn (S (c_q c)) (fun k => lagrange (c_q c) k tau *
        integ D Dx (WOm om) 1 (fun p _ => misfit xs U n (INR n * c_dt c + c_dt c * tau) p) (fev D Dx Vp Val (E 0%nat (n * S (c_q c) + k)%nat)))))
      with (quad_data (misfit xs U n) E n) in Y2.
    change (fun t p => c_v c t (xs p) - fev D Dx Vp Val (at_time d U 0 n t) p 0) with (misfit xs U n).
    lra.
  Qed.
  (** difference of the initial data and the comparison function *)
  Definition init_misfit (u1v u1g u2v : nat -> nat -> R) (U : field) : R :=
    1 / c_dt c * integ D Dx WOne 1 (fun p k => u1v p k - fev D Dx Vp Val (upper d U 0 0) p k) (fun p k => u1v p k - fev D Dx Vp Val (upper d U 0 0) p k)
    + c_dt c * integ D Dx WOne (d_gd D) (fun p k => u1g p k - fev D Dx Vp Grad (upper d U 0 0) p k) (fun p k => u1g p k - fev D Dx Vp Grad (upper d U 0 0) p k)
    + 1 / c_dt c * integ D Dx WOne 1 (fun p k => u2v p k - fev D Dx Vp Val (upper d U 1 0) p k) (fun p k => u2v p k - fev D Dx Vp Val (upper d U 1 0) p k).
  Lemma init_bound gj u1v u1g u2v U E : 0 <= gj ->
    leval D (rhs_init c gj u1v u1g u2v 0) E - (if c_wp c then gj * init D d U E else 0)
    <= if c_wp c then gj * init_misfit u1v u1g u2v U + / 4 * (gj * init D d E E) else 0.
  Proof.
    intro Gj. unfold rhs_init. cbn [Nat.eqb andb]. destruct (c_wp c); [|unfold leval; rewrite Rsum_nil; lra].
    rewrite !leval_cons. unfold leval at 1. rewrite Rsum_nil.
    rewrite !leval_t_sum. cbn [l_coef l_a l_m l_wt l_o l_f ncomp]. unfold at_, W1, W2.
    rewrite !Rsum_cons, !Rsum_nil. cbn [blk spc Nat.ltb Nat.leb Z.to_nat].
    assert (UE : forall j l, (j < 2)%nat -> upper d E j 0 l = E j 0%nat l).
    { intros j l Hj. unfold d. rewrite (upper_p P c HB Hdt) by exact Hj. reflexivity. }
    assert (FE : forall o j p k, (j < 2)%nat -> fev D Dx Vp o (upper d E j 0) p k = fev D Dx Vp o (E j 0%nat) p k)
      by (intros; apply fev_ext; intros; apply UE; assumption).
    unfold init, energy, L2, H1, sp, init_misfit. cbn [ncomp t_dt td d].
    pose proof (reg_one D om Dx HR) as RO.
    assert (SUB : forall nc f h u, integ D Dx WOne nc (fun p k => f p k - h p k) u = integ D Dx WOne nc f u - integ D Dx WOne nc h u)
      by (intros; apply integ_sub_l).
    assert (EX : forall nc o j f, (j < 2)%nat -> integ D Dx WOne nc f (fev D Dx Vp o (E j 0%nat)) = integ D Dx WOne nc f (fev D Dx Vp o (upper d E j 0)))
      by (intros; apply integ_ext; intros; [reflexivity|symmetry; apply FE; assumption]).
    rewrite !EX by lia. fold d.
    pose proof (integ_young D Dx WOne 1 (fun p k => u1v p k - fev D Dx Vp Val (upper d U 0 0) p k) (fev D Dx Vp Val (upper d E 0 0)) RO) as Y1.
    pose proof (integ_young D Dx WOne (d_gd D) (fun p k => u1g p k - fev D Dx Vp Grad (upper d U 0 0) p k) (fev D Dx Vp Grad (upper d E 0 0)) RO) as Y2.
    pose proof (integ_young D Dx WOne 1 (fun p k => u2v p k - fev D Dx Vp Val (upper d U 1 0) p k) (fev D Dx Vp Val (upper d E 1 0)) RO) as Y3.
    rewrite SUB in Y1, Y2, Y3.
    set (M1 := integ D Dx WOne 1 (fun p k => u1v p k - fev D Dx Vp Val (upper d U 0 0) p k) (fun p k => u1v p k - fev D Dx Vp Val (upper d U 0 0) p k)) in *.
    set (M2 := integ D Dx WOne (d_gd D) (fun p k => u1g p k - fev D Dx Vp Grad (upper d U 0 0) p k) (fun p k => u1g p k - fev D Dx Vp Grad (upper d U 0 0) p k)) in *.
    set (M3 := integ D Dx WOne 1 (fun p k => u2v p k - fev D Dx Vp Val (upper d U 1 0) p k) (fun p k => u2v p k - fev D Dx Vp Val (upper d U 1 0) p k)) in *.
    clearbody M1 M2 M3.
    set (I1 := integ D Dx WOne 1 u1v _) in *. set (I2 := integ D Dx WOne (d_gd D) u1g _) in *. set (I3 := integ D Dx WOne 1 u2v _) in *.
    clearbody I1 I2 I3.
    set (J1 := integ D Dx WOne 1 (fev D Dx Vp Val (upper d U 0 0)) _) in *.
    set (J2 := integ D Dx WOne (d_gd D) (fev D Dx Vp Grad (upper d U 0 0)) _) in *.
    set (J3 := integ D Dx WOne 1 (fev D Dx Vp Val (upper d U 1 0)) _) in *. clearbody J1 J2 J3.
    set (K1 := integ D Dx WOne 1 (fev D Dx Vp Val (upper d E 0 0)) _) in *.
    set (K2 := integ D Dx WOne (d_gd D) (fev D Dx Vp Grad (upper d E 0 0)) _) in *.
    set (K3 := integ D Dx WOne 1 (fev D Dx Vp Val (upper d E 1 0)) _) in *. clearbody K1 K2 K3.
    assert (Hi : 0 <= 1 / c_dt c) by (apply Rlt_le, Rdiv_lt_0_compat; lra). set (idt := 1 / c_dt c) in *. clearbody idt.
    pose proof (Rmult_le_compat_l _ _ _ Gj (Rmult_le_compat_l _ _ _ Hi Y1)).
    pose proof (Rmult_le_compat_l _ _ _ Gj (Rmult_le_compat_l _ _ _ (Rlt_le _ _ Hdt) Y2)).
    pose proof (Rmult_le_compat_l _ _ _ Gj (Rmult_le_compat_l _ _ _ Hi Y3)). lra.
  Qed.

  (** ** all residuals together *)
  Hypothesis Gd : 0 <= g_data g.
  Hypothesis Gp : 0 <= g_primal g.
  Hypothesis Gj : 0 <= g_jump g.
  Lemma reg_absorb_f f E k : 0 < k -> - (1e-20 * integ D Dx WOne 1 f (fev D Dx Vd Val (E 2%nat 0%nat)))
    <= 1e-20 ^ 2 * (4 * k / (g_dual g * c_dt c)) * integ D Dx WOne 1 f f + 1 / k * qsum c g om D E.
  Proof.
    intro Hk. assert (Gdt : 0 < g_dual g * c_dt c) by (apply Rmult_lt_0_compat; lra).
    assert (Hb : 0 < g_dual g * c_dt c / (16 * k)) by (apply Rdiv_lt_0_compat; lra).
    pose proof (integ_young_k D Dx WOne 1 (- 1e-20) (g_dual g * c_dt c / (16 * k)) f (fev D Dx Vd Val (E 2%nat 0%nat)) (reg_one D om Dx HR) Hb) as Y.
    replace ((- 1e-20) ^ 2 / (4 * (g_dual g * c_dt c / (16 * k)))) with (1e-20 ^ 2 * (4 * k / (g_dual g * c_dt c))) in Y
      by (field; repeat split; lra).
    pose proof (dual_trace P c om D HB Hdt HR E 0) as T. change (0 * S (c_qs c))%nat with 0%nat in T. fold d in T.
    destruct (qsum_ge P c g om D HB Hdt HR Gd Gz Gp Gj E) as [Q _]. fold d in Q.
    change (integ D Dx WOne 1 (fev D Dx Vd Val (E 2%nat 0%nat)) (fev D Dx Vd Val (E 2%nat 0%nat)))
      with (L2 D Vd Vd (E 2%nat 0%nat) (E 2%nat 0%nat)) in Y.
    assert (H1 : g_dual g * c_dt c / (16 * k) * L2 D Vd Vd (E 2%nat 0%nat) (E 2%nat 0%nat) <= 1 / k * qsum c g om D E).
    { apply Rle_trans with (1 / k * (g_dual g * dual D d (c_lam c) E E 0)).
      - replace (g_dual g * c_dt c / (16 * k) * L2 D Vd Vd (E 2%nat 0%nat) (E 2%nat 0%nat))
          with (1 / k * (g_dual g * (c_dt c / 16 * L2 D Vd Vd (E 2%nat 0%nat) (E 2%nat 0%nat)))) by (field; lra).
        apply Rmult_le_compat_l; [apply Rlt_le, Rdiv_lt_0_compat; lra|]. apply Rmult_le_compat_l; lra.
      - apply Rmult_le_compat_l; [apply Rlt_le, Rdiv_lt_0_compat; lra|exact Q]. }
    lra.
  Qed.
  (** residuals of the comparison function on one slab *)
  Definition slab_residual (xs : nat -> list R) (u1v u1g u2v : nat -> nat -> R) (U : field) (ka : nat -> R) (n : nat) : R :=
    g_data g * (4 * slab_noise c om D (misfit xs U n) n + 2e-10 * data D d om U U n)
    + ka n ^ 2 / g_dual g + g_primal g * primal D d (c_lam c) U U n
    + (if Nat.ltb 0 n then (g_jump g + if c_jumps c then (1 + c_eps c) ^ 2 / g_dual g else 0) * jumps D d U U n
       else if c_wp c then g_jump g * init_misfit u1v u1g u2v U else 0).
  Lemma slab_error xs u1v u1g u2v U ka E n : (forall Z, wave D d U Z n <= ka n * sqrt (dual D d (c_lam c) Z Z n)) ->
    g_data g * (quad_data (fun t p => c_v c t (xs p)) E n - data D d om U E n)
      + wave D d U E n - g_primal g * primal D d (c_lam c) U E n
      + (if Nat.ltb 0 n then - (g_jump g * jumps D d U E n) + (if c_jumps c then (1 + c_eps c) * fwjumps D d U E n else 0)
         else leval D (rhs_init c (g_jump g) u1v u1g u2v 0) E - (if c_wp c then g_jump g * init D d U E else 0))
    <= slab_residual xs u1v u1g u2v U ka n + / 4 * quad_spec c g om D E n.
  Proof.
    intro HW. unfold slab_residual, quad_spec. fold d.
    pose proof (Rmult_le_compat_l _ _ _ Gd (data_bound xs U E n)) as B1.
    pose proof (wave_young (ka n) U E n HW) as B2.
    pose proof (Rmult_le_compat_l _ _ _ Gp (primal_young U E n)) as B3.
    destruct (Nat.ltb 0 n).
    - pose proof (Rmult_le_compat_l _ _ _ Gj (jumps_young U E n)) as B4.
      pose proof (fwjumps_young (1 + c_eps c) U E n) as B5.
      destruct (c_jumps c); lra.
    - pose proof (init_bound (g_jump g) u1v u1g u2v U E Gj) as B6. destruct (c_wp c); lra.
  Qed.
  (** the system may be solved up to a functional [rs] *)
  Lemma error_bound_rs xs u1v u1g u2v U ka X rs :
    (forall Y, eval D (st_form c g om false) X Y = leval D (rhs_form c om (g_data g) (g_jump g) xs u1v u1g u2v) Y + rs Y) ->
    (forall n Z, (n < c_N c)%nat -> wave D d U Z n <= ka n * sqrt (dual D d (c_lam c) Z Z n)) ->
    let E : field := fun j i l => X j i l - primal_only U j i l in
    qsum c g om D E <= 2 * sumn (c_N c) (slab_residual xs u1v u1g u2v U ka)
      + 64 * 1e-20 ^ 2 / (g_dual g * c_dt c) *
        (integ D Dx WOne 1 (fun p k => 1 - fev D Dx Vp Val (U 0%nat 0%nat) p k) (fun p k => 1 - fev D Dx Vp Val (U 0%nat 0%nat) p k)
         + L2 D Vp Vp (E 0%nat 0%nat) (E 0%nat 0%nat)) + 2 * rs (flip E).
  Proof.
    intros HX HW E.
    pose proof (energy_identity P c g om D HB Hdt E) as I.
    pose proof (reg_absorb P c g om D HB Hdt HR Gd Gz Gp Gj E 8 ltac:(lra)) as A1.
    pose proof (reg_absorb_f (fun p k => 1 - fev D Dx Vp Val (U 0%nat 0%nat) p k) E 8 ltac:(lra)) as A2.
    assert (PR : properF (st_form c g om false)) by (apply (wf_bform_proper 4 (nc_full c)), wf_st, (bu_N _ _ HB)).
    assert (EE : eval D (st_form c g om false) E (flip E)
       = leval D (rhs_form c om (g_data g) (g_jump g) xs u1v u1g u2v) (flip E) + rs (flip E) - eval D (st_form c g om false) (primal_only U) (flip E)).
    { rewrite <- HX.
      pose proof (eval_linX D (st_form c g om false) [0%nat; 1%nat] (fun i => if Nat.eqb i 0 then 1 else -1)
        (fun i => if Nat.eqb i 0 then X else primal_only U) (flip E) PR) as L.
      rewrite !Rsum_cons, Rsum_nil in L. cbn [Nat.eqb] in L.
      rewrite (eval_ext D 4 (nc_full c) _ E (fun j i k => Rsum [0%nat; 1%nat] (fun x => (if Nat.eqb x 0 then 1 else -1) * (if Nat.eqb x 0 then X else primal_only U) j i k)) (flip E) (flip E)).
      - rewrite L. ring.
      - apply wf_st, (bu_N _ _ HB).
      - intros j i l _ _ _. rewrite !Rsum_cons, Rsum_nil. cbn [Nat.eqb]. unfold E. ring.
      - apply feq_refl. }
    rewrite (rhs_slabs c om D), po_form in EE.
    assert (ER : 1e-20 * integ D Dx WOne 1 (fun _ _ => 1) (fev D Dx Vd Val (flip E 2%nat 0%nat))
        - 1e-20 * L2 D Vp Vd (U 0%nat 0%nat) (flip E 2%nat 0%nat)
       = - (1e-20 * integ D Dx WOne 1 (fun p k => 1 - fev D Dx Vp Val (U 0%nat 0%nat) p k) (fev D Dx Vd Val (E 2%nat 0%nat)))).
    { rewrite integ_sub_l.
      change (integ D Dx WOne 1 (fev D Dx Vp Val (U 0%nat 0%nat)) (fev D Dx Vd Val (E 2%nat 0%nat)))
        with (L2 D Vp Vd (U 0%nat 0%nat) (E 2%nat 0%nat)).
      assert (F : forall p k, fev D Dx Vd Val (flip E 2%nat 0%nat) p k = - fev D Dx Vd Val (E 2%nat 0%nat) p k).
      { intros p k. unfold fev, flip. cbn [Nat.ltb Nat.leb].
        replace (- sumn (d_dim D Vd) (fun l => E 2%nat 0%nat l * d_tab D Dx Vd Val l p k))
          with (-1 * sumn (d_dim D Vd) (fun l => E 2%nat 0%nat l * d_tab D Dx Vd Val l p k)) by ring.
        rewrite <- Rsum_scal. apply Rsum_ext; intro; ring. }
      rewrite (integ_ext D Dx WOne 1 (fun _ _ => 1) (fev D Dx Vd Val (flip E 2%nat 0%nat)) (fun _ _ => 1) (fun p k => - fev D Dx Vd Val (E 2%nat 0%nat) p k))
        by (intros; first [reflexivity|apply F]).
      rewrite (integ_comm _ _ _ _ (fun _ _ => 1)), integ_opp, (integ_comm _ _ _ _ (fev D Dx Vd Val (E 2%nat 0%nat))).
      unfold L2 at 1. unfold flip. cbn [Nat.ltb Nat.leb]. rewrite sp_opp2. fold (L2 D Vp Vd (U 0%nat 0%nat) (E 2%nat 0%nat)). ring. }
    assert (ES : sumn (c_N c) (fun n => leval D (rhs_data c om (g_data g) xs n (z (n * S (c_q c)))) (flip E)
           + leval D (rhs_init c (g_jump g) u1v u1g u2v n) (flip E))
        - sumn (c_N c) (fun n => wave D d U (flip E) n + g_data g * data D d om U (flip E) n + g_primal g * primal D d (c_lam c) U (flip E) n
          + (if Nat.ltb 0 n then g_jump g * jumps D d U (flip E) n + (if c_jumps c then (1 + c_eps c) * fwjumps D d U (flip E) n else 0)
             else if c_wp c then g_jump g * init D d U (flip E) else 0))
       <= sumn (c_N c) (fun n => slab_residual xs u1v u1g u2v U ka n + / 4 * quad_spec c g om D E n)).
    { rewrite <- Rsum_minus. apply Rsum_le_in. intros n Hn. apply in_seq in Hn.
      eapply Rle_trans; [|apply (slab_error xs u1v u1g u2v U ka E n); intro Z; apply HW; lia].
      apply Req_le. rewrite (rhs_data_eval P c om D HB).
      unfold d. rewrite (wave_flip2 P c D HB Hdt), (data_flip P c om D HB), (primal_flip P c D HB), (jumps_flip c D),
        (fwjumps_flip2 P c D HB), (init_flip c D). fold d.
      assert (EI : leval D (rhs_init c (g_jump g) u1v u1g u2v n) (flip E) = if Nat.ltb 0 n then 0 else leval D (rhs_init c (g_jump g) u1v u1g u2v 0) E).
      { destruct n as [|n]; cbn [Nat.ltb Nat.leb].
        - unfold rhs_init. destruct (Nat.eqb 0 0 && c_wp c); [|reflexivity].
          rewrite !leval_cons. unfold leval. rewrite !leval_t_sum. cbn [l_coef l_a l_m l_wt l_o l_f ncomp]. unfold at_, W1, W2.
          rewrite !Rsum_cons, !Rsum_nil. cbn [blk spc Nat.ltb Nat.leb Z.to_nat]. reflexivity.
        - unfold rhs_init. cbn [Nat.eqb andb]. unfold leval. apply Rsum_nil. }
      rewrite EI, Rmult_assoc.
      match goal with |- g_data g * ?q + _ - _ = _ => change q with (quad_data (fun t p => c_v c t (xs p)) E n) end.
      destruct n as [|n]; cbn [Nat.ltb Nat.leb]; destruct (c_jumps c), (c_wp c); ring. }
    assert (ET : sumn (c_N c) (fun n => slab_residual xs u1v u1g u2v U ka n + / 4 * quad_spec c g om D E n)
       = sumn (c_N c) (slab_residual xs u1v u1g u2v U ka) + / 4 * qsum c g om D E) by (unfold qsum; rewrite Rsum_plus, Rsum_scal; reflexivity).
    rewrite ET in ES.
    assert (Gdt : 0 < g_dual g * c_dt c) by (apply Rmult_lt_0_compat; lra).
    replace (64 * 1e-20 ^ 2 / (g_dual g * c_dt c)) with (2 * (1e-20 ^ 2 * (4 * 8 / (g_dual g * c_dt c)))) by (field; split; lra).
    unfold d in EE. fold d in EE. lra.
  Qed.
  Lemma error_bound xs u1v u1g u2v U ka X :
    (forall Y, eval D (st_form c g om false) X Y = leval D (rhs_form c om (g_data g) (g_jump g) xs u1v u1g u2v) Y) ->
    (forall n Z, (n < c_N c)%nat -> wave D d U Z n <= ka n * sqrt (dual D d (c_lam c) Z Z n)) ->
    let E : field := fun j i l => X j i l - primal_only U j i l in
    qsum c g om D E <= 2 * sumn (c_N c) (slab_residual xs u1v u1g u2v U ka)
      + 64 * 1e-20 ^ 2 / (g_dual g * c_dt c) *
        (integ D Dx WOne 1 (fun p k => 1 - fev D Dx Vp Val (U 0%nat 0%nat) p k) (fun p k => 1 - fev D Dx Vp Val (U 0%nat 0%nat) p k)
         + L2 D Vp Vp (E 0%nat 0%nat) (E 0%nat 0%nat)).
  Proof.
    intros HX HW E. pose proof (error_bound_rs xs u1v u1g u2v U ka X (fun _ => 0) ltac:(intro Y; rewrite (HX Y); ring) HW) as B.
    cbv zeta beta in B. rewrite Rmult_0_r, Rplus_0_r in B. exact B.
  Qed.
End Err.
