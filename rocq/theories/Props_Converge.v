(** Props_Converge.v -- C80: the computed solution converges to the wave it is computed
    from, at the rate of the polynomial degrees. *)
From Coq Require Import Reals List ZArith Lra Lia Bool.
From Coquelicot Require Import Coquelicot.
From Verif Require Import Base TimeModel TimeSpec TimeProofs QuadProofs FormModel FormSpec FormProofs
  SpaceTimeForms FormBlocks GuardProofs FormTime FormC12 FormSym FormStruct FormCons FormWf FormExample Props_Forms
  WellPosed Injective Props_WellPosed Stability ErrorBound Props_Stability Observe Props_Observe
  DriverModel DriverConfig Props_Config Space1D Props_Space1D Interp1D Converge1D.
Import ListNotations.
Open Scope R_scope.

(** * The setting *)
(** a problem on the interval [xs 0, xs n]; cells not longer than H, at most one unit per
    slab; the measurements are those of the wave w, taken where om is not 0 *)
Record wave_run (P : params) (n : nat) (xs : nat -> R) (kp kd : nat) (qp : list (R * R)) (deg : nat)
  (w : nat -> nat -> R -> R -> R) (M M0 H : R) (om : nat -> R) (omax : R) : Prop := {
  wr_T : 0 < p_T P;
  wr_mesh : mesh1 n xs kp kd qp deg;
  wr_kp : kp = p_k P;
  wr_d1 : (kp + kd <= deg)%nat;
  wr_d2 : (2 * kd <= deg)%nat;
  wr_in : forall j, (j < List.length qp)%nat -> 0 <= qs qp j <= 1;
  wr_q : (1 <= p_q P)%Z;
  wr_dt : p_T P / INR (p_N P) <= 1;
  wr_H : forall e, (e < n)%nat -> xs (S e) - xs e <= H;
  wr_H1 : H <= 1;
  wr_wave : smooth_wave (Z.to_nat (p_q P)) kp (p_T P) (xs 0%nat) (xs n) M w;
  wr_M0 : forall t x, 0 <= t <= p_T P -> xs 0%nat <= x <= xs n -> Rabs (w 0%nat 0%nat t x) <= M0;
  wr_om : forall p, 0 <= om p <= omax;
  wr_data : forall t p, 0 <= t <= p_T P -> In p (d_pts (disc1 n xs kp kd qp) Dx) -> om p <> 0 ->
    p_v P t (d_x (disc1 n xs kp kd qp) p) = w 0%nat 0%nat t (nth 0 (d_x (disc1 n xs kp kd qp) p) 0) }.
(** accuracy of interpolation *)
Definition accuracy (P : params) (kp : nat) (M H : R) : R := M * (2 * H ^ kp + (p_T P / INR (p_N P)) ^ Z.to_nat (p_q P)).
(** well-posed problem with initial data, or control of the start by the energy (C72, C76) *)
Definition start_known (P : params) (g : gammas) (om : nat -> R) (D : disc) : Prop :=
  p_wp P = true /\ 128 * 1e-20 ^ 2 <= g_jump g * g_dual g
  \/ exists ka, controls_start P D (enorm2 P g om D) ka /\ 128 * 1e-20 ^ 2 <= ka * g_dual g.
(** the bound: T l times (accuracy squared and the error of the rule in time), and the
    contribution of the 1e-20 entry of the matrix *)
Definition converge_bound (P : params) (kp : nat) (g : gammas) (M M0 H omax l : R) : R :=
  4 * p_T P * l * (accuracy P kp M H ^ 2 * (8 * g_data g * omax + 7 / g_dual g + 12 * g_primal g) + 2e-10 * g_data g * omax * (M0 + accuracy P kp M H) ^ 2)
  + 128 * 1e-20 ^ 2 / (g_dual g * (p_T P / INR (p_N P))) * (1 + M0 + accuracy P kp M H) ^ 2 * l.
(** difference between coefficient vector and nodal values of the wave *)
Definition error_field (P : params) (xs : nat -> R) (kp : nat) (w : nat -> nat -> R -> R -> R) (L : layout) (x : vec) : field := fun j i r =>
  field_of L x j i r - (if Nat.ltb j 2 then nodal (Z.to_nat (p_q P)) (p_T P / INR (p_N P)) xs kp w j i r else 0).
Definition solves_st (P : params) (c : config) (g : gammas) (om : nat -> R) (D : disc) (L : layout) (u1v u1g u2v : nat -> nat -> R) (x : vec) : Prop :=
  forall i, (i < lay_dim L)%nat -> mult (lay_dim L) (st_matrix D L c g om false) x i
     = assemble_vec D L (rhs_form c om (g_data g) (g_jump g) (d_x D) u1v u1g u2v) i.

Section Run.
  Variables (P : params) (c : config) (n : nat) (xs : nat -> R) (kp kd : nat) (qp : list (R * R)) (deg : nat)
    (w : nat -> nat -> R -> R -> R) (M M0 H : R) (om : nat -> R) (omax : R).
  Hypothesis HC : construct P = Ok c.
  Hypothesis HR : wave_run P n xs kp kd qp deg w M M0 H om omax.
  Notation D := (disc1 n xs kp kd qp).
  Let HB : built P c := construct_inv P c HC.
  Let HT := wr_T _ _ _ _ _ _ _ _ _ _ _ _ _ HR.
  Lemma run_q : (1 <= c_q c)%nat.
  Proof. pose proof (wr_q _ _ _ _ _ _ _ _ _ _ _ _ _ HR). rewrite (bu_cq _ _ HB). lia. Qed.
  Lemma run_dt : c_dt c <= 1.
  Proof. rewrite (bu_dt _ _ HB). exact (wr_dt _ _ _ _ _ _ _ _ _ _ _ _ _ HR). Qed.
  Lemma run_wave : smooth_wave (c_q c) kp (p_T P) (xs 0%nat) (xs n) M w.
  Proof. rewrite (bu_cq _ _ HB). exact (wr_wave _ _ _ _ _ _ _ _ _ _ _ _ _ HR). Qed.
  Lemma run_measured : measured P n xs kp kd qp w om.
  Proof. exact (wr_data _ _ _ _ _ _ _ _ _ _ _ _ _ HR). Qed.
  Lemma run_eps : eps c kp M H = accuracy P kp M H.
  Proof. unfold eps, accuracy. rewrite (bu_dt _ _ HB), (bu_cq _ _ HB). reflexivity. Qed.
  Lemma run_field : nodal (c_q c) (c_dt c) xs kp w = nodal (Z.to_nat (p_q P)) (p_T P / INR (p_N P)) xs kp w.
  Proof. rewrite (bu_dt _ _ HB), (bu_cq _ _ HB). reflexivity. Qed.
  Lemma run_regular : regular D om.
  Proof. apply (C75_regular _ _ _ _ _ _ om (wr_mesh _ _ _ _ _ _ _ _ _ _ _ _ _ HR)). intro p. apply (wr_om _ _ _ _ _ _ _ _ _ _ _ _ _ HR). Qed.
  Lemma run_l : 0 < xs n - xs 0%nat.
  Proof.
    apply (l_pos P c n xs kp kd qp deg); try exact (wr_mesh _ _ _ _ _ _ _ _ _ _ _ _ _ HR); try exact (wr_kp _ _ _ _ _ _ _ _ _ _ _ _ _ HR);
    try exact (wr_d1 _ _ _ _ _ _ _ _ _ _ _ _ _ HR); try exact (wr_d2 _ _ _ _ _ _ _ _ _ _ _ _ _ HR); exact run_q.
  Qed.
End Run.

Lemma sum_const_n N a : sumn N (fun _ => a) = INR N * a.
Proof. induction N as [|N IH]; [cbn [seq INR]; rewrite Rsum_nil; ring|]. rewrite sumn_S, IH, S_INR. ring. Qed.

(** * C80: convergence *)
Theorem C80_convergence : forall P c g om n xs kp kd qp deg L w M M0 H omax u1v u1g u2v, construct P = Ok c ->
  wave_run P n xs kp kd qp deg w M M0 H om omax -> let D := disc1 n xs kp kd qp in
  lay_ok D 4 (nc_full c) L -> 0 <= g_data g -> 0 < g_dual g -> 0 <= g_primal g -> 0 <= g_jump g ->
  initial P n xs kp kd qp w u1v u1g u2v -> start_known P g om D ->
  forall x, solves_st P c g om D L u1v u1g u2v x ->
  enorm2 P g om D (error_field P xs kp w L x) <= converge_bound P kp g M M0 H omax (xs n - xs 0%nat).
Proof.
  intros P c g om n xs kp kd qp deg L w M M0 H omax u1v u1g u2v HC HR D HL G1 G2 G3 G4 HI HS x Hx.
  pose proof (construct_inv _ _ HC) as HB. pose proof (run_q P c _ _ _ _ _ _ _ _ _ _ _ _ HC HR) as Rq.
  pose proof (run_dt P c _ _ _ _ _ _ _ _ _ _ _ _ HC HR) as Rdt. pose proof (run_wave P c _ _ _ _ _ _ _ _ _ _ _ _ HC HR) as Rw.
  pose proof (run_measured P _ _ _ _ _ _ _ _ _ _ _ _ HR) as Rm. pose proof (run_eps P c kp M H HC) as Re.
  pose proof (run_field P c xs kp w HC) as Rf. pose proof (run_regular P _ _ _ _ _ _ _ _ _ _ _ _ HR) as Rr.
  pose proof (run_l P c _ _ _ _ _ _ _ _ _ _ _ _ HC HR) as Rl.
  destruct HR as [HT HM Hkp Hd1 Hd2 Hin Hq Hdt HH HH1 HW HM0 Hom Hdat].
  pose proof (dt_pos _ _ HC HT) as Pdt. set (l := xs n - xs 0%nat) in *.
  set (U := nodal (c_q c) (c_dt c) xs kp w) in *.
  destruct (C71_error_bound P c g om D L (d_x D) u1v u1g u2v HC HT HL Rr G1 G2 G3 G4 x Hx U (fun _ => sqrt (7 * l * eps c kp M H ^ 2 * c_dt c))) as [B _].
  { intros nu Z Hnu. rewrite <- (tgrid_td _ _ HC).
    apply (wave_bound P c n xs kp kd qp deg w M H omax om); try assumption. rewrite (bu_NP _ _ HB). exact Hnu. }
  cbv zeta in B.
  assert (EE : error_field P xs kp w L x = fun (j i : nat) (l : nat) => field_of L x j i l - (if Nat.ltb j 2 then U j i l else 0)).
  { unfold error_field. rewrite <- Rf. reflexivity. }
  rewrite EE. clear EE. set (E := fun (j i : nat) (l : nat) => field_of L x j i l - (if Nat.ltb j 2 then U j i l else 0)) in *.
  change (fun l => field_of L x 0%nat 0%nat l - (if Nat.ltb 0 2 then U 0%nat 0%nat l else 0)) with (E 0%nat 0%nat) in B.
  rewrite (tgrid_dt P c HC) in B.
  pose proof (rest_bound P c n xs kp kd qp deg w M M0 H omax om HC HT HM Hkp Hd1 Hd2 Hin Rq Rdt HH HH1 Rw HM0 Hom) as RB.
  fold U in RB. fold D in RB. fold l in RB.
  set (rest := integ D Dx WOne 1 _ _) in *.
  assert (RS : sumn (p_N P) (residual2 P (c_qr c) g om D (d_x D) u1v u1g u2v U (fun _ => sqrt (7 * l * eps c kp M H ^ 2 * c_dt c)))
     <= p_T P * rate c n xs kp M M0 H omax g).
  { apply Rle_trans with (sumn (p_N P) (fun _ => c_dt c * rate c n xs kp M M0 H omax g)).
    - apply Rsum_le. intros nu Hnu. apply in_seq in Hnu.
      apply (residual_bound P c n xs kp kd qp deg w M M0 H omax om); try assumption. rewrite (bu_NP _ _ HB). lia.
    - rewrite sum_const_n. apply Req_le. rewrite <- Rmult_assoc. f_equal. rewrite (bu_dt _ _ HB). field.
      apply not_0_INR. pose proof (bu_N _ _ HB). rewrite <- (bu_NP _ _ HB). lia. }
  set (res := sumn (p_N P) _) in *. clearbody res.
  pose proof (L2_nonneg om D Rr Vp (E 0%nat 0%nat)) as N. set (e2 := L2 D Vp Vp (E 0%nat 0%nat) (E 0%nat 0%nat)) in *.
  set (r20 := 1e-20 ^ 2) in *. assert (R0 : 0 <= r20) by (apply pow2_ge_0).
  set (reg := 64 * r20 / (g_dual g * c_dt c)) in *.
  assert (Preg : 0 <= reg).
  { unfold reg. apply Rmult_le_pos; [lra|]. left. apply Rinv_0_lt_compat, Rmult_lt_0_compat; lra. }
  assert (K : reg * e2 <= / 2 * enorm2 P g om D E).
  { destruct HS as [[Hwp Hw]|[ka [[Hka _] Hw]]].
    - pose proof (start_energy P c g om D E HC HT Rr Hwp G1 (Rlt_le _ _ G2) G3 G4) as S. rewrite <- (enorm2_qsum P c g om D E HC) in S. fold e2 in S.
      apply Rle_trans with (/ 2 * (g_jump g * (1 / c_dt c * e2))); [|lra].
      replace (reg * e2) with (/ 2 * (128 * r20 * (/ (g_dual g * c_dt c) * e2))) by (unfold reg; field; lra).
      replace (/ 2 * (g_jump g * (1 / c_dt c * e2))) with (/ 2 * ((g_jump g * g_dual g) * (/ (g_dual g * c_dt c) * e2))) by (field; lra).
      apply Rmult_le_compat_l; [lra|]. apply Rmult_le_compat_r; [|exact Hw].
      apply Rmult_le_pos; [|exact N]. left. apply Rinv_0_lt_compat, Rmult_lt_0_compat; lra.
    - specialize (Hka E). rewrite (tgrid_dt P c HC) in Hka. fold e2 in Hka.
      apply Rle_trans with (/ 2 * (/ c_dt c * (ka * e2))).
      + replace (reg * e2) with (/ 2 * (128 * r20 * (/ (g_dual g * c_dt c) * e2))) by (unfold reg; field; lra).
        replace (/ 2 * (/ c_dt c * (ka * e2))) with (/ 2 * ((ka * g_dual g) * (/ (g_dual g * c_dt c) * e2))) by (field; lra).
        apply Rmult_le_compat_l; [lra|]. apply Rmult_le_compat_r; [|exact Hw].
        apply Rmult_le_pos; [|exact N]. left. apply Rinv_0_lt_compat, Rmult_lt_0_compat; lra.
      + apply Rmult_le_compat_l; [lra|]. apply (Rmult_le_reg_l (c_dt c)); [exact Pdt|].
        replace (c_dt c * (/ c_dt c * (ka * e2))) with (ka * e2) by (field; lra). exact Hka. }
  assert (Q : reg * rest <= reg * ((1 + M0 + eps c kp M H) ^ 2 * l)) by (apply Rmult_le_compat_l; assumption).
  unfold converge_bound. rewrite <- Re. fold r20. replace (p_T P / INR (p_N P)) with (c_dt c) by apply (bu_dt _ _ HB).
  replace (128 * r20 / (g_dual g * c_dt c) * (1 + M0 + eps c kp M H) ^ 2 * l) with (2 * (reg * ((1 + M0 + eps c kp M H) ^ 2 * l))) by (unfold reg; field; lra).
  unfold rate in RS. fold l in RS.
  set (A := eps c kp M H ^ 2 * _ + _) in *. clearbody A.
  replace (4 * p_T P * l * A) with (4 * (p_T P * (l * A))) by ring. rewrite Rmult_plus_distr_l in B. lra.
Qed.

(** ** the error in the data domain *)
Lemma at_time_minus d (X Y : field) j nu t r : at_time d (fun j i r => X j i r - Y j i r) j nu t r = at_time d X j nu t r - at_time d Y j nu t r.
Proof.
  unfold at_time. replace (sumn _ _ - sumn _ _) with (sumn (S (ord d j)) (fun i => lagrange (ord d j) i ((t - INR nu * t_dt d) / t_dt d) * X j (nu * S (ord d j) + i)%nat r)
    + -1 * sumn (S (ord d j)) (fun i => lagrange (ord d j) i ((t - INR nu * t_dt d) / t_dt d) * Y j (nu * S (ord d j) + i)%nat r)) by ring.
  rewrite <- Rsum_scal, <- Rsum_plus. apply Rsum_ext; intro i. ring.
Qed.
Lemma fev_minus D me s o a b p k : fev D me s o (fun r => a r - b r) p k = fev D me s o a p k - fev D me s o b p k.
Proof.
  unfold fev. replace (sumn _ _ - sumn _ _) with (sumn (d_dim D s) (fun r => a r * d_tab D me s o r p k) + -1 * sumn (d_dim D s) (fun r => b r * d_tab D me s o r p k)) by ring.
  rewrite <- Rsum_scal, <- Rsum_plus. apply Rsum_ext; intro r. ring.
Qed.
Lemma value_cont P c D X j nu p k x : construct P = Ok c -> continuous (fun t => fev D Dx Vp Val (at_time (td c) X j nu t) p k) x.
Proof.
  intro HC. pose proof (construct_inv _ _ HC) as HB. unfold fev. apply cont_sumn. intros r Hr.
  apply cont_mult_R; [|apply continuous_const]. unfold at_time. apply cont_sumn. intros i Hi. apply cont_mult_R; [|apply continuous_const].
  apply (cont_comp_affine (lagrange _ _)). intro y. apply lag_cont; [|lia]. pose proof (bu_q _ _ HB). pose proof (bu_qs _ _ HB).
  unfold ord, td in *. cbn [t_q t_qs] in *. rewrite (bu_cq _ _ HB), (bu_cqs _ _ HB) in *. destruct (Nat.ltb j 2); lia.
Qed.
(** squared error of the first component, weighted with the indicator, over space and time *)
Definition data_error2 (P : params) (om : nat -> R) (D : disc) (u : R -> R -> R) (X : field) : R :=
  sumn (p_N P) (fun nu => over_slab (tgrid P) nu (fun t => Rsum (d_pts D Dx) (fun p =>
    d_w D Dx p * om p * (fev D Dx Vp Val (at_time (tgrid P) X 0 nu t) p 0 - u t (nth 0 (d_x D p) 0)) ^ 2))).
(** it is bounded by the energy of the error *)
Lemma data_from_energy : forall P c g om n xs kp kd qp deg L w M M0 H omax, construct P = Ok c ->
  wave_run P n xs kp kd qp deg w M M0 H om omax -> let D := disc1 n xs kp kd qp in let l := xs n - xs 0%nat in
  0 < g_data g -> 0 < g_dual g -> 0 <= g_primal g -> 0 <= g_jump g -> forall x,
  data_error2 P om D (w 0%nat 0%nat) (field_of L x)
  <= 2 / g_data g * enorm2 P g om D (error_field P xs kp w L x) + 2 * p_T P * l * omax * accuracy P kp M H ^ 2.
Proof.
  intros P c g om n xs kp kd qp deg L w M M0 H omax HC HR D l G1 G2 G3 G4 x.
  pose proof (construct_inv _ _ HC) as HB. pose proof (run_q P c _ _ _ _ _ _ _ _ _ _ _ _ HC HR) as Rq.
  pose proof (run_dt P c _ _ _ _ _ _ _ _ _ _ _ _ HC HR) as Rdt. pose proof (run_wave P c _ _ _ _ _ _ _ _ _ _ _ _ HC HR) as Rw.
  pose proof (run_eps P c kp M H HC) as Re. pose proof (run_field P c xs kp w HC) as Rf. pose proof (run_regular P _ _ _ _ _ _ _ _ _ _ _ _ HR) as Rr.
  destruct HR as [HT HM Hkp Hd1 Hd2 Hin Hq Hdt HH HH1 HW HM0 Hom Hdat].
  pose proof (dt_pos _ _ HC HT) as Pdt.
  set (E := error_field P xs kp w L x) in *. set (U := nodal (c_q c) (c_dt c) xs kp w) in *. set (ac := accuracy P kp M H) in *.
  pose proof (omax_pos omax om Hom) as O0.
  assert (DE : forall nu, (nu < p_N P)%nat -> over_slab (tgrid P) nu (fun t => Rsum (d_pts D Dx) (fun p =>
      d_w D Dx p * om p * (fev D Dx Vp Val (at_time (tgrid P) (field_of L x) 0 nu t) p 0 - w 0%nat 0%nat t (nth 0 (d_x D p) 0)) ^ 2))
    <= 2 * data D (tgrid P) om E E nu + c_dt c * (2 * (l * omax * ac ^ 2))).
  { intros nu Hnu. rewrite <- (tgrid_td _ _ HC).
    assert (DC : forall y, continuous (data_at c om D E E nu) y) by (intro; apply (data_cont P c om D HB)).
    apply Rle_trans with (over_slab (td c) nu (fun t => 2 * data_at c om D E E nu t + 2 * (l * omax * ac ^ 2))).
    - apply (over_mono P c HC HT).
      + intro y. unfold D at 1. cbn [d_pts disc1]. apply cont_sumn. intros p Hp. apply cont_mult_R; [apply continuous_const|].
        apply (cont_ext_R (fun t => (fev D Dx Vp Val (at_time (td c) (field_of L x) 0 nu t) p 0 - w 0%nat 0%nat t (nth 0 (d_x D p) 0))
          * (fev D Dx Vp Val (at_time (td c) (field_of L x) 0 nu t) p 0 - w 0%nat 0%nat t (nth 0 (d_x D p) 0)))); [intro; ring|].
        assert (Cf : continuous (fun t => fev D Dx Vp Val (at_time (td c) (field_of L x) 0 nu t) p 0 - w 0%nat 0%nat t (nth 0 (d_x D p) 0)) y).
        { apply cont_minus_R; [apply (value_cont P); exact HC|]. apply (cont_of_derive _ (fun t => w 1%nat 0%nat t (nth 0 (d_x D p) 0))).
          apply (sw_t _ _ _ _ _ _ _ HW). }
        apply cont_mult_R; exact Cf.
      + intro y. apply (cont_plus_R (fun t => 2 * _)); [apply cont_scal_R, DC|apply continuous_const].
      + intros t Ht. replace (2 * (l * omax * ac ^ 2)) with (2 * (omax * ac ^ 2) * l) by ring.
        assert (SW : Rsum (d_pts D Dx) (fun p => d_w D Dx p) = l) by (apply (sum_w P c n xs kp kd qp deg); assumption).
        rewrite <- SW. unfold data_at, L2w, sp, integ. cbn [ncomp]. rewrite <- !Rsum_scal, <- Rsum_plus. apply Rsum_le. intros p Hp.
        cbn [wval seq]. rewrite Rsum_cons, Rsum_nil.
        pose proof (rg_w _ _ Rr Dx p Hp) as Wp. fold D in Wp. pose proof (Hom p) as Op.
        set (a := fev D Dx Vp Val (at_time (td c) (field_of L x) 0 nu t) p 0). set (u := fev D Dx Vp Val (at_time (td c) U 0 nu t) p 0).
        assert (Ee : fev D Dx Vp Val (at_time (td c) E 0 nu t) p 0 = a - u).
        { unfold a, u. rewrite <- fev_minus. apply fev_ext. intros r _. rewrite <- at_time_minus. unfold at_time. apply Rsum_ext; intro i.
          unfold E, error_field. rewrite <- Rf. reflexivity. }
        rewrite Ee. set (v := w 0%nat 0%nat t (nth 0 (d_x D p) 0)).
        assert (Av : Rabs (u - v) <= ac).
        { unfold u. rewrite (fev_ext D Dx Vp Val _ (Ut c xs kp w 0 0 nu t)) by (intros r _; apply (at_U P c xs kp kd deg w); try assumption; lia).
          unfold D. rewrite (fev_fed P c n xs kp kd qp deg) by assumption. rewrite <- Re.
          apply (U_eps P c n xs kp kd qp deg w M H HC HT HM Hkp Hd1 Hd2 Rq Rdt HH HH1 Rw 0 0 0 nu (p / List.length qp) t (xpt xs qp p)); try lia; try assumption.
          - rewrite (bu_NP _ _ HB). exact Hnu.
          - apply (pt_e P c n xs kp kd qp deg); assumption.
          - apply (pt_x P c n xs kp kd qp deg); assumption. }
        pose proof (sq_le _ _ Av) as Sv.
        assert (Y : (a - v) ^ 2 <= 2 * (a - u) ^ 2 + 2 * ac ^ 2) by (pose proof (pow2_ge_0 (a - u - (u - v))); nra).
        assert (W0 : 0 <= d_w D Dx p * om p) by (apply Rmult_le_pos; lra).
        apply Rle_trans with (d_w D Dx p * om p * (2 * (a - u) ^ 2 + 2 * ac ^ 2)); [apply Rmult_le_compat_l; assumption|].
        replace (d_w D Dx p * om p * (2 * (a - u) ^ 2 + 2 * ac ^ 2)) with (2 * (d_w D Dx p * om p * ((a - u) * (a - u) + 0)) + d_w D Dx p * (om p * (2 * ac ^ 2))) by ring.
        apply Rplus_le_compat_l. rewrite (Rmult_comm _ (d_w D Dx p)). apply Rmult_le_compat_l; [exact Wp|].
        replace (2 * (omax * ac ^ 2)) with (omax * (2 * ac ^ 2)) by ring. apply Rmult_le_compat_r; [pose proof (pow2_ge_0 ac); lra|lra].
    - change (data D (td c) om E E nu) with (over_slab (td c) nu (data_at c om D E E nu)). unfold over_slab. cbn [t_dt td].
      rewrite (RInt_plus_c (fun t => 2 * data_at c om D E E nu t) (fun _ => 2 * (l * omax * ac ^ 2))); [|intro; apply cont_scal_R, DC|intro; apply continuous_const].
      rewrite (RInt_scal_c (data_at c om D E E nu)) by exact DC. rewrite RInt_const_c. apply Req_le. ring. }
  unfold data_error2. apply Rle_trans with (sumn (p_N P) (fun nu => 2 * data D (tgrid P) om E E nu + c_dt c * (2 * (l * omax * ac ^ 2)))).
  { apply Rsum_le. intros nu Hnu. apply in_seq in Hnu. apply DE. lia. }
  rewrite Rsum_plus, Rsum_scal, sum_const_n.
  assert (ET : INR (p_N P) * c_dt c = p_T P).
  { rewrite (bu_dt _ _ HB). field. apply not_0_INR. pose proof (bu_N _ _ HB). rewrite <- (bu_NP _ _ HB). lia. }
  replace (INR (p_N P) * (c_dt c * (2 * (l * omax * ac ^ 2)))) with (INR (p_N P) * c_dt c * (2 * (l * omax * ac ^ 2))) by ring. rewrite ET.
  replace (2 * p_T P * l * omax * ac ^ 2) with (p_T P * (2 * (l * omax * ac ^ 2))) by ring. apply Rplus_le_compat_r.
  replace (2 / g_data g * enorm2 P g om D E) with (2 * (enorm2 P g om D E / g_data g)) by (field; lra).
  apply Rmult_le_compat_l; [lra|]. apply (Rmult_le_reg_l (g_data g)); [exact G1|].
  replace (g_data g * (enorm2 P g om D E / g_data g)) with (enorm2 P g om D E) by (field; lra).
  rewrite (enorm2_qsum P c g om D E HC). unfold qsum. rewrite <- Rsum_scal, <- (bu_NP _ _ HB). apply Rsum_le. intros nu Hnu.
  destruct (quad_spec_pos P c g om D HB Pdt Rr E nu (Rlt_le _ _ G1) (Rlt_le _ _ G2) G3 G4) as [A1 [A2 [A3 [A4 [A5 [A6 A7]]]]]].
  rewrite <- (tgrid_td _ _ HC). unfold quad_spec. destruct (Nat.ltb 0 nu), (c_jumps c), (c_wp c); lra.
Qed.
Theorem C80_data_domain : forall P c g om n xs kp kd qp deg L w M M0 H omax u1v u1g u2v, construct P = Ok c ->
  wave_run P n xs kp kd qp deg w M M0 H om omax -> let D := disc1 n xs kp kd qp in let l := xs n - xs 0%nat in
  lay_ok D 4 (nc_full c) L -> 0 < g_data g -> 0 < g_dual g -> 0 <= g_primal g -> 0 <= g_jump g ->
  initial P n xs kp kd qp w u1v u1g u2v -> start_known P g om D ->
  forall x, solves_st P c g om D L u1v u1g u2v x ->
  data_error2 P om D (w 0%nat 0%nat) (field_of L x)
  <= 2 / g_data g * converge_bound P kp g M M0 H omax l + 2 * p_T P * l * omax * accuracy P kp M H ^ 2.
Proof.
  intros P c g om n xs kp kd qp deg L w M M0 H omax u1v u1g u2v HC HR D l HL G1 G2 G3 G4 HI HS x Hx.
  pose proof (C80_convergence P c g om n xs kp kd qp deg L w M M0 H omax u1v u1g u2v HC HR HL (Rlt_le _ _ G1) G2 G3 G4 HI HS x Hx) as B.
  pose proof (data_from_energy P c g om n xs kp kd qp deg L w M M0 H omax HC HR G1 G2 G3 G4 x) as A. cbv zeta in A. fold D l in A, B.
  eapply Rle_trans; [exact A|]. apply Rplus_le_compat_r. apply Rmult_le_compat_l; [apply Rlt_le, Rdiv_lt_0_compat; lra|exact B].
Qed.

(** * solve_1d.py *)
(** derivatives of cos (2 pi t) sin (2 pi x) *)
Definition wave_1d (i m : nat) (t x : R) : R :=
  (2 * PI) ^ (i + m) * (cos (2 * PI * t + INR i * (PI / 2)) * sin (2 * PI * x + INR m * (PI / 2))).
Lemma wave_1d_sol t x : wave_1d 0 0 t x = sample_sol_1d t [x].
Proof. unfold wave_1d, sample_sol_1d. cbn [Nat.add pow INR nth]. rewrite !Rmult_0_l, !Rplus_0_r. ring. Qed.
Lemma wave_1d_dt t x : wave_1d 1 0 t x = dt_sample_sol_1d t [x].
Proof.
  unfold wave_1d, dt_sample_sol_1d. cbn [Nat.add pow INR nth]. rewrite Rmult_0_l, Rplus_0_r, !Rmult_1_l, Rmult_1_r.
  rewrite cos_plus, cos_PI2, sin_PI2. ring.
Qed.
Lemma trig_unit a b : Rabs (cos a * sin b) <= 1.
Proof.
  rewrite Rabs_mult. rewrite <- (Rmult_1_l 1). apply Rmult_le_compat; try apply Rabs_pos.
  - apply Rabs_le_between, COS_bound.
  - apply Rabs_le_between, SIN_bound.
Qed.
Lemma pi_big : 1 <= 2 * PI.
Proof. pose proof PI2_3_2. lra. Qed.
Lemma smooth_1d q k : smooth_wave q k 1 0 1 ((2 * PI) ^ (q + 2 + (k + 1))) wave_1d.
Proof.
  pose proof pi_big as Pb. constructor.
  - intros i m t x. unfold wave_1d.
    replace ((2 * PI) ^ (S i + m) * (cos (2 * PI * t + INR (S i) * (PI / 2)) * sin (2 * PI * x + INR m * (PI / 2))))
      with ((2 * PI) ^ (i + m) * ((- (2 * PI) * sin (2 * PI * t + INR i * (PI / 2))) * sin (2 * PI * x + INR m * (PI / 2)))).
    2: { rewrite S_INR. replace (2 * PI * t + (INR i + 1) * (PI / 2)) with (2 * PI * t + INR i * (PI / 2) + PI / 2) by ring.
         rewrite (cos_plus (2 * PI * t + INR i * (PI / 2)) (PI / 2)), cos_PI2, sin_PI2. cbn [Nat.add pow]. ring. }
    auto_derive; [exact Logic.I|ring].
  - intros i m t x. unfold wave_1d.
    replace ((2 * PI) ^ (i + S m) * (cos (2 * PI * t + INR i * (PI / 2)) * sin (2 * PI * x + INR (S m) * (PI / 2))))
      with ((2 * PI) ^ (i + m) * (cos (2 * PI * t + INR i * (PI / 2)) * (2 * PI * cos (2 * PI * x + INR m * (PI / 2))))).
    2: { rewrite S_INR. replace (2 * PI * x + (INR m + 1) * (PI / 2)) with (2 * PI * x + INR m * (PI / 2) + PI / 2) by ring.
         rewrite (sin_plus (2 * PI * x + INR m * (PI / 2)) (PI / 2)), cos_PI2, sin_PI2. rewrite Nat.add_succ_r. cbn [pow]. ring. }
    auto_derive; [exact Logic.I|ring].
  - intros t x _ _. unfold wave_1d. cbn [Nat.add INR]. rewrite !Rmult_0_l, !Rplus_0_r.
    replace ((1 + 1) * (PI / 2)) with PI by field. rewrite neg_cos, neg_sin. ring.
  - intros t _. unfold wave_1d. cbn [Nat.add INR]. rewrite Rmult_0_r, !Rmult_0_l, !Rplus_0_r, sin_0. ring.
  - intros t _. unfold wave_1d. cbn [Nat.add INR]. rewrite Rmult_1_r, !Rmult_0_l, !Rplus_0_r, sin_2PI. ring.
  - intros i m t x Hi Hm _ _. unfold wave_1d. rewrite Rabs_mult, (Rabs_pos_eq ((2 * PI) ^ (i + m))) by (apply pow_le; lra).
    rewrite <- (Rmult_1_r ((2 * PI) ^ (q + 2 + (k + 1)))). apply Rmult_le_compat; [apply pow_le; lra|apply Rabs_pos|apply Rle_pow; [exact Pb|lia]|apply trig_unit].
Qed.
Lemma wave_1d_unit t x : Rabs (wave_1d 0 0 t x) <= 1.
Proof. unfold wave_1d. cbn [Nat.add pow]. rewrite Rmult_1_l. apply trig_unit. Qed.

(** mesh of 5 N cells, N slabs; rule with points in the cells *)
Definition inner_rule (qp : list (R * R)) : Prop := forall j, (j < List.length qp)%nat -> 0 <= qs qp j <= 1.
Lemma run_1d o N qp om : (1 <= o <= 3)%nat -> (1 <= N)%nat -> rule_ok o qp -> inner_rule qp -> (forall p, 0 <= om p <= 1) ->
  wave_run (st_params (setting_1d o N)) (5 * N) (unit_vertex (5 * N)) o 1 qp (2 * o + 3) wave_1d ((2 * PI) ^ (o + 2 + (o + 1))) 1 (/ INR (5 * N)) om 1.
Proof.
  intros Ho HN Hr Hi Hom. assert (N1 : 1 <= INR N) by (apply (le_INR 1), HN). assert (E5 : INR (5 * N) = 5 * INR N) by (rewrite mult_INR; cbn [INR]; ring).
  assert (V0 : unit_vertex (5 * N) 0 = 0) by (unfold unit_vertex; cbn [INR]; unfold Rdiv; ring).
  assert (V1 : unit_vertex (5 * N) (5 * N) = 1) by (unfold unit_vertex; rewrite E5; field; lra).
  constructor; try (cbn [setting_1d st_params driver_params p_T p_k p_q p_N p_v]); try lia.
  - lra.
  - apply mesh_1d; [lia|exact HN|exact Hr].
  - exact Hi.
  - apply (Rmult_le_reg_r (INR N)); [lra|]. replace (1 / INR N * INR N) with 1 by (field; lra). lra.
  - intros e He. rewrite unit_len by lia. lra.
  - rewrite E5, <- Rinv_1. apply Rinv_le_contravar; lra.
  - rewrite V0, V1, Nat2Z.id. apply smooth_1d.
  - intros t x _ _. apply wave_1d_unit.
  - exact Hom.
  - intros t p _ Hp _. rewrite wave_1d_sol. reflexivity.
Qed.
(** error of the system's solution for the shipped weights.  N slabs, degree o in time and
    space: of order N ^ -o in the energy, down to the accuracy of the rule in time. *)
Definition rate_1d (o N : nat) : R := (2 * PI) ^ (2 * o + 3) * (7 / 5) / INR N ^ o.
Lemma accuracy_1d o N : (1 <= o <= 3)%nat -> (1 <= N)%nat ->
  0 <= accuracy (st_params (setting_1d o N)) o ((2 * PI) ^ (o + 2 + (o + 1))) (/ INR (5 * N)) <= rate_1d o N.
Proof.
  intros Ho HN. assert (N1 : 1 <= INR N) by (apply (le_INR 1), HN). assert (E5 : INR (5 * N) = 5 * INR N) by (rewrite mult_INR; cbn [INR]; ring).
  pose proof pi_big as Pb. unfold accuracy, rate_1d. cbn [setting_1d st_params driver_params p_T p_N p_q]. rewrite Nat2Z.id, E5.
  replace (o + 2 + (o + 1))%nat with (2 * o + 3)%nat by lia.
  assert (PM : 0 <= (2 * PI) ^ (2 * o + 3)) by (apply pow_le; lra). set (MM := (2 * PI) ^ (2 * o + 3)) in *.
  assert (PN : 0 < INR N ^ o) by (apply pow_lt; lra).
  assert (E1 : (/ (5 * INR N)) ^ o = / 5 ^ o * / INR N ^ o) by (rewrite pow_inv, Rpow_mult_distr, Rinv_mult; reflexivity).
  assert (E2 : (1 / INR N) ^ o = / INR N ^ o) by (unfold Rdiv; rewrite Rmult_1_l, pow_inv; reflexivity).
  rewrite E1, E2. assert (Q5 : 0 < / 5 ^ o <= / 5).
  { split; [apply Rinv_0_lt_compat, pow_lt; lra|]. apply Rinv_le_contravar; [lra|]. rewrite <- (pow_1 5) at 1. apply Rle_pow; [lra|lia]. }
  assert (QN : 0 < / INR N ^ o) by (apply Rinv_0_lt_compat; exact PN). set (a := / 5 ^ o) in *. set (b := / INR N ^ o) in *.
  replace (MM * (7 / 5) / INR N ^ o) with (MM * (7 / 5 * b)) by (unfold b; field; lra). split.
  - apply Rmult_le_pos; [exact PM|]. nra.
  - apply Rmult_le_compat_l; [exact PM|]. nra.
Qed.
Lemma start_1d o N qp om : (1 <= o <= 3)%nat -> (1 <= N)%nat -> (Z.of_nat N <= slabs_1d o)%Z -> rule_ok o qp -> (forall p, 0 <= om p <= 1) ->
  start_known (st_params (setting_1d o N)) gamma_shipped om (disc_1d o N qp).
Proof.
  intros Ho HN Hb Hr Hom. right. destruct (control_1d o N qp om Ho HN Hb Hr (fun p => proj1 (Hom p))) as [ka [A B]]. exists ka. split; [|exact B].
  destruct (shipped_good Driver1D _ (shipped_1d o N Ho HN)) as [c [Hc _]].
  apply (controls_whole _ c); try assumption; try (cbn [g_data g_dual g_primal g_jump gamma_shipped]; lra).
  - cbn; lra.
  - apply (C75_regular _ _ _ _ _ _ om (mesh_1d o N qp ltac:(lia) HN Hr)). intro p. apply Hom.
Qed.
Lemma bound_1d o N : (1 <= o <= 3)%nat -> (1 <= N)%nat -> (Z.of_nat N <= slabs_1d o)%Z ->
  converge_bound (st_params (setting_1d o N)) o gamma_shipped ((2 * PI) ^ (o + 2 + (o + 1))) 1 (/ INR (5 * N)) 1 1
  <= 320030 * rate_1d o N ^ 2 + 17 / 1000000.
Proof.
  intros Ho HN Hb. pose proof (accuracy_1d o N Ho HN) as [A0 A1]. unfold converge_bound. cbn [gamma_shipped g_data g_dual g_primal].
  change (p_T (st_params (setting_1d o N))) with 1. change (p_N (st_params (setting_1d o N))) with N.
  set (a := accuracy _ _ _ _) in *. clearbody a. set (r := rate_1d o N) in *. clearbody r.
  assert (N1 : 1 <= INR N) by (apply (le_INR 1), HN).
  assert (NB : INR N <= 1000000).
  { pose proof (bigN N _ Hb) as B. unfold slabs_1d in B. destruct (Nat.eqb o 1); lra. }
  replace (128 * 1e-20 ^ 2 / (1 * (1 / INR N))) with (128 * 1e-20 ^ 2 * INR N) by (field; lra).
  assert (A2 : a ^ 2 <= r ^ 2) by (apply pow_incr; lra). pose proof (pow2_ge_0 a) as A3.
  assert (S1 : (1 + a) ^ 2 <= 2 * (1 + a ^ 2)) by (pose proof (pow2_ge_0 (1 - a)); nra).
  assert (S2 : (1 + 1 + a) ^ 2 <= 2 * (4 + a ^ 2)) by (pose proof (pow2_ge_0 (2 - a)); nra).
  assert (R0 : 0 <= 1e-20 ^ 2 <= / 100000000000000000000) by (decimals; lra). set (z := 1e-20 ^ 2) in *. clearbody z.
  assert (Q : 128 * z * INR N * (1 + 1 + a) ^ 2 <= / 100000000 * (2 * (4 + a ^ 2))).
  { apply Rmult_le_compat; [apply Rmult_le_pos; [lra|lra]|apply pow2_ge_0| |exact S2].
    apply Rle_trans with (128 * / 100000000000000000000 * 1000000); [apply Rmult_le_compat; lra|lra]. }
  rewrite Rmult_1_r. decimals. lra.
Qed.
Theorem C80_driver : forall o N qp om, (1 <= o <= 3)%nat -> (1 <= N)%nat -> (Z.of_nat N <= slabs_1d o)%Z -> rule_ok o qp -> inner_rule qp ->
  (forall p, 0 <= om p <= 1) -> let P := st_params (setting_1d o N) in let D := disc_1d o N qp in
  exists c, construct P = Ok c /\ forall L u1v u1g u2v x, lay_ok D 4 (nc_full c) L ->
  solves_st P c gamma_shipped om D L u1v u1g u2v x ->
  enorm2 P gamma_shipped om D (error_field P (unit_vertex (5 * N)) o wave_1d L x) <= 320030 * rate_1d o N ^ 2 + 17 / 1000000
  /\ data_error2 P om D (fun t y => sample_sol_1d t [y]) (field_of L x) <= 67 * rate_1d o N ^ 2 + 4 / 1000000000.
Proof.
  intros o N qp om Ho HN Hb Hr Hi Hom P D. destruct (shipped_good Driver1D _ (shipped_1d o N Ho HN)) as [c [Hc _]]. exists c. split; [exact Hc|].
  intros L u1v u1g u2v x HL Hx. pose proof (run_1d o N qp om Ho HN Hr Hi Hom) as HR. fold P in HR, Hc.
  pose proof (start_1d o N qp om Ho HN Hb Hr Hom) as HS. fold P D in HS.
  assert (HI : initial P (5 * N) (unit_vertex (5 * N)) o 1 qp wave_1d u1v u1g u2v) by (intro Hwp; discriminate Hwp).
  pose proof (bound_1d o N Ho HN Hb) as B. fold P in B.
  assert (N1 : 1 <= INR N) by (apply (le_INR 1), HN). assert (E5 : INR (5 * N) = 5 * INR N) by (rewrite mult_INR; cbn [INR]; ring).
  assert (El : unit_vertex (5 * N) (5 * N) - unit_vertex (5 * N) 0 = 1).
  { unfold unit_vertex. cbn [INR]. rewrite E5. field. lra. }
  pose proof (accuracy_1d o N Ho HN) as [A0 A1]. fold P in A0, A1.
  split.
  - pose proof (C80_convergence P c gamma_shipped om _ _ _ _ _ _ L _ _ _ _ _ u1v u1g u2v Hc HR HL ltac:(cbn; lra) ltac:(cbn; lra) ltac:(cbn; lra) ltac:(cbn; lra) HI HS x Hx) as C.
    rewrite El in C. eapply Rle_trans; [exact C|exact B].
  - pose proof (C80_data_domain P c gamma_shipped om _ _ _ _ _ _ L _ _ _ _ _ u1v u1g u2v Hc HR HL ltac:(cbn; lra) ltac:(cbn; lra) ltac:(cbn; lra) ltac:(cbn; lra) HI HS x Hx) as C.
    cbv zeta in C. rewrite El in C.
    replace (data_error2 P om D (fun t y => sample_sol_1d t [y]) (field_of L x)) with (data_error2 P om D (wave_1d 0 0) (field_of L x)).
    2: { unfold data_error2. apply Rsum_ext; intro nu. apply over_slab_ext. intro t. apply Rsum_ext; intro p. rewrite wave_1d_sol. reflexivity. }
    eapply Rle_trans; [exact C|]. set (b := converge_bound _ _ _ _ _ _ _ _) in *. change (p_T P) with 1. cbn [gamma_shipped g_data].
    assert (A2 : accuracy P o ((2 * PI) ^ (o + 2 + (o + 1))) (/ INR (5 * N)) ^ 2 <= rate_1d o N ^ 2) by (apply pow_incr; lra).
    pose proof (pow2_ge_0 (rate_1d o N)). set (a := accuracy _ _ _ _ ^ 2) in *. clearbody a b. lra.
Qed.
(** Doubling N divides the first part of the bounds by 4 ^ o. *)
Theorem C80_driver_order : forall o N, (1 <= N)%nat -> rate_1d o (2 * N) = rate_1d o N / 2 ^ o.
Proof.
  intros o N HN. assert (N1 : 1 <= INR N) by (apply (le_INR 1), HN). unfold rate_1d. rewrite mult_INR. replace (INR 2) with 2 by (cbn; lra).
  rewrite (Rpow_mult_distr 2 (INR N)). assert (A : 2 ^ o <> 0) by (apply pow_nonzero; lra). assert (B : INR N ^ o <> 0) by (apply pow_nonzero; lra).
  set (a := (2 * PI) ^ (2 * o + 3)). set (b := 2 ^ o) in *. set (d := INR N ^ o) in *. clearbody a b d. field. split; assumption.
Qed.
(** the hypotheses hold for degree 1 and any number of slabs up to a million; with the
    largest, the bound in the data domain is below the square norm 1/4 of the solution *)
Example C80_nonvacuous : inner_rule gauss3 /\ rule_ok 1 gauss3 /\ 67 * rate_1d 1 (Z.to_nat 1000000) ^ 2 + 4 / 1000000000 < 1 / 4
  /\ forall N, (1 <= N)%nat -> (Z.of_nat N <= slabs_1d 1)%Z -> let P := st_params (setting_1d 1 N) in let D := disc_1d 1 N gauss3 in
     exists c x, construct P = Ok c /\ lay_ok D 4 (nc_full c) (std_layout 4 (nc_full c) (fun j => d_dim D (spc j)))
       /\ solves_st P c gamma_shipped (fun _ => 1) D (std_layout 4 (nc_full c) (fun j => d_dim D (spc j))) (fun _ _ => 0) (fun _ _ => 0) (fun _ _ => 0) x.
Proof.
  split; [|split; [exact gauss3_rule|split]].
  - assert (S2 : 0 <= sqrt (3 / 20) <= 1 / 2).
    { split; [apply sqrt_pos|]. rewrite <- (sqrt_Rsqr (1 / 2)) by lra. apply sqrt_le_1_alt. unfold Rsqr. lra. }
    intros j Hj. unfold qs, gauss3 in *. cbn [List.length] in Hj. destruct j as [|[|[|j]]]; [| | |lia]; cbn [nth fst]; lra.
  - unfold rate_1d. rewrite INR_IZR_INZ, Z2Nat.id by lia. rewrite pow_1. change (2 * 1 + 3)%nat with 5%nat.
    pose proof PI_4 as P4. pose proof PI_RGT_0 as P0.
    assert (B : 0 <= (2 * PI) ^ 5 <= 8 ^ 5) by (split; [apply pow_le; lra|apply pow_incr; lra]). set (a := (2 * PI) ^ 5) in *. clearbody a.
    assert (C : 0 <= a * (7 / 5) / 1000000 <= 8 ^ 5 * (7 / 5) / 1000000) by lra.
    assert (Q : (a * (7 / 5) / 1000000) ^ 2 <= (8 ^ 5 * (7 / 5) / 1000000) ^ 2) by (apply pow_incr; exact C). lra.
  - intros N HN Hb P D. destruct (C76_driver 1 N gauss3 (fun _ => 1) ltac:(lia) HN Hb gauss3_rule ltac:(intros; lra)) as [c [Hc K]].
    pose proof (std_layout_ok 4 (nc_full c) (fun j => d_dim D (spc j))) as HL.
    destruct (K _ _ HL (std_layout_ok 4 (nc_pre c) (fun j => d_dim D (spc j)))) as [U _].
    destruct (U (assemble_vec D (std_layout 4 (nc_full c) (fun j => d_dim D (spc j)))
       (rhs_form c (fun _ => 1) (g_data gamma_shipped) (g_jump gamma_shipped) (d_x D) (fun _ _ => 0) (fun _ _ => 0) (fun _ _ => 0)))) as [x [Hx _]].
    exists c, x. split; [exact Hc|]. split; [exact HL|exact Hx].
Qed.

Print Assumptions C80_convergence.
Print Assumptions C80_data_domain.
Print Assumptions C80_driver.
Print Assumptions C80_driver_order.
Print Assumptions C80_nonvacuous.
