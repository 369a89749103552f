(** Props_Reported.v -- C82: from the system that the drivers hand to GMRES to the errors
    that measured_errors reports: convergence of the reported numbers when the measurements
    cover the interval. *)
From Coq Require Import Reals List ZArith Lra Lia Bool String.
From Coquelicot Require Import Coquelicot.
From Verif Require Import Base TimeModel TimeSpec TimeProofs QuadProofs FormModel FormSpec FormProofs
  SpaceTimeForms FormBlocks GuardProofs FormTime FormC12 FormSym FormStruct FormCons FormWf FormExample Props_Forms
  SpaceTimeModel SlabOps ApplyProofs MarchProofs MarchSum Lifecycle LifeProofs OpsProofs LinAlg WellPosed Injective SetupOk Props_Ops
  GmresModel Props_Gmres DriverModel DriverConfig Props_Solve Props_WellPosed Stability ErrorBound Props_Stability Observe Props_Observe Delivered
  Props_Krylov Props_Config Space1D NoData Elliptic1D Props_Space1D ErrorsModel ErrorsSpec ErrorsProofs Props_Errors Vanish Props_Vanish
  Interp1D Converge1D Props_Converge Reported.
Import ListNotations.
Open Scope R_scope.

(** * The setting *)
(** the part of the energy (enorm2) that belongs to slab n *)
Definition slab_energy (P : params) (g : gammas) (om : nat -> R) (D : disc) (X : field) (n : nat) : R :=
  let d := tgrid P in let lam := 5 * INR (p_k P) ^ 2 in
  g_data g * data D d om X X n + g_dual g * dual D d lam X X n + g_primal g * primal D d lam X X n
  + (if Nat.ltb 0 n then g_jump g * jumps D d X X n + (if p_jumps P then g_dual g * dualjumps D d X X n else 0)
     else if p_wp P then g_jump g * init D d X X else 0).
(** on every slab the energy controls the values of u1 *)
Definition value_control (P : params) (g : gammas) (om : nat -> R) (D : disc) (F : R) : Prop :=
  0 <= F /\ forall X n, (n < p_N P)%nat ->
    over_slab (tgrid P) n (fun t => L2 D Vp Vp (at_time (tgrid P) X 0 n t) (at_time (tgrid P) X 0 n t)) <= F * slab_energy P g om D X n.
Lemma slab_energy_quad P c g om D X n : construct P = Ok c -> slab_energy P g om D X n = quad_spec c g om D X n.
Proof.
  intro HC. pose proof (construct_inv _ _ HC) as HB. unfold slab_energy, quad_spec.
  rewrite (tgrid_td _ _ HC), (bu_lam _ _ HB), (bu_jumps _ _ HB), (bu_wp _ _ HB). reflexivity.
Qed.
Lemma control_quad P c g om D F : construct P = Ok c -> value_control P g om D F -> forall X n, (n < c_N c)%nat ->
  over_slab (td c) n (fun t => L2 D Vp Vp (at_time (td c) X 0 n t) (at_time (td c) X 0 n t)) <= F * quad_spec c g om D X n.
Proof.
  intros HC [_ H] X n Hn. rewrite <- (slab_energy_quad P c g om D X n HC), (tgrid_td _ _ HC). apply H.
  rewrite <- (bu_NP _ _ (construct_inv _ _ HC)). exact Hn.
Qed.

(** ** measurements everywhere *)
Theorem C82_control_data : forall P c g om D w0, construct P = Ok c -> 0 < p_T P -> regular D om ->
  0 < g_data g -> 0 <= g_dual g -> 0 <= g_primal g -> 0 <= g_jump g -> 0 < w0 -> (forall p, In p (d_pts D Dx) -> w0 <= om p) ->
  value_control P g om D (1 / (g_data g * w0)).
Proof.
  intros P c g om D w0 HC HT HR G1 G2 G3 G4 W0 Hom. pose proof (construct_inv _ _ HC) as HB. pose proof (dt_pos _ _ HC HT) as Hdt.
  assert (GW : 0 < g_data g * w0) by (apply Rmult_lt_0_compat; assumption).
  split; [apply Rlt_le, Rdiv_lt_0_compat; lra|]. intros X n Hn. rewrite (slab_energy_quad P c g om D X n HC), <- (tgrid_td _ _ HC).
  pose proof (quad_spec_pos P c g om D HB Hdt HR X n (Rlt_le _ _ G1) G2 G3 G4) as [A1 [A2 [A3 [A4 [A5 [A6 _]]]]]].
  assert (B : g_data g * data D (td c) om X X n <= quad_spec c g om D X n).
  { unfold quad_spec. destruct (Nat.ltb 0 n), (c_jumps c), (c_wp c); lra. }
  set (ov := over_slab (td c) n _).
  assert (O : w0 * ov <= data D (td c) om X X n).
  { change (data D (td c) om X X n) with (over_slab (td c) n (data_at c om D X X n)). unfold ov, over_slab. cbn [t_dt td].
    assert (Ct : forall y, continuous (fun t => L2 D Vp Vp (at_time (td c) X 0 n t) (at_time (td c) X 0 n t)) y).
    { intro y. exact (data_cont P c (fun _ => 1) D HB X X n y). }
    rewrite <- (RInt_scal_c _ w0) by exact Ct.
    apply RInt_le; [lra|apply ex_RInt_cont; intro; apply cont_scal_R, Ct|apply ex_RInt_cont; intro; apply (data_cont P c om D HB)|].
    intros t _. unfold data_at, L2w, L2, sp, integ. cbn [ncomp]. rewrite <- Rsum_scal. apply Rsum_le. intros p Hp. cbn [wval seq].
    rewrite !Rsum_cons, !Rsum_nil. set (a := fev D Dx Vp Val (at_time (td c) X 0 n t) p 0). pose proof (rg_w _ _ HR Dx p Hp) as Wp.
    replace (w0 * (d_w D Dx p * 1 * (a * a + 0))) with (d_w D Dx p * (a * a) * w0) by ring.
    replace (d_w D Dx p * om p * (a * a + 0)) with (d_w D Dx p * (a * a) * om p) by ring.
    apply Rmult_le_compat_l; [apply Rmult_le_pos; [exact Wp|apply Rle_0_sqr]|apply Hom, Hp]. }
  apply (Rmult_le_reg_l (g_data g * w0)); [exact GW|].
  replace (g_data g * w0 * (1 / (g_data g * w0) * quad_spec c g om D X n)) with (quad_spec c g om D X n) by (field; lra).
  eapply Rle_trans; [|exact B]. rewrite Rmult_assoc. apply Rmult_le_compat_l; [lra|exact O].
Qed.
(** ** no measurements: the elliptic bound of C76 *)
Theorem C82_control_elliptic : forall P c g om D K H, construct P = Ok c -> 0 < p_T P -> regular D om -> 0 < K ->
  elliptic_bound D (5 * INR (p_k P) ^ 2) K -> (forall p, In p (d_pts D Dx) -> d_h D Dx p <= H) ->
  0 <= g_data g -> 0 <= g_dual g -> 0 < g_primal g -> 0 <= g_jump g ->
  value_control P g om D (factor (Z.to_nat (p_q P)) (t_dt (tgrid P)) K H / g_primal g).
Proof.
  intros P c g om D K H HC HT HR HK0 HK HH G1 G2 G3 G4. pose proof (construct_inv _ _ HC) as HB. pose proof (dt_pos _ _ HC HT) as Hdt.
  assert (Fp : 0 <= factor (Z.to_nat (p_q P)) (t_dt (tgrid P)) K H).
  { unfold factor. rewrite (tgrid_dt P c HC). assert (0 < 180 / c_dt c ^ 2) by (apply Rdiv_lt_0_compat; [lra|apply pow_lt, Hdt]).
    pose proof (pow2_ge_0 H). assert (0 <= 3 * H ^ 2 * (180 / c_dt c ^ 2)) by (apply Rmult_le_pos; lra).
    apply Rmult_le_pos; [apply Rmult_le_pos; lra|]. destruct (Nat.leb _ _); [lra|].
    assert (0 <= 3 * H ^ 2 * K * (180 / c_dt c ^ 2) ^ 2); [|lra]. apply Rmult_le_pos; [apply Rmult_le_pos; lra|apply pow2_ge_0]. }
  split; [apply Rdiv_le_0_compat; [exact Fp|exact G3]|]. intros X n Hn. rewrite (slab_energy_quad P c g om D X n HC).
  pose proof (C76_primal_controls P c om D K H X n HC HT HR (Rlt_le _ _ HK0) HK HH) as Q.
  rewrite <- (lam_pos P c HC) in Q. eapply Rle_trans; [exact Q|].
  pose proof (quad_spec_pos P c g om D HB Hdt HR X n G1 G2 (Rlt_le _ _ G3) G4) as [A1 [A2 [A3 [A4 [A5 [A6 _]]]]]].
  assert (B : g_primal g * primal D (td c) (c_lam c) X X n <= quad_spec c g om D X n).
  { unfold quad_spec. destruct (Nat.ltb 0 n), (c_jumps c), (c_wp c); lra. }
  rewrite (tgrid_td _ _ HC) in B. set (fa := factor _ _ _ _) in *. set (pr := primal D (tgrid P) (c_lam c) X X n) in *.
  replace (fa / g_primal g * quad_spec c g om D X n) with (fa * (quad_spec c g om D X n / g_primal g)) by (field; lra).
  apply Rmult_le_compat_l; [exact Fp|]. apply (Rmult_le_reg_l (g_primal g)); [exact G3|].
  replace (g_primal g * (quad_spec c g om D X n / g_primal g)) with (quad_spec c g om D X n) by (field; lra). exact B.
Qed.

(** * C82: the delivered system *)
(** bound of C80 and what the 1e-20 products of the slab matrices add *)
Definition delivered_bound (P : params) (kp : nat) (g : gammas) (M M0 H omax l : R) : R :=
  converge_bound P kp g M M0 H omax l
  + 4 * INR (p_N P) * (128 * 1e-20 ^ 2 / (g_dual g * (p_T P / INR (p_N P))) + 1e-20 / 4) * l * (M0 + accuracy P kp M H) ^ 2.
Lemma data_gamma st g : get_gammas st = Ok g -> lookup st "data" = Ok (g_data g).
Proof.
  unfold get_gammas, rbind. destruct (lookup st "data"); [|discriminate]. destruct (lookup st "dual"); [|discriminate].
  destruct (lookup st "primal"); [|discriminate]. destruct (lookup st "primal-jump"); [|discriminate]. intro H. injection H as <-. reflexivity.
Qed.
Lemma delivered_form P E g om v x : construct P = Ok (e_c E) -> 0 < p_T P -> env_ok E -> p_jumps P = false -> get_gammas (p_stab P) = Ok g ->
  is_rhs E om v -> veq (dimF E) (st_op P E g om x) v -> exists u1v u1g u2v, forall Y,
  eval (e_D E) (del_form E g om) (field_of (e_Lf E) x) Y = leval (e_D E) (rhs_form (e_c E) om (g_data g) (g_jump g) (d_x (e_D E)) u1v u1g u2v) Y.
Proof.
  intros HC HT HE Hj Hg [gj [gd [u10 [u20 [L1 [L2' ->]]]]]] Hx. pose proof (construct_inv _ _ HC) as HB.
  rewrite (bu_stab _ _ HB) in L1, L2'. rewrite (gammas_jump _ _ Hg) in L1. rewrite (data_gamma _ _ Hg) in L2'. injection L1 as <-. injection L2' as <-.
  eexists _, _, _. intro Y. set (L := e_Lf E). set (D := e_D E). pose proof (eo_f _ HE) as HL.
  destruct (field_onto D 4 (nc_full (e_c E)) L Y HL) as [y Hy].
  rewrite (eval_ext D 4 (nc_full (e_c E)) _ (field_of L x) (field_of L x) Y (field_of L y)); [|apply (wf_del E g om HE)|apply feq_refl|exact Hy].
  rewrite (leval_ext D 4 (nc_full (e_c E)) _ Y (field_of L y)); [|apply wf_rhs, (bu_N _ _ HB)|exact Hy].
  rewrite <- (dot_assemble D 4 (nc_full (e_c E)) L) by (first [exact HL|apply (wf_del E g om HE)]).
  rewrite <- (dot_assemble_vec D 4 (nc_full (e_c E)) L) by (first [exact HL|apply wf_rhs, (bu_N _ _ HB)]).
  apply Rsum_ext_in. intros i Hi. apply in_seq in Hi. f_equal. rewrite <- (st_op_form P E g om HC HT HE Hj). apply Hx. unfold dimF. fold L. lia.
Qed.
Lemma node_unit k s : (1 <= k)%nat -> (s <= k)%nat -> 0 <= node k s <= 1.
Proof.
  intros Hk Hs. unfold node. assert (K : 0 < INR k) by (apply lt_0_INR; lia).
  split; [apply Rdiv_le_0_compat; [apply pos_INR|exact K]|]. apply (Rmult_le_reg_r (INR k)); [exact K|].
  replace (INR s / INR k * INR k) with (INR s) by (field; lra). rewrite Rmult_1_l. apply le_INR, Hs.
Qed.
Theorem C82_delivered : forall P E g om F n xs kp kd qp deg w M M0 H omax, construct P = Ok (e_c E) -> env_ok E ->
  e_D E = disc1 n xs kp kd qp -> wave_run P n xs kp kd qp deg w M M0 H om omax -> p_jumps P = false -> p_wp P = false ->
  get_gammas (p_stab P) = Ok g -> 0 <= g_data g -> 0 < g_dual g -> 0 <= g_primal g -> 0 <= g_jump g ->
  value_control P g om (e_D E) F -> 32768 * 1e-20 ^ 2 * F <= g_dual g * t_dt (tgrid P) ^ 2 ->
  forall v x, is_rhs E om v -> veq (dimF E) (st_op P E g om x) v ->
  enorm2 P g om (e_D E) (error_field P xs kp w (e_Lf E) x) <= delivered_bound P kp g M M0 H omax (xs n - xs 0%nat).
Proof.
  intros P E g om F n xs kp kd qp deg w M M0 H omax HC HE HD HR Hj Hw Hg G1 G2 G3 G4 HF Hk v x Hv Hx.
  pose proof (construct_inv _ _ HC) as HB. pose proof (run_q P _ _ _ _ _ _ _ _ _ _ _ _ _ HC HR) as Rq.
  pose proof (run_dt P _ _ _ _ _ _ _ _ _ _ _ _ _ HC HR) as Rdt. pose proof (run_wave P _ _ _ _ _ _ _ _ _ _ _ _ _ HC HR) as Rw.
  pose proof (run_measured P _ _ _ _ _ _ _ _ _ _ _ _ HR) as Rm. pose proof (run_eps P _ kp M H HC) as Re.
  pose proof (run_field P _ xs kp w HC) as Rf. pose proof (run_regular P _ _ _ _ _ _ _ _ _ _ _ _ HR) as Rr.
  pose proof (run_l P _ _ _ _ _ _ _ _ _ _ _ _ _ HC HR) as Rl.
  destruct HR as [HT HM Hkp Hd1 Hd2 Hin Hq Hdt HH HH1 HW HM0 Hom Hdat].
  pose proof (dt_pos _ _ HC HT) as Pdt. set (l := xs n - xs 0%nat) in *. set (c := e_c E) in *.
  set (U := nodal (c_q c) (c_dt c) xs kp w) in *.
  destruct (delivered_form P E g om v x HC HT HE Hj Hg Hv Hx) as [u1v [u1g [u2v HX]]].
  rewrite (tgrid_dt P c HC) in Hk.
  assert (Rr' : regular (e_D E) om) by (rewrite HD; exact Rr).
  pose proof (del_error P E g om F HC HT HE Hj Hw Rr' G1 G2 G3 G4 (control_quad P c g om (e_D E) F HC HF) Hk (field_of (e_Lf E) x) U
    (d_x (e_D E)) u1v u1g u2v (fun _ => sqrt (7 * l * eps c kp M H ^ 2 * c_dt c)) HX) as B.
  rewrite HD in *. fold c in B.
  specialize (B ltac:(intros nu Z Hnu; rewrite (bu_lam _ _ HB); apply (wave_bound P c n xs kp kd qp deg w M H omax om); assumption)).
  rewrite (enorm2_qsum P c g om _ _ HC).
  assert (EE : error_field P xs kp w (e_Lf E) x = fun (j i l : nat) => field_of (e_Lf E) x j i l - primal_only U j i l).
  { unfold error_field, primal_only. rewrite <- Rf. reflexivity. }
  rewrite EE. clear EE. eapply Rle_trans; [exact B|]. clear B.
  pose proof (rest_bound P c n xs kp kd qp deg w M M0 H omax om HC HT HM Hkp Hd1 Hd2 Hin Rq Rdt HH HH1 Rw HM0 Hom) as RB.
  fold U in RB. fold l in RB. set (D := disc1 n xs kp kd qp) in *.
  set (rest := integ D Dx WOne 1 _ _) in *.
  assert (HI : initial P n xs kp kd qp w u1v u1g u2v) by (intro Z; congruence).
  assert (RS : sumn (c_N c) (slab_residual c g om D (d_x D) u1v u1g u2v U (fun _ => sqrt (7 * l * eps c kp M H ^ 2 * c_dt c)))
     <= p_T P * rate c n xs kp M M0 H omax g).
  { apply Rle_trans with (sumn (c_N c) (fun _ => c_dt c * rate c n xs kp M M0 H omax g)).
    - apply Rsum_le. intros nu Hnu. apply in_seq in Hnu. rewrite <- (residual2_slab P c g om D (d_x D) u1v u1g u2v U _ nu HC).
      apply (residual_bound P c n xs kp kd qp deg w M M0 H omax om); try assumption. lia.
    - rewrite sum_const_n. apply Req_le. rewrite <- Rmult_assoc. f_equal. rewrite (bu_dt _ _ HB), (bu_NP _ _ HB). field.
      apply not_0_INR. pose proof (bu_N _ _ HB). rewrite <- (bu_NP _ _ HB). lia. }
  set (res := sumn (c_N c) (slab_residual _ _ _ _ _ _ _ _ _ _)) in *. clearbody res.
  assert (Rp : 0 < reg) by apply reg_pos. assert (Gd : 0 < g_dual g * c_dt c) by (apply Rmult_lt_0_compat; assumption).
  set (ac := accuracy P kp M H) in *. rewrite Re in *.
  assert (VU : forall i, (i < c_N c * S (c_q c))%nat -> L2 D Vp Vp (U 0%nat i) (U 0%nat i) <= (M0 + ac) ^ 2 * l).
  { intros i Hi. set (nu := (i / S (c_q c))%nat). set (s := (i mod S (c_q c))%nat).
    assert (Ei : i = (nu * S (c_q c) + s)%nat) by (unfold nu, s; rewrite Nat.mul_comm; apply Nat.div_mod; lia).
    assert (Hs : (s <= c_q c)%nat) by (unfold s; pose proof (Nat.mod_upper_bound i (S (c_q c)) ltac:(lia)); lia).
    assert (Hnu : (nu < c_N c)%nat) by (unfold nu; apply Nat.div_lt_upper_bound; lia).
    set (tt' := INR nu * c_dt c + c_dt c * node (c_q c) s).
    assert (Nd : 0 <= node (c_q c) s <= 1) by (apply node_unit; [exact Rq|exact Hs]).
    assert (Tt : in_slab c nu tt').
    { unfold in_slab, tt'.
      assert (0 <= c_dt c * node (c_q c) s <= c_dt c * 1) by (split; [apply Rmult_le_pos; lra|apply Rmult_le_compat_l; lra]). lra. }
    change (L2 D Vp Vp (U 0%nat i) (U 0%nat i)) with (integ D Dx WOne 1 (fev D Dx Vp Val (U 0%nat i)) (fev D Dx Vp Val (U 0%nat i))).
    apply (integ_le P c n xs kp kd qp deg omax om); try assumption. intros p Hp. cbn [wval]. rewrite Rmult_1_l. apply sq_le. rewrite <- Re.
    rewrite (fev_ext D Dx Vp Val _ (Ut c xs kp w 0 0 nu tt')).
    - apply (value_le P c n xs kp kd qp deg w M M0 H); assumption.
    - intros r _. rewrite Ei. rewrite (U_node P c xs kp kd deg w) by assumption. fold tt'.
      unfold Ut. symmetry.
      pose proof (dinterp_node (c_q c) (INR nu * c_dt c) (c_dt c) (fun s => w 0%nat 0%nat (INR nu * c_dt c + c_dt c * node (c_q c) s) (dof_x xs kp r)) s Rq ltac:(lra) Hs) as En.
      cbv beta in En. exact En. }
  assert (LS : sumn (c_N c) (leftover E g U) <= INR (p_N P) * ((128 * reg ^ 2 / (g_dual g * c_dt c) + reg / 4) * ((M0 + ac) ^ 2 * l))).
  { rewrite <- (bu_NP _ _ HB), <- sum_const_n. apply Rsum_le. intros nu Hnu. apply in_seq in Hnu. unfold leftover. fold c. rewrite HD. fold D.
    assert (K0 : 0 <= 128 * reg ^ 2 / (g_dual g * c_dt c)) by (apply Rlt_le, Rdiv_lt_0_compat; [pose proof (pow_lt _ 2 Rp); lra|exact Gd]).
    assert (S0 : 0 <= (M0 + ac) ^ 2 * l) by (apply Rmult_le_pos; [apply pow2_ge_0|lra]).
    destruct (Nat.ltb_spec 0 nu) as [Hp|Hp]; [|apply Rmult_le_pos; lra].
    pose proof (VU (nu * S (c_q c))%nat ltac:(nia)) as V1. pose proof (VU (nu * S (c_q c) - 1)%nat ltac:(nia)) as V2.
    rewrite Rmult_plus_distr_r. apply Rplus_le_compat; apply Rmult_le_compat_l; lra. }
  set (lf := sumn (c_N c) (leftover E g U)) in *. clearbody lf.
  unfold delivered_bound, converge_bound. fold ac. change 1e-20 with reg. replace (p_T P / INR (p_N P)) with (c_dt c) by apply (bu_dt _ _ HB).
  unfold rate in RS. rewrite Re in RS. fold l in RS. set (A := ac ^ 2 * _ + _) in *. clearbody A.
  set (k := 128 * reg ^ 2 / (g_dual g * c_dt c)) in *.
  assert (K0 : 0 <= k) by (apply Rlt_le, Rdiv_lt_0_compat; [pose proof (pow_lt _ 2 Rp); lra|exact Gd]).
  pose proof (Rmult_le_compat_l _ _ _ K0 RB) as RB'.
  replace (4 * p_T P * l * A) with (4 * (p_T P * (l * A))) by ring.
  replace (k * (1 + M0 + ac) ^ 2 * l) with (k * ((1 + M0 + ac) ^ 2 * l)) by ring.
  replace (4 * INR (p_N P) * (k + reg / 4) * l * (M0 + ac) ^ 2) with (4 * (INR (p_N P) * ((k + reg / 4) * ((M0 + ac) ^ 2 * l)))) by ring.
  lra.
Qed.

(** * C82: the reported errors *)
Section Samples.
  Variables (P : params) (c : config).
  Hypothesis HC : construct P = Ok c.
  Let HB := construct_inv _ _ HC.
  Notation d := (td c).
  Lemma recon_minus (X Y : field) nu t r : recon d (fun j i r => X j i r - Y j i r) nu t r = recon d X nu t r - recon d Y nu t r.
  Proof.
    unfold recon, jumpv, vsub, upper, lower. rewrite !at_time_minus. destruct (Nat.ltb 0 nu); ring.
  Qed.
  Lemma drecon_minus (X Y : field) nu t r : ddt (recon d (fun j i r => X j i r - Y j i r) nu) t r = ddt (recon d X nu) t r - ddt (recon d Y nu) t r.
  Proof.
    unfold ddt at 1. rewrite (Derive_ext _ (fun s => recon d X nu s r - recon d Y nu s r)) by (intro; apply recon_minus).
    apply Derive_minus; [exists (ddt (recon d X nu) t r); exact (rec_derive P c X HB nu t r)|exists (ddt (recon d Y nu) t r); exact (rec_derive P c Y HB nu t r)].
  Qed.
  (** only the first component matters *)
  Lemma at_ext0 (X Y : field) nu t r : (forall i r, X 0%nat i r = Y 0%nat i r) -> at_time d X 0 nu t r = at_time d Y 0 nu t r.
  Proof. intro H. unfold at_time. apply Rsum_ext; intro i. rewrite H. reflexivity. Qed.
  Lemma recon_ext0 (X Y : field) nu t r : (forall i r, X 0%nat i r = Y 0%nat i r) -> recon d X nu t r = recon d Y nu t r.
  Proof. intro H. unfold recon, jumpv, vsub, upper, lower. rewrite !(at_ext0 X Y) by exact H. reflexivity. Qed.
End Samples.

(** f is within distance of e in L2, v' within eps at the points *)
Lemma near D f v b ep l : nonneg_dx D -> 0 <= b -> 0 <= ep -> Rsum (d_pts D Dx) (fun p => d_w D Dx p) = l -> 0 <= l ->
  dist2 D f <= b -> (forall p, In p (d_pts D Dx) -> Rabs (v p) <= ep) -> sqrt (dist2 D (fun p => f p - v p)) <= sqrt b + sqrt l * ep.
Proof.
  intros Hn B0 E0 Hl L0 Hb Hv. pose proof (dist2_triangle D f v Hn) as T. apply Rabs_le_between in T.
  pose proof (sqrt_le_1_alt _ _ Hb) as S1.
  assert (S2 : sqrt (dist2 D v) <= sqrt l * ep).
  { rewrite <- (sqrt_Rsqr ep E0), <- sqrt_mult by (try apply Rle_0_sqr; lra). apply sqrt_le_1_alt. unfold dist2. rewrite <- Hl, Rmult_comm, <- Rsum_scal.
    apply Rsum_le. intros p Hp. rewrite Rmult_comm. apply Rmult_le_compat_r; [apply Hn, Hp|]. unfold Rsqr. specialize (Hv p Hp).
    rewrite <- (pow2_abs (v p)). pose proof (Rabs_pos (v p)). nra. }
  lra.
Qed.

Theorem C82_reported : forall P E g om F n xs kp kd qp deg w M M0 H omax, construct P = Ok (e_c E) -> env_ok E ->
  e_D E = disc1 n xs kp kd qp -> wave_run P n xs kp kd qp deg w M M0 H om omax -> p_jumps P = false -> p_wp P = false ->
  get_gammas (p_stab P) = Ok g -> 0 <= g_data g -> 0 < g_dual g -> 0 <= g_primal g -> 0 <= g_jump g ->
  value_control P g om (e_D E) F -> 32768 * 1e-20 ^ 2 * F <= g_dual g * t_dt (tgrid P) ^ 2 ->
  (forall t p, 0 <= t <= p_T P -> In p (d_pts (e_D E) Dx) -> p_v P t (d_x (e_D E) p) = w 0%nat 0%nat t (nth 0 (d_x (e_D E) p) 0)) ->
  (forall t p, 0 <= t <= p_T P -> In p (d_pts (e_D E) Dx) -> p_dv P t (d_x (e_D E) p) = w 1%nat 0%nat t (nth 0 (d_x (e_D E) p) 0)) ->
  forall v x u s r s', is_rhs E om v -> veq (dimF E) (st_op P E g om x) v -> s_heap s u = x -> s_fes s = true ->
  measured_errors E u s = (Ok r, s') ->
  let dt := t_dt (tgrid P) in let B := delivered_bound P kp g M M0 H omax (xs n - xs 0%nat) in let a := sqrt (xs n - xs 0%nat) * accuracy P kp M H in
  er_T r <= sqrt (144 / dt * (F * B)) + a /\ er_inf r <= sqrt (144 / dt * (F * B)) + a /\ er_dinf r <= sqrt (9504 / dt ^ 3 * (F * B)) + a.
Proof.
  intros P E g om F n xs kp kd qp deg w M M0 H omax HC HE HD HR Hj Hw Hg G1 G2 G3 G4 HF Hk Hv0 Hv1 v x u s r s' Hv Hx Hu Hf Hm dt B a.
  pose proof (C82_delivered P E g om F n xs kp kd qp deg w M M0 H omax HC HE HD HR Hj Hw Hg G1 G2 G3 G4 HF Hk v x Hv Hx) as EN. fold B in EN.
  pose proof (construct_inv _ _ HC) as HB. pose proof (run_q P _ _ _ _ _ _ _ _ _ _ _ _ _ HC HR) as Rq.
  pose proof (run_dt P _ _ _ _ _ _ _ _ _ _ _ _ _ HC HR) as Rdt. pose proof (run_wave P _ _ _ _ _ _ _ _ _ _ _ _ _ HC HR) as Rw.
  pose proof (run_eps P _ kp M H HC) as Re. pose proof (run_field P _ xs kp w HC) as Rf.
  pose proof (run_regular P _ _ _ _ _ _ _ _ _ _ _ _ HR) as Rr. pose proof (run_l P _ _ _ _ _ _ _ _ _ _ _ _ _ HC HR) as Rl.
  destruct HR as [HT HM Hkp Hd1 Hd2 Hin Hq Hdt HH HH1 HW HM0 Hom Hdat].
  pose proof (dt_pos _ _ HC HT) as Pdt. set (l := xs n - xs 0%nat) in *. set (c := e_c E) in *.
  set (U := nodal (c_q c) (c_dt c) xs kp w) in *. set (X := field_of (e_Lf E) x) in *.
  assert (Rr' : regular (e_D E) om) by (rewrite HD; exact Rr).
  assert (Hnn : nonneg_dx (e_D E)) by (intros p Hp; exact (rg_w _ _ Rr' Dx p Hp)).
  set (Er := error_field P xs kp w (e_Lf E) x) in *.
  assert (Ed : dt = c_dt c) by apply (tgrid_dt P c HC).
  rewrite (enorm2_qsum P c g om _ _ HC) in EN.
  assert (E0 : forall i r, Er 0%nat i r = (fun j i r => X j i r - U j i r) 0%nat i r).
  { intros i r0. unfold Er, error_field. fold X. rewrite <- Rf. reflexivity. }
  assert (FB : forall nu, (nu < c_N c)%nat -> 0 <= F * B).
  { intros nu Hnu. apply Rmult_le_pos; [apply HF|]. eapply Rle_trans; [|exact EN]. unfold qsum. apply Rsum_nonneg. intros i _.
    apply (quad_nn P E g om HC HT Rr' G1 G2 G3 G4). }
  assert (NU : (0 < c_N c)%nat) by (pose proof (bu_N _ _ HB); lia). specialize (FB 0%nat NU).
  assert (Fp : 0 <= F) by apply HF.
  assert (L0 : Rsum (d_pts (e_D E) Dx) (fun p => d_w (e_D E) Dx p) = l).
  { rewrite HD. apply (sum_w P c n xs kp kd qp deg); assumption. }
  assert (Ep : 0 <= accuracy P kp M H) by (rewrite <- Re; eapply eps_pos; eassumption).
  assert (RU : forall nu t q, recon (td c) U nu t q = Ut c xs kp w 0 0 nu t q).
  { intros nu t q. unfold recon. rewrite (at_U P c xs kp kd deg w) by (try assumption; lia).
    destruct (Nat.ltb_spec 0 nu) as [Hp|Hp]; [|ring]. unfold jumpv, vsub.
    unfold U. rewrite (upper_U P c xs kp kd deg w), (lower_U P c xs kp kd deg w) by (try assumption; lia). ring. }
  assert (DU : forall nu t q, ddt (recon (td c) U nu) t q = Ut c xs kp w 1 0 nu t q).
  { intros nu t q. unfold ddt. rewrite (Derive_ext _ (fun s => at_time (td c) U 0 nu s q)).
    - apply (ddt_U P c xs kp kd deg w); try assumption; lia.
    - intro t'. rewrite RU. symmetry. apply (at_U P c xs kp kd deg w); try assumption; lia. }
  assert (near_i : forall i nu t p, (i <= 1)%nat -> (nu < c_N c)%nat -> within (td c) nu t -> In p (d_pts (e_D E) Dx) ->
    Rabs (fev (e_D E) Dx Vp Val (Ut c xs kp w i 0 nu t) p 0 - w i 0%nat t (nth 0 (d_x (e_D E) p) 0)) <= accuracy P kp M H).
  { intros i nu t p Hi Hnu Ht Hp. rewrite HD in *. rewrite (fev_fed P c n xs kp kd qp deg) by assumption. rewrite <- Re.
    pose proof (pt_e P c n xs kp kd qp deg) as Pe. pose proof (pt_x P c n xs kp kd qp deg) as Px.
    apply (U_eps P c n xs kp kd qp deg w M H HC HT HM Hkp Hd1 Hd2 Rq Rdt HH HH1 Rw i 0 0 nu); try lia; try assumption.
    - apply Pe; assumption.
    - apply Px; assumption. }
  assert (Tin : forall nu t, (nu < c_N c)%nat -> within (td c) nu t -> 0 <= t <= p_T P).
  { intros nu t Hnu Ht. apply (slab_T P c kp kd deg HC HT Hkp Hd1 Hd2 Rq nu); assumption. }
  assert (V0 : forall nu t, (nu < p_N P)%nat -> within (tgrid P) nu t -> e_at P E u s nu t <= sqrt (144 / dt * (F * B)) + a).
  { intros nu t Hnu Ht. rewrite <- (bu_NP _ _ HB) in Hnu. rewrite <- (tgrid_td _ _ HC) in Ht. unfold e_at, err2. rewrite Hu. fold X. rewrite <- (tgrid_td _ _ HC).
    pose proof (recon_Q P E g om F HC HT Rr' G1 G2 G3 G4 Fp (control_quad P c g om (e_D E) F HC HF) Er nu t Hnu Ht) as Q. fold c in Q.
    rewrite Ed. set (f := fun p => fev (e_D E) Dx Vp Val (recon (td c) Er nu t) p 0) in *.
    assert (Q' : dist2 (e_D E) f <= 144 / c_dt c * (F * B)).
    { eapply Rle_trans; [exact Q|]. apply Rmult_le_compat_l; [apply Rlt_le, Rdiv_lt_0_compat; lra|]. apply Rmult_le_compat_l; [exact Fp|exact EN]. }
    eapply Rle_trans; [|apply (near (e_D E) f (fun p => p_v P t (d_x (e_D E) p) - fev (e_D E) Dx Vp Val (Ut c xs kp w 0 0 nu t) p 0)
      (144 / c_dt c * (F * B)) (accuracy P kp M H) l Hnn); try assumption; try lra].
    - apply sqrt_le_1_alt, Req_le. apply Rsum_ext; intro p. f_equal. f_equal. unfold f.
      rewrite (fev_ext (e_D E) Dx Vp Val (recon (td c) Er nu t) (fun q => recon (td c) X nu t q - Ut c xs kp w 0 0 nu t q)).
      + rewrite fev_minus. ring.
      + intros q _. rewrite (recon_ext0 c Er _ nu t q E0), recon_minus, RU. reflexivity.
    - apply Rmult_le_pos; [apply Rlt_le, Rdiv_lt_0_compat; lra|exact FB].
    - intros p Hp. rewrite Hv0 by (try assumption; apply (Tin nu); assumption). rewrite Rabs_minus_sym. apply near_i; try assumption; lia. }
  assert (V1 : forall nu t, (nu < p_N P)%nat -> within (tgrid P) nu t -> de_at P E u s nu t <= sqrt (9504 / dt ^ 3 * (F * B)) + a).
  { intros nu t Hnu Ht. rewrite <- (bu_NP _ _ HB) in Hnu. rewrite <- (tgrid_td _ _ HC) in Ht. unfold de_at, derr2. rewrite Hu. fold X. rewrite <- (tgrid_td _ _ HC).
    pose proof (drecon_Q P E g om F HC HT Rr' G1 G2 G3 G4 Fp (control_quad P c g om (e_D E) F HC HF) Er nu t Hnu Ht) as Q. fold c in Q.
    assert (P3 : 0 <= 9504 / c_dt c ^ 3) by (apply Rlt_le, Rdiv_lt_0_compat; [lra|apply pow_lt, Pdt]).
    rewrite Ed. set (f := fun p => fev (e_D E) Dx Vp Val (ddt (recon (td c) Er nu) t) p 0) in *.
    assert (Q' : dist2 (e_D E) f <= 9504 / c_dt c ^ 3 * (F * B)).
    { eapply Rle_trans; [exact Q|]. apply Rmult_le_compat_l; [exact P3|]. apply Rmult_le_compat_l; [exact Fp|exact EN]. }
    eapply Rle_trans; [|apply (near (e_D E) f (fun p => p_dv P t (d_x (e_D E) p) - fev (e_D E) Dx Vp Val (Ut c xs kp w 1 0 nu t) p 0)
      (9504 / c_dt c ^ 3 * (F * B)) (accuracy P kp M H) l Hnn); try assumption; try lra].
    - apply sqrt_le_1_alt, Req_le. apply Rsum_ext; intro p. f_equal. f_equal. unfold f.
      rewrite (fev_ext (e_D E) Dx Vp Val (ddt (recon (td c) Er nu) t) (fun q => ddt (recon (td c) X nu) t q - Ut c xs kp w 1 0 nu t q)).
      + rewrite fev_minus. ring.
      + intros q _. rewrite <- DU, <- (drecon_minus P c HC X U). unfold ddt. apply Derive_ext. intro t'. apply recon_ext0, E0.
    - apply Rmult_le_pos; [exact P3|exact FB].
    - intros p Hp. rewrite Hv1 by (try assumption; apply (Tin nu); assumption). rewrite Rabs_minus_sym. apply near_i; try assumption; lia. }
  destruct (C45_maximum P E u s r s' HC HE HT Hnn Hf Hm) as [[e [A1 [A2 [[i0 [Hi0 A3]] [A4 A5]]]]] [_ [nd [id [Hnd [Hid [Hwd A6]]]]]]].
  assert (I : er_inf r <= sqrt (144 / dt * (F * B)) + a).
  { rewrite <- A3. destruct (some_slab P E HB HT (sample P i0) (sample_in P HT i0 Hi0)) as [nu [Hnu Hwt]].
    fold c in Hnu, Hwt. rewrite (bu_NP _ _ HB) in Hnu. rewrite (tgrid_td _ _ HC) in Hwt. rewrite <- (A1 nu _ Hnu Hwt). apply V0; assumption. }
  split; [lra|]. split; [exact I|]. rewrite <- A6. apply V1; assumption.
Qed.

(** * solve_1d.py *)
(** The system handed to GMRES has one solution for each right-hand side. *)
Lemma one_solution P E g om ka : construct P = Ok (e_c E) -> 0 < p_T P -> env_ok E -> p_jumps P = false ->
  regular (e_D E) om -> definite (e_D E) Vp -> definite (e_D E) Vd -> 0 <= g_data g -> 0 < g_dual g -> 0 < g_primal g -> 0 <= g_jump g ->
  controls_start P (e_D E) (energy_first P g om (e_D E)) ka -> 4 * 1e-20 ^ 2 < ka * g_dual g ->
  forall v, exists x, veq (dimF E) (st_op P E g om x) v /\ forall x', veq (dimF E) (st_op P E g om x') v -> veq (dimF E) x' x.
Proof.
  intros H1 H2 H3 H4 HR Dp Dd G1 G2 G3 G4 Hct Hk v.
  assert (US : uniquely_solvable (lay_dim (e_Lf E)) (assemble (e_D E) (e_Lf E) (del_form E g om))).
  { apply injective_unique. intros x Hx i Hi. refine (st_op_inj P E g om H1 H2 H3 H4 ka HR Dp Dd G1 G2 G3 G4 Hct Hk x _ i Hi).
    intros I HI. rewrite (st_op_form P E g om H1 H2 H3 H4). apply Hx, HI. }
  destruct (US v) as [x [X1 X2]]. exists x. split.
  - intros I HI. rewrite (st_op_form P E g om H1 H2 H3 H4). apply X1, HI.
  - intros x' Hx' i Hi. apply X2; [|exact Hi]. intros I HI. rewrite <- (Hx' I HI). symmetry. apply (st_op_form P E g om H1 H2 H3 H4).
Qed.
Lemma big_slabs N : (Z.of_nat N <= 1000000000)%Z -> INR N <= 1000000000.
Proof. intro H. rewrite INR_IZR_INZ. apply IZR_le, H. Qed.
Lemma slabs_big o N : (Z.of_nat N <= slabs_1d o)%Z -> (Z.of_nat N <= 1000000000)%Z.
Proof. unfold slabs_1d. destruct (Nat.eqb o 1); lia. Qed.
Lemma delivered_1d o N : (1 <= o <= 3)%nat -> (1 <= N)%nat -> (Z.of_nat N <= 1000000000)%Z ->
  delivered_bound (st_params (setting_1d o N)) o gamma_shipped ((2 * PI) ^ (o + 2 + (o + 1))) 1 (/ INR (5 * N)) 1 1
  <= 320031 * rate_1d o N ^ 2 + 17 / 1000000.
Proof.
  intros Ho HN Hb. pose proof (accuracy_1d o N Ho HN) as [A0 A1]. unfold delivered_bound, converge_bound. cbn [gamma_shipped g_data g_dual g_primal].
  change (p_T (st_params (setting_1d o N))) with 1. change (p_N (st_params (setting_1d o N))) with N.
  set (a := accuracy _ _ _ _) in *. clearbody a. set (r := rate_1d o N) in *. clearbody r.
  assert (N1 : 1 <= INR N) by (apply (le_INR 1), HN). pose proof (big_slabs N Hb) as NB.
  replace (128 * 1e-20 ^ 2 / (1 * (1 / INR N))) with (128 * 1e-20 ^ 2 * INR N) by (field; lra). set (y := INR N) in *. clearbody y.
  assert (A2 : a ^ 2 <= r ^ 2) by (apply pow_incr; lra). pose proof (pow2_ge_0 a) as A3.
  assert (S1 : (1 + a) ^ 2 <= 2 * (1 + a ^ 2)) by (pose proof (pow2_ge_0 (1 - a)); nra).
  assert (S2 : (1 + 1 + a) ^ 2 <= 2 * (4 + a ^ 2)) by (pose proof (pow2_ge_0 (2 - a)); nra).
  assert (R0 : 0 <= 1e-20 ^ 2 <= / 100000000000000000000000000000000000) by (decimals; lra).
  assert (R1 : 0 <= 1e-20 <= / 100000000000000000000) by (decimals; lra). set (z := 1e-20 ^ 2) in *. set (ep := 1e-20) in *. clearbody z ep.
  assert (Z1 : 0 <= 128 * z * y <= 128 * / 100000000000000000000000000000000000 * 1000000000).
  { split; [apply Rmult_le_pos; lra|]. apply Rmult_le_compat; lra. }
  assert (Q : 128 * z * y * (1 + 1 + a) ^ 2 <= / 100000000 * (2 * (4 + a ^ 2))).
  { apply Rmult_le_compat; [lra|apply pow2_ge_0|lra|exact S2]. }
  assert (Q2 : 4 * y * (128 * z * y + ep / 4) * 1 * (1 + a) ^ 2 <= / 10000 / 1000 * (2 * (1 + a ^ 2))).
  { apply Rmult_le_compat; [|apply pow2_ge_0| |exact S1].
    - rewrite Rmult_1_r. apply Rmult_le_pos; lra.
    - rewrite Rmult_1_r. apply Rle_trans with (4 * 1000000000 * (128 * / 100000000000000000000000000000000000 * 1000000000 + / 100000000000000000000 / 4)); [apply Rmult_le_compat; lra|lra]. }
  decimals. lra.
Qed.
Lemma driver_unfitted o N E ind heap next : (1 <= o <= 3)%nat -> (1 <= N)%nat -> construct (st_params (setting_1d o N)) = Ok (e_c E) ->
  exists s1 b, driver_setup E (init_state false ind heap next) = (Ok (Some b), s1) /\ is_rhs E ind (s_heap s1 b).
Proof.
  intros Ho HN Hc. destruct (shipped_good Driver1D _ (shipped_1d o N Ho HN)) as [c [Hc' HG]]. rewrite Hc in Hc'. injection Hc' as Ec.
  destruct (driver_ready _ E gamma_shipped (HG E Ec) ltac:(cbn; lra) false ind heap next) as [s1 [b [H1 [H2 [_ [_ [_ H3]]]]]]].
  exists s1, b. split; [exact H1|]. rewrite H2 in *. pose proof (C64_rhs E false ind heap next [Setup_fes; Prepare] b) as Q. cbv zeta in Q.
  apply Q; [|exact H3]. intros k [<-|[<-|[]]]; reflexivity.
Qed.
Lemma unit_length N : (1 <= N)%nat -> unit_vertex (5 * N) (5 * N) - unit_vertex (5 * N) 0 = 1.
Proof.
  intro HN. assert (N1 : 1 <= INR N) by (apply (le_INR 1), HN). assert (E5 : INR (5 * N) = 5 * INR N) by (rewrite mult_INR; cbn [INR]; ring).
  unfold unit_vertex. cbn [INR]. rewrite E5. field. lra.
Qed.
Lemma dt_1d o N : t_dt (tgrid (st_params (setting_1d o N))) = / INR N.
Proof. unfold tgrid. cbn [t_dt p_T p_N setting_1d st_params driver_params]. unfold Rdiv. ring. Qed.
Lemma gamma_1d o N : get_gammas (p_stab (st_params (setting_1d o N))) = Ok gamma_shipped.
Proof. destruct stabs_gammas as [g [Hg ->]]. exact Hg. Qed.

(** Any indicator between 0 and 1 (unfitted data domain): energy of the error, and error in
    the data domain, of the solution of the system handed to GMRES. *)
Theorem C82_driver_energy : forall o N qp E, (1 <= o <= 3)%nat -> (1 <= N)%nat -> (Z.of_nat N <= slabs_1d o)%Z -> rule_ok o qp -> inner_rule qp ->
  let P := st_params (setting_1d o N) in construct P = Ok (e_c E) -> env_ok E -> e_D E = disc_1d o N qp ->
  forall ind heap next, (forall p, 0 <= ind p <= 1) -> exists s1 b, driver_setup E (init_state false ind heap next) = (Ok (Some b), s1) /\
  forall x, veq (dimF E) (st_op P E gamma_shipped ind x) (s_heap s1 b) ->
  enorm2 P gamma_shipped ind (e_D E) (error_field P (unit_vertex (5 * N)) o wave_1d (e_Lf E) x) <= 320031 * rate_1d o N ^ 2 + 17 / 1000000
  /\ data_error2 P ind (e_D E) (fun t y => sample_sol_1d t [y]) (field_of (e_Lf E) x) <= 67 * rate_1d o N ^ 2 + 4 / 1000000000.
Proof.
  intros o N qp E Ho HN Hb Hr Hi P Hc HE HD ind heap next Hind.
  destruct (driver_unfitted o N E ind heap next Ho HN Hc) as [s1 [b [D1 D2]]]. exists s1, b. split; [exact D1|]. intros x Hx.
  pose proof (run_1d o N qp ind Ho HN Hr Hi Hind) as HR. fold P in HR.
  destruct (setting_1d_elliptic o N qp ind E Ho HN Hb Hr (fun p => proj1 (Hind p)) Hc HE HD) as [[_ HT _ _ _ Rr K0 HK Hh _ _ _ _ _] _].
  fold P in HT, HK.
  pose proof (C82_control_elliptic P (e_c E) gamma_shipped ind (e_D E) _ _ Hc HT Rr K0 HK Hh ltac:(cbn; lra) ltac:(cbn; lra) ltac:(cbn; lra) ltac:(cbn; lra)) as VC.
  assert (N1 : 1 <= INR N) by (apply (le_INR 1), HN).
  assert (E5 : INR (5 * N) = 5 * INR N) by (rewrite mult_INR; cbn [INR]; ring).
  assert (Edt : t_dt (tgrid P) = / INR N) by apply dt_1d.
  assert (F : factor (Z.to_nat (p_q P)) (t_dt (tgrid P)) (27 * INR (5 * N) ^ 2) (/ INR (5 * N)) = 16605 * INR N ^ 2 * (if Nat.leb o 1 then 1 else 1 + 2624400 * INR N ^ 4)).
  { change (p_q P) with (Z.of_nat o). rewrite Nat2Z.id, Edt, E5. unfold factor. destruct (Nat.leb o 1); field; lra. }
  assert (R2 : 1e-20 ^ 2 = / 10 ^ 40) by (decimals; field).
  assert (Hk : 32768 * 1e-20 ^ 2 * (factor (Z.to_nat (p_q P)) (t_dt (tgrid P)) (27 * INR (5 * N) ^ 2) (/ INR (5 * N)) / g_primal gamma_shipped)
     <= g_dual gamma_shipped * t_dt (tgrid P) ^ 2).
  { rewrite F, Edt. cbn [g_primal g_dual gamma_shipped]. pose proof (bigN N _ Hb) as Hbig. set (y := INR N) in *. clearbody y. unfold slabs_1d in Hbig.
    replace (1 * (/ y) ^ 2) with (/ y ^ 2) by (field; lra). assert (X2 : 0 < y ^ 2) by (apply pow_lt; lra).
    apply (Rmult_le_reg_r (y ^ 2)); [lra|]. rewrite Rinv_l by lra. rewrite R2. destruct (Nat.eqb_spec o 1) as [->|Hne].
    * change (Nat.leb 1 1) with true. cbv iota. assert (X4 : 0 < y ^ 4 <= 1000000 ^ 4) by (split; [apply pow_lt; lra|apply pow_incr; lra]).
      match goal with |- ?a <= 1 => replace a with (32768 * / 10 ^ 40 * 16605 * 1000 * y ^ 4) by field end. lra.
    * assert (Nat.leb o 1 = false) as -> by (apply Nat.leb_gt; lia).
      assert (X4 : 0 < y ^ 4 <= 512 ^ 4) by (split; [apply pow_lt; lra|apply pow_incr; lra]).
      assert (X8 : 0 < y ^ 8 <= 512 ^ 8) by (split; [apply pow_lt; lra|apply pow_incr; lra]).
      match goal with |- ?a <= 1 => replace a with (32768 * / 10 ^ 40 * 16605 * 1000 * (y ^ 4 + 2624400 * y ^ 8)) by field end. lra. }
  pose proof (C82_delivered P E gamma_shipped ind _ _ _ _ _ _ _ _ _ _ _ _ Hc HE HD HR eq_refl eq_refl (gamma_1d o N) ltac:(cbn; lra) ltac:(cbn; lra) ltac:(cbn; lra) ltac:(cbn; lra) VC Hk _ x D2 Hx) as C.
  rewrite (unit_length N HN) in C. pose proof (delivered_1d o N Ho HN (slabs_big o N Hb)) as B. fold P in B.
  assert (C1 : enorm2 P gamma_shipped ind (e_D E) (error_field P (unit_vertex (5 * N)) o wave_1d (e_Lf E) x) <= 320031 * rate_1d o N ^ 2 + 17 / 1000000).
  { eapply Rle_trans; [exact C|exact B]. }
  split; [exact C1|].
  pose proof (accuracy_1d o N Ho HN) as [A0 A1]. fold P in A0, A1.
  pose proof (data_from_energy P (e_c E) gamma_shipped ind _ _ _ _ _ _ (e_Lf E) _ _ _ _ _ Hc HR ltac:(cbn; lra) ltac:(cbn; lra) ltac:(cbn; lra) ltac:(cbn; lra) x) as Q.
  cbv zeta in Q. rewrite (unit_length N HN) in Q. fold (disc_1d o N qp) in Q. rewrite <- HD in Q.
  replace (data_error2 P ind (e_D E) (fun t y => sample_sol_1d t [y]) (field_of (e_Lf E) x)) with (data_error2 P ind (e_D E) (wave_1d 0 0) (field_of (e_Lf E) x)).
  2: { unfold data_error2. apply Rsum_ext; intro nu. apply over_slab_ext. intro t. apply Rsum_ext; intro p. rewrite wave_1d_sol. reflexivity. }
  eapply Rle_trans; [exact Q|]. set (e2 := enorm2 _ _ _ _ _) in *. change (p_T P) with 1. cbn [gamma_shipped g_data].
  assert (A2 : accuracy P o ((2 * PI) ^ (o + 2 + (o + 1))) (/ INR (5 * N)) ^ 2 <= rate_1d o N ^ 2) by (apply pow_incr; lra).
  pose proof (pow2_ge_0 (rate_1d o N)). set (a := accuracy _ _ _ _ ^ 2) in *. clearbody a e2. lra.
Qed.

(** Measurements on the whole interval: the numbers that the driver reports.  N slabs,
    degree o: of order N ^ (1/2 - o) and, for the time derivative, N ^ (3/2 - o), down to the
    accuracy of the rule in time. *)
Theorem C82_driver_reported : forall o N qp E, (1 <= o <= 3)%nat -> (1 <= N)%nat -> (Z.of_nat N <= 1000000000)%Z -> rule_ok o qp -> inner_rule qp ->
  let P := st_params (setting_1d o N) in construct P = Ok (e_c E) -> env_ok E -> e_D E = disc_1d o N qp ->
  forall heap next, let ind := fun _ : nat => 1 in exists s1 b, driver_setup E (init_state false ind heap next) = (Ok (Some b), s1) /\
  (exists x, veq (dimF E) (st_op P E gamma_shipped ind x) (s_heap s1 b) /\
     forall x', veq (dimF E) (st_op P E gamma_shipped ind x') (s_heap s1 b) -> veq (dimF E) x' x) /\
  forall x u s r s', veq (dimF E) (st_op P E gamma_shipped ind x) (s_heap s1 b) -> s_heap s u = x -> s_fes s = true -> measured_errors E u s = (Ok r, s') ->
  er_T r <= sqrt (INR N) * (69 * rate_1d o N + 5 / 10000) /\
  er_inf r <= sqrt (INR N) * (69 * rate_1d o N + 5 / 10000) /\
  er_dinf r <= INR N * sqrt (INR N) * (553 * rate_1d o N + 41 / 10000).
Proof.
  intros o N qp E Ho HN Hb Hr Hi P Hc HE HD heap next ind.
  destruct (driver_unfitted o N E ind heap next Ho HN Hc) as [s1 [b [D1 D2]]]. exists s1, b. split; [exact D1|].
  assert (Hind : forall p, 0 <= ind p <= 1) by (intro p; unfold ind; lra).
  pose proof (run_1d o N qp ind Ho HN Hr Hi Hind) as HR. fold P in HR. pose proof (mesh_1d o N qp ltac:(lia) HN Hr) as HM.
  assert (Rr : regular (e_D E) ind) by (rewrite HD; exact (C75_regular _ _ _ _ _ _ ind HM (fun p => proj1 (Hind p)))).
  assert (HT : 0 < p_T P) by (cbn; lra).
  assert (N1 : 1 <= INR N) by (apply (le_INR 1), HN). pose proof (big_slabs N Hb) as NB.
  assert (Edt : t_dt (tgrid P) = / INR N) by apply dt_1d.
  assert (R2 : 0 <= 1e-20 ^ 2 <= / 100000000000000000000000000000000000) by (decimals; lra).
  assert (DT : / 1000000000 <= / INR N) by (apply Rinv_le_contravar; lra).
  assert (DT2 : / 1000000000 / 1000000000 <= (/ INR N) ^ 2).
  { replace (/ 1000000000 / 1000000000) with ((/ 1000000000) ^ 2) by field. apply pow_incr. lra. }
  split.
  - apply (one_solution P E gamma_shipped ind (g_data gamma_shipped * 1 * t_dt (tgrid P) ^ 2 / 16) Hc HT HE eq_refl Rr); try (cbn [gamma_shipped g_data g_dual g_primal g_jump]; lra).
    + rewrite HD; apply (C75_definite _ _ _ _ _ _ Vp HM); cbn [dg]; lia.
    + rewrite HD; apply (C75_definite _ _ _ _ _ _ Vd HM); cbn [dg]; lia.
    + apply (C72_full_data P (e_c E) gamma_shipped ind (e_D E) 1); try assumption; try (cbn [gamma_shipped g_data g_primal]; lra).
      * rewrite HD; apply (C75_definite _ _ _ _ _ _ Vp HM); cbn [dg]; lia.
      * intros p _. unfold ind. lra.
    + rewrite Edt. cbn [gamma_shipped g_data g_dual]. set (z := 1e-20 ^ 2) in *. clearbody z. lra.
  - intros x u s r s' Hx Hu Hf Hm.
    pose proof (C82_control_data P (e_c E) gamma_shipped ind (e_D E) 1 Hc HT Rr ltac:(cbn; lra) ltac:(cbn; lra) ltac:(cbn; lra) ltac:(cbn; lra) ltac:(lra) ltac:(intros; unfold ind; lra)) as VC.
    assert (Hk : 32768 * 1e-20 ^ 2 * (1 / (g_data gamma_shipped * 1)) <= g_dual gamma_shipped * t_dt (tgrid P) ^ 2).
    { rewrite Edt. cbn [gamma_shipped g_data g_dual]. set (z := 1e-20 ^ 2) in *. clearbody z. lra. }
    pose proof (C82_reported P E gamma_shipped ind _ _ _ _ _ _ _ _ _ _ _ _ Hc HE HD HR eq_refl eq_refl (gamma_1d o N) ltac:(cbn; lra) ltac:(cbn; lra) ltac:(cbn; lra) ltac:(cbn; lra) VC Hk
      ltac:(intros t p _ _; rewrite HD, wave_1d_sol; reflexivity) ltac:(intros t p _ _; rewrite HD, wave_1d_dt; reflexivity) _ x u s r s' D2 Hx Hu Hf Hm) as [B1 [B2 B3]].
    cbv zeta in B1, B2, B3. rewrite (unit_length N HN) in *. rewrite sqrt_1, Rmult_1_l, Edt in *.
    pose proof (delivered_1d o N Ho HN Hb) as B. fold P in B. pose proof (accuracy_1d o N Ho HN) as [A0 A1]. fold P in A0, A1.
    set (bd := delivered_bound _ _ _ _ _ _ _ _) in *. clearbody bd. set (a := accuracy _ _ _ _) in *. clearbody a.
    cbn [gamma_shipped g_data] in *. set (rt := rate_1d o N) in *. assert (R0 : 0 <= rt) by lra. clearbody rt. set (y := INR N) in *. clearbody y.
    assert (Y0 : 1 <= sqrt y) by (rewrite <- sqrt_1; apply sqrt_le_1_alt; lra).
    assert (Q1 : sqrt (144 / / y * (1 / (10000 * 1) * bd)) <= sqrt y * (68 * rt + 5 / 10000)).
    { rewrite <- (sqrt_Rsqr (68 * rt + 5 / 10000)), <- sqrt_mult by (try apply Rle_0_sqr; lra). apply sqrt_le_1_alt.
      replace (144 / / y * (1 / (10000 * 1) * bd)) with (y * (144 / 10000 * bd)) by (field; lra). apply Rmult_le_compat_l; [lra|]. unfold Rsqr. nra. }
    assert (Q3 : sqrt (9504 / (/ y) ^ 3 * (1 / (10000 * 1) * bd)) <= y * sqrt y * (552 * rt + 41 / 10000)).
    { assert (Ey : y * sqrt y = sqrt (y ^ 3)).
      { replace (y ^ 3) with (Rsqr y * y) by (unfold Rsqr; ring). rewrite sqrt_mult by (try apply Rle_0_sqr; lra). rewrite sqrt_Rsqr by lra. reflexivity. }
      assert (Y3 : 0 < y ^ 3) by (apply pow_lt; lra).
      rewrite Ey, <- (sqrt_Rsqr (552 * rt + 41 / 10000)), <- sqrt_mult by (try apply Rle_0_sqr; lra). apply sqrt_le_1_alt.
      replace (9504 / (/ y) ^ 3 * (1 / (10000 * 1) * bd)) with (y ^ 3 * (9504 / 10000 * bd)) by (field; lra). apply Rmult_le_compat_l; [lra|]. unfold Rsqr. nra. }
    assert (Q2 : a <= sqrt y * rt) by nra.
    assert (Y1 : 1 <= y * sqrt y) by nra. assert (Q4 : a <= y * sqrt y * rt) by nra.
    replace (sqrt y * (69 * rt + 5 / 10000)) with (sqrt y * (68 * rt + 5 / 10000) + sqrt y * rt) by ring.
    replace (y * sqrt y * (553 * rt + 41 / 10000)) with (y * sqrt y * (552 * rt + 41 / 10000) + y * sqrt y * rt) by ring. lra.
Qed.

(** a rule for orders up to 3: ten equidistant points *)
Definition cotes10 : list (R * R) := [(0, 2857 / 89600); (1 / 9, 15741 / 89600); (2 / 9, 27 / 2240); (3 / 9, 1209 / 5600); (4 / 9, 2889 / 44800);
  (5 / 9, 2889 / 44800); (6 / 9, 1209 / 5600); (7 / 9, 27 / 2240); (8 / 9, 15741 / 89600); (1, 2857 / 89600)].
Lemma cotes10_exact : exact_rule cotes10 9.
Proof.
  intros p Hp. rewrite RInt_pint. unfold cotes10. rewrite !Rsum_cons, Rsum_nil. unfold pint.
  destruct p as [|p0 [|p1 [|p2 [|p3 [|p4 [|p5 [|p6 [|p7 [|p8 [|p9 [|]]]]]]]]]]]; try (cbn in Hp; lia); cbn; lra.
Qed.
Lemma cotes10_rule : rule_ok 3 cotes10.
Proof.
  split; [discriminate| |exact cotes10_exact]. intros j Hj. unfold qw, cotes10 in *. cbn [List.length] in Hj.
  do 10 (destruct j as [|j]; [cbn [nth snd]; lra|]). lia.
Qed.
Lemma cotes10_inner : inner_rule cotes10.
Proof. intros j Hj. unfold qs, cotes10 in *. cbn [List.length] in Hj. do 10 (destruct j as [|j]; [cbn [nth fst]; lra|]). lia. Qed.
(** degree 3 with 40000 slabs: there is such a run, its solution exists, the errors are
    measured, and those of u are below 0.2 *)
Example C82_nonvacuous : let N := Z.to_nat 40000 in let P := st_params (setting_1d 3 N) in exists E u s r s',
  (Z.of_nat N <= 1000000000)%Z /\ rule_ok 3 cotes10 /\ inner_rule cotes10 /\ construct P = Ok (e_c E) /\ env_ok E /\ e_D E = disc_1d 3 N cotes10 /\
  (exists s1 b, driver_setup E (init_state false (fun _ => 1) (fun _ _ => 0) 0) = (Ok (Some b), s1) /\
     veq (dimF E) (st_op P E gamma_shipped (fun _ => 1) (s_heap s u)) (s_heap s1 b)) /\ s_fes s = true /\
  measured_errors E u s = (Ok r, s') /\ er_T r < 0.2 /\ er_inf r < 0.2.
Proof.
  intros N P. assert (HN : (1 <= N)%nat) by (unfold N; lia). assert (Hb : (Z.of_nat N <= 1000000000)%Z) by (unfold N; rewrite Z2Nat.id; lia).
  assert (EN : INR N = 40000) by (unfold N; rewrite INR_IZR_INZ, Z2Nat.id by lia; reflexivity). clearbody N.
  destruct (shipped_good Driver1D _ (shipped_1d 3 N ltac:(lia) HN)) as [c [Hc _]]. fold P in Hc.
  set (D := disc_1d 3 N cotes10) in *.
  set (E := mkEnv c D (std_layout 4 (nc_full c) (fun j => d_dim D (spc j))) (std_layout 4 (nc_pre c) (fun j => d_dim D (spc j)))
    (std_layout 2 nc_coup (fun j => d_dim D (spc j))) (std_layout 2 nc_bnd (fun j => d_dim D (spc j)))).
  assert (HE : env_ok E).
  { split; try apply std_layout_ok. cbn [e_c E]. pose proof (construct_inv _ _ Hc) as HB. rewrite (bu_NP _ _ HB). exact HN. }
  destruct (C82_driver_reported 3 N cotes10 E ltac:(lia) HN Hb cotes10_rule cotes10_inner Hc HE eq_refl (fun _ _ => 0) 0%nat) as [s1 [b [D1 [[x [Hx _]] K]]]].
  set (s := w_fes true (init_state false (fun _ => 1) (fun _ => x) 0%nat)).
  assert (Hnn : nonneg_dx (e_D E)).
  { intros p Hp. pose proof (mesh_1d 3 N cotes10 ltac:(lia) HN cotes10_rule) as HM.
    exact (rg_w _ _ (C75_regular _ _ _ _ _ _ (fun _ => 0) HM ltac:(intros; lra)) Dx p Hp). }
  destruct (C46_total_nonnegative P E 0 s Hc HE ltac:(cbn; lra) Hnn eq_refl) as [r [s' [M _]]].
  destruct (K x 0%nat s r s' Hx eq_refl eq_refl M) as [B1 [B2 _]].
  exists E, 0%nat, s, r, s'. split; [exact Hb|]. split; [exact cotes10_rule|]. split; [exact cotes10_inner|]. split; [exact Hc|]. split; [exact HE|].
  split; [reflexivity|]. split; [exists s1, b; split; [exact D1|exact Hx]|]. split; [reflexivity|]. split; [exact M|].
  assert (Q : sqrt (INR N) * (69 * rate_1d 3 N + 5 / 10000) < 0.2).
  { unfold rate_1d. rewrite EN. assert (S2 : sqrt 40000 = 200) by (replace 40000 with (200 * 200) by ring; apply sqrt_square; lra). rewrite S2.
    pose proof PI_4 as P4. pose proof PI_RGT_0 as P0. change (2 * 3 + 3)%nat with 9%nat.
    assert (B : 0 <= (2 * PI) ^ 9 <= 8 ^ 9) by (split; [apply pow_le; lra|apply pow_incr; lra]). set (a := (2 * PI) ^ 9) in *. clearbody a. decimals. lra. }
  lra.
Qed.
Print Assumptions C82_control_data.
Print Assumptions C82_control_elliptic.
Print Assumptions C82_delivered.
Print Assumptions C82_reported.
Print Assumptions C82_driver_energy.
Print Assumptions C82_driver_reported.
Print Assumptions C82_nonvacuous.
