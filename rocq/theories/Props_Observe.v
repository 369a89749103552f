(** Props_Observe.v -- property C72: the ill-posed mode (no initial data).

    Initial data are replaced by measurements.  If the measurements, together with the
    primal stabilisation, determine the values at the start (a discrete observability
    inequality), the linear systems have exactly one solution and the estimates of C69,
    C70 and C71 hold without their remainders. *)
From Coq Require Import Reals List ZArith Lra Lia Bool String.
From Coquelicot Require Import Coquelicot.
From Verif Require Import Base TimeModel TimeSpec TimeProofs QuadProofs FormModel FormSpec FormProofs
  SpaceTimeForms FormBlocks GuardProofs FormTime FormC12 FormSym FormStruct FormWf FormExample Props_Forms
  SpaceTimeModel SlabOps ApplyProofs MarchProofs MarchSum Lifecycle LifeProofs OpsProofs LinAlg WellPosed Injective Props_Ops
  Stability ErrorBound Props_WellPosed Props_Stability Observe.
Import ListNotations.
Open Scope R_scope.

(** the part of the energy seen on the first slab *)
Definition energy_first (P : params) (g : gammas) (om : nat -> R) (D : disc) (X : field) : R :=
  g_data g * data D (tgrid P) om X X 0 + g_primal g * primal D (tgrid P) (5 * INR (p_k P) ^ 2) X X 0.
(** an energy [F] controls the values at the start with constant [ka] *)
Definition controls_start (P : params) (D : disc) (F : field -> R) (ka : R) : Prop :=
  (forall X, ka * L2 D Vp Vp (X 0%nat 0%nat) (X 0%nat 0%nat) <= t_dt (tgrid P) * F X)
  /\ (forall X, F X = 0 -> L2 D Vp Vp (X 1%nat 0%nat) (X 1%nat 0%nat) = 0).

Lemma energy_first_eq P c g om D X : construct P = Ok c -> energy_first P g om D X = first_energy c g om D X.
Proof.
  intro HC. unfold energy_first, first_energy. rewrite (tgrid_td _ _ HC), (bu_lam _ _ (construct_inv _ _ HC)). reflexivity.
Qed.
Lemma tgrid_dt P c : construct P = Ok c -> t_dt (tgrid P) = c_dt c.
Proof. intro HC. rewrite (bu_dt _ _ (construct_inv _ _ HC)). reflexivity. Qed.

(** control on the first slab implies control by the whole energy *)
Lemma enorm2_first P c g om D X : construct P = Ok c -> 0 < p_T P -> regular D om ->
  0 <= g_data g -> 0 <= g_dual g -> 0 <= g_primal g -> 0 <= g_jump g ->
  0 <= energy_first P g om D X <= enorm2 P g om D X.
Proof.
  intros HC HT HR G1 G2 G3 G4. pose proof (construct_inv _ _ HC) as HB. pose proof (dt_pos _ _ HC HT) as Hdt.
  assert (QP := fun n => quad_spec_pos P c g om D HB Hdt HR X n G1 G2 G3 G4).
  rewrite (enorm2_qsum P c g om D X HC). unfold qsum. pose proof (bu_N _ _ HB) as HN. destruct (c_N c) as [|N]; [lia|]. cbn [seq]. rewrite Rsum_cons.
  assert (0 <= Rsum (seq 1 N) (quad_spec c g om D X)) by (apply Rsum_nonneg; intros n _; apply QP).
  destruct (QP 0%nat) as [A1 [A2 [A3 [_ [_ [A6 _]]]]]].
  set (rest := Rsum _ _) in *. unfold quad_spec. cbn [Nat.ltb Nat.leb].
  rewrite (energy_first_eq P c g om D X HC). unfold first_energy. destruct (c_wp c); lra.
Qed.
Lemma controls_whole P c g om D ka : construct P = Ok c -> 0 < p_T P -> regular D om ->
  0 <= g_data g -> 0 <= g_dual g -> 0 <= g_primal g -> 0 <= g_jump g ->
  controls_start P D (energy_first P g om D) ka -> controls_start P D (enorm2 P g om D) ka.
Proof.
  intros HC HT HR G1 G2 G3 G4 [Ha Hb]. pose proof (dt_pos _ _ HC HT) as Hdt.
  pose proof (fun X => enorm2_first P c g om D X HC HT HR G1 G2 G3 G4) as Q. split; intro X.
  - eapply Rle_trans; [apply Ha|]. apply Rmult_le_compat_l; [rewrite (tgrid_dt P c HC); lra|apply Q].
  - intro E. apply Hb. pose proof (Q X). lra.
Qed.

(** * Measurements on the whole domain *)
Theorem C72_full_data : forall P c g om D w0, construct P = Ok c -> 0 < p_T P -> regular D om -> definite D Vp ->
  0 < g_data g -> 0 < g_primal g -> 0 < w0 -> (forall p, In p (d_pts D Dx) -> w0 <= om p) ->
  controls_start P D (energy_first P g om D) (g_data g * w0 * t_dt (tgrid P) ^ 2 / 16).
Proof.
  intros P c g om D w0 HC HT HR Dp G1 G3 Hw Hom. pose proof (construct_inv _ _ HC) as HB. pose proof (dt_pos _ _ HC HT) as Hdt.
  split; intro X; rewrite (energy_first_eq P c g om D X HC); unfold first_energy;
    pose proof (data_pos P c om D HB Hdt HR X 0) as D1; pose proof (primal_pos P c om D HB Hdt HR X 0) as D3;
    pose proof (Rmult_le_pos _ _ (Rlt_le _ _ G3) D3) as Q3; pose proof (Rmult_le_pos _ _ (Rlt_le _ _ G1) D1) as Q1.
  - rewrite (tgrid_dt P c HC).
    pose proof (data_trace P c om D HB Hdt HR w0 Hw Hom X 0) as T. change (0 * S (c_q c))%nat with 0%nat in T.
    set (a := L2 D Vp Vp (X 0%nat 0%nat) (X 0%nat 0%nat)) in *. set (u := data D (td c) om X X 0) in *.
    set (v := primal D (td c) (c_lam c) X X 0) in *.
    replace (g_data g * w0 * c_dt c ^ 2 / 16 * a) with (c_dt c * (g_data g * (w0 * c_dt c / 16 * a))) by field.
    apply Rmult_le_compat_l; [lra|]. pose proof (Rmult_le_compat_l (g_data g) _ _ (Rlt_le _ _ G1) T). lra.
  - intro E. unfold L2. apply sp_zero1. intros l Hl.
    apply (full_velocity P c om D HB Hdt HR Dp w0 Hw Hom X 0); [| |exact Hl].
    + apply (zero_of_prod (g_data g)); lra.
    + apply (zero_of_prod (g_primal g)); lra.
Qed.

(** * Unique solvability *)
Theorem C72_first_slab : forall P c g om D L ka, construct P = Ok c -> 0 < p_T P ->
  lay_ok D 4 (nc_pre c) L -> regular D om -> definite D Vp -> definite D Vd ->
  0 <= g_data g -> 0 < g_dual g -> 0 < g_primal g ->
  controls_start P D (energy_first P g om D) ka -> 4 * 1e-20 ^ 2 < ka * g_dual g ->
  uniquely_solvable (lay_dim L) (assemble D L (slab_form c g om false)).
Proof.
  intros P c g om D L ka HC HT HL HR Dp Dd G1 G2 G3 [Ha Hb] Hk.
  pose proof (construct_inv _ _ HC) as HB. pose proof (dt_pos _ _ HC HT) as Hdt.
  apply injective_unique, (injective_assemble D 4 (nc_pre c)); [exact HL|apply wf_slab|].
  intros X HK. apply (feq_pre P c D X HB).
  apply (first_inj P c g om D HB Hdt HR Dp Dd G1 G2 G3 1e-20 ka Hk).
  - intro Z. rewrite <- (energy_first_eq P c g om D Z HC), <- (tgrid_dt P c HC). apply Ha.
  - intro Z. rewrite <- (energy_first_eq P c g om D Z HC). apply Hb.
  - intro Y. rewrite <- (HK Y). rewrite eval_slab. unfold slab_extra_pre. rewrite Rplus_0_r. reflexivity.
Qed.
Lemma unique_injective n A : uniquely_solvable n A -> injective n A.
Proof.
  intros HU x Hx i Hi. destruct (HU (fun _ => 0)) as [y [_ Hy]].
  rewrite (Hy x Hx i Hi). symmetry. apply (Hy (fun _ => 0)); [|exact Hi]. intros k _. unfold mult. apply Rsum_zero. intros j _. ring.
Qed.
Theorem C72_preconditioner : forall P c g om D L ka, construct P = Ok c -> 0 < p_T P -> p_jumps P = false ->
  lay_ok D 4 (nc_full c) L -> regular D om -> definite D Vp -> definite D Vd -> weights_ok P g ->
  controls_start P D (energy_first P g om D) ka -> 4 * 1e-20 ^ 2 < ka * g_dual g ->
  uniquely_solvable (lay_dim L) (st_matrix D L c g om true).
Proof.
  intros P c g om D L ka HC HT Hj HL HR Dp Dd HW Hc Hk. apply (C68_preconditioner P); try assumption. right.
  exists (std_layout 4 (nc_pre c) (fun j => d_dim D (spc j))). split; [apply std_layout_ok|].
  apply unique_injective. pose proof HW as [G1 [G2 [G3 _]]].
  apply (C72_first_slab P c g om D _ ka); try assumption. apply std_layout_ok.
Qed.
Theorem C72_exact_solvers : forall P E om s g ka, construct P = Ok (e_c E) -> 0 < p_T P -> env_ok E ->
  reached E om s -> s_fim s <> None -> s_slm s <> None -> get_gammas (p_stab P) = Ok g ->
  regular (e_D E) om -> definite (e_D E) Vp -> definite (e_D E) Vd -> weights_ok P g ->
  controls_start P (e_D E) (energy_first P g om (e_D E)) ka -> 4 * 1e-20 ^ 2 < ka * g_dual g ->
  exists S0 S1, exact_solvers E s S0 S1 /\ total S0 /\ total S1.
Proof.
  intros P E om s g ka HC HT HE HS H0 H1 Hg HR Dp Dd HW Hc Hk.
  apply (C67_exact_solvers P E om s g); try assumption. right. apply unique_injective. pose proof HW as [G1 [G2 [G3 _]]].
  apply (C72_first_slab P (e_c E) g om (e_D E) _ ka); try assumption. apply (eo_p _ HE).
Qed.

(** * Stability without remainder *)
Lemma absorb P c D F ka K gd X : construct P = Ok c -> 0 < p_T P -> 0 < gd -> 0 <= K ->
  controls_start P D F ka -> 2 * K <= ka * gd -> 0 <= L2 D Vp Vp (X 0%nat 0%nat) (X 0%nat 0%nat) ->
  K / (gd * t_dt (tgrid P)) * L2 D Vp Vp (X 0%nat 0%nat) (X 0%nat 0%nat) <= / 2 * F X.
Proof.
  intros HC HT Hg HK [Ha _] Hk N. pose proof (dt_pos _ _ HC HT) as Hdt. specialize (Ha X).
  rewrite (tgrid_dt P c HC) in *. set (a := L2 D Vp Vp (X 0%nat 0%nat) (X 0%nat 0%nat)) in *.
  assert (Q : 2 * K * a <= gd * c_dt c * F X).
  { apply (Rle_trans _ (ka * gd * a)); [apply Rmult_le_compat_r; lra|].
    replace (ka * gd * a) with (gd * (ka * a)) by ring. rewrite Rmult_assoc. apply Rmult_le_compat_l; lra. }
  apply (Rmult_le_reg_l (gd * c_dt c)); [apply Rmult_lt_0_compat; lra|].
  replace (gd * c_dt c * (K / (gd * c_dt c) * a)) with (K * a) by (field; split; lra). lra.
Qed.
Theorem C72_stability : forall P c g om D L ka, construct P = Ok c -> 0 < p_T P ->
  lay_ok D 4 (nc_full c) L -> regular D om ->
  0 <= g_data g -> 0 < g_dual g -> 0 <= g_primal g -> 0 <= g_jump g ->
  controls_start P D (enorm2 P g om D) ka -> 32 * 1e-20 ^ 2 <= ka * g_dual g ->
  forall x x', flipped c D L x x' ->
  enorm2 P g om D (field_of L x) <= 4 * dotn (lay_dim L) x' (mult (lay_dim L) (st_matrix D L c g om false) x).
Proof.
  intros P c g om D L ka HC HT HL HR G1 G2 G3 G4 Hc Hk x x' HF.
  destruct (C69_stability P c g om D L HC HT HL HR G1 G2 G3 G4 x x' HF) as [B _].
  pose proof (absorb P c D _ ka (16 * 1e-20 ^ 2) (g_dual g) (field_of L x) HC HT G2 ltac:(pose proof (pow2_ge_0 1e-20); lra) Hc ltac:(lra)
    (L2_nonneg om D HR Vp _)) as R. lra.
Qed.
(** every discrete function is the flip of one with the same coordinates *)
Lemma flip_exists D L c x : lay_ok D 4 (nc_full c) L -> exists x', flipped c D L x x'.
Proof.
  intro HL. destruct (field_onto D 4 (nc_full c) L (flip (field_of L x)) HL) as [x' Hx']. exists x'.
  intros j i l Hj Hi Hl. pose proof (Hx' j i l Hj Hi Hl) as E. unfold flip, field_of in E. rewrite <- E. reflexivity.
Qed.
Theorem C72_space_time_problem : forall P c g om D L ka, construct P = Ok c -> 0 < p_T P ->
  lay_ok D 4 (nc_full c) L -> regular D om -> definite D Vp -> definite D Vd ->
  0 <= g_data g -> 0 < g_dual g -> 0 < g_primal g -> 0 < g_jump g ->
  controls_start P D (enorm2 P g om D) ka -> 32 * 1e-20 ^ 2 <= ka * g_dual g ->
  uniquely_solvable (lay_dim L) (st_matrix D L c g om false).
Proof.
  intros P c g om D L ka HC HT HL HR Dp Dd G1 G2 G3 G4 Hc Hk.
  apply injective_unique. intros x Hx. destruct (flip_exists D L c x HL) as [x' HF].
  pose proof (C72_stability P c g om D L ka HC HT HL HR G1 G2 (Rlt_le _ _ G3) (Rlt_le _ _ G4) Hc Hk x x' HF) as B.
  replace (dotn _ _ _) with 0 in B.
  2: { symmetry. unfold dotn. apply Rsum_zero. intros i Hi. apply in_seq in Hi. rewrite Hx by lia. ring. }
  destruct (C69_energy_definite P c g om D HC HT HR Dp Dd G1 G2 G3 G4 (field_of L x)) as [N Z].
  assert (E0 : enorm2 P g om D (field_of L x) = 0) by lra. specialize (Z E0).
  pose proof Hc as [Ha Hb].
  assert (SZ : forall j l, (j < 2)%nat -> (l < d_dim D Vp)%nat -> field_of L x j 0%nat l = 0).
  { intros j l Hj. assert (j = 0 \/ j = 1)%nat as [->| ->] by lia; apply Dp; [|apply Hb, E0].
    pose proof (Ha (field_of L x)) as A. rewrite E0, Rmult_0_r in A. pose proof (L2_nonneg om D HR Vp (field_of L x 0%nat 0%nat)) as N0.
    apply Rle_antisym; [|exact N0].
    assert (Kp : 0 < ka * g_dual g) by (eapply Rlt_le_trans; [|exact Hk]; decimals; lra).
    assert (0 < ka) by (apply (Rmult_lt_reg_r (g_dual g)); lra). apply (Rmult_le_reg_l ka); lra. }
  specialize (Z (or_intror SZ)). intros I HI. destruct (dof_surj D 4 (nc_full c) L I HL HI) as [j [i [l [Hj [Hi [Hl ->]]]]]].
  apply (Z j i l); assumption.
Qed.

(** * Noise and error without remainder *)
Theorem C72_measurement_noise : forall P P' c c' g om D L xs u1v u1g u2v ka,
  construct P = Ok c -> construct P' = Ok c' -> same_but_measurement P P' -> 0 < p_T P ->
  lay_ok D 4 (nc_full c) L -> regular D om ->
  0 <= g_data g -> 0 < g_dual g -> 0 <= g_primal g -> 0 <= g_jump g ->
  controls_start P D (enorm2 P g om D) ka -> 64 * 1e-20 ^ 2 <= ka * g_dual g ->
  forall x x',
  (forall i, (i < lay_dim L)%nat -> mult (lay_dim L) (st_matrix D L c g om false) x i
     = assemble_vec D L (rhs_form c om (g_data g) (g_jump g) xs u1v u1g u2v) i) ->
  (forall i, (i < lay_dim L)%nat -> mult (lay_dim L) (st_matrix D L c' g om false) x' i
     = assemble_vec D L (rhs_form c' om (g_data g) (g_jump g) xs u1v u1g u2v) i) ->
  enorm2 P g om D (field_of L (fun i => x i - x' i))
  <= 8 * g_data g * noise2 P (c_qr c) om D (fun t p => p_v P t (xs p) - p_v P' t (xs p)).
Proof.
  intros P P' c c' g om D L xs u1v u1g u2v ka HC HC' HS HT HL HR G1 G2 G3 G4 Hc Hk x x' Hx Hx'.
  destruct (C70_measurement_noise P P' c c' g om D L xs u1v u1g u2v HC HC' HS HT HL HR G1 G2 G3 G4 x x' Hx Hx') as [B _].
  cbv zeta in B. set (E := field_of L (fun i => x i - x' i)) in *.
  pose proof (absorb P c D _ ka (32 * 1e-20 ^ 2) (g_dual g) E HC HT G2 ltac:(pose proof (pow2_ge_0 1e-20); lra) Hc ltac:(lra)
    (L2_nonneg om D HR Vp _)) as R. lra.
Qed.
Theorem C72_error_bound : forall P c g om D L xs u1v u1g u2v ka, construct P = Ok c -> 0 < p_T P ->
  lay_ok D 4 (nc_full c) L -> regular D om ->
  0 <= g_data g -> 0 < g_dual g -> 0 <= g_primal g -> 0 <= g_jump g ->
  controls_start P D (enorm2 P g om D) ka -> 128 * 1e-20 ^ 2 <= ka * g_dual g ->
  forall x, (forall i, (i < lay_dim L)%nat -> mult (lay_dim L) (st_matrix D L c g om false) x i
     = assemble_vec D L (rhs_form c om (g_data g) (g_jump g) xs u1v u1g u2v) i) ->
  forall U kw, (forall n Z, (n < p_N P)%nat ->
     wave D (tgrid P) U Z n <= kw n * sqrt (dual D (tgrid P) (5 * INR (p_k P) ^ 2) Z Z n)) ->
  let E : field := fun j i l => field_of L x j i l - (if Nat.ltb j 2 then U j i l else 0) in
  let rest := integ D Dx WOne 1 (fun p k => 1 - fev D Dx Vp Val (U 0%nat 0%nat) p k) (fun p k => 1 - fev D Dx Vp Val (U 0%nat 0%nat) p k) in
  enorm2 P g om D E <= 4 * sumn (p_N P) (residual2 P (c_qr c) g om D xs u1v u1g u2v U kw)
    + 128 * 1e-20 ^ 2 / (g_dual g * t_dt (tgrid P)) * rest.
Proof.
  intros P c g om D L xs u1v u1g u2v ka HC HT HL HR G1 G2 G3 G4 Hc Hk x Hx U kw HW E rest.
  destruct (C71_error_bound P c g om D L xs u1v u1g u2v HC HT HL HR G1 G2 G3 G4 x Hx U kw HW) as [B _].
  cbv zeta in B. fold E rest in B.
  pose proof (absorb P c D _ ka (64 * 1e-20 ^ 2) (g_dual g) E HC HT G2 ltac:(pose proof (pow2_ge_0 1e-20); lra) Hc ltac:(lra)
    (L2_nonneg om D HR Vp _)) as R.
  replace (128 * 1e-20 ^ 2 / (g_dual g * t_dt (tgrid P)) * rest) with (2 * (64 * 1e-20 ^ 2 / (g_dual g * t_dt (tgrid P)) * rest)).
  - rewrite Rmult_plus_distr_l in B.
    set (u := 64 * 1e-20 ^ 2 / (g_dual g * t_dt (tgrid P)) * rest) in *. set (v := enorm2 P g om D E) in *.
    set (w := _ * L2 D Vp Vp _ _) in *. set (r := sumn (p_N P) _) in *. clearbody u v w r. lra.
  - pose proof (dt_pos _ _ HC HT). field. rewrite (tgrid_dt P c HC). split; lra.
Qed.

(** measurements on the whole mesh exI, ill-posed mode, with and without jump terms *)
Example C72_nonvacuous : forall jm, exists c L Lp, let P := exP 3 2 5 jm false in
  construct P = Ok c /\ lay_ok exI 4 (nc_full c) L /\ lay_ok exI 4 (nc_pre c) Lp /\ regular exI om1 /\ definite exI Vp /\ definite exI Vd
  /\ weights_ok P exG /\ controls_start P exI (energy_first P exG om1 exI) (1 / 400) /\ controls_start P exI (enorm2 P exG om1 exI) (1 / 400)
  /\ 128 * 1e-20 ^ 2 <= 1 / 400 * g_dual exG
  /\ uniquely_solvable (lay_dim L) (st_matrix exI L c exG om1 false)
  /\ uniquely_solvable (lay_dim Lp) (assemble exI Lp (slab_form c exG om1 false)).
Proof.
  intro jm. destruct (exP_ok 3 2 5 jm false) as [c Hc]; try lia. pose proof (construct_inv _ _ Hc) as HB.
  assert (HT : 0 < p_T (exP 3 2 5 jm false)) by (cbn; lra).
  exists c, (std_layout 4 (nc_full c) (fun j => d_dim exI (spc j))), (std_layout 4 (nc_pre c) (fun j => d_dim exI (spc j))). cbv zeta.
  assert (HW : weights_ok (exP 3 2 5 jm false) exG).
  { unfold weights_ok, coupling. cbn [g_data g_dual g_primal g_jump exG p_jumps p_qstar exP].
    repeat split; try lra. destruct jm; cbn [Z.eqb Z.of_nat]; decimals; lra. }
  assert (HF : controls_start (exP 3 2 5 jm false) exI (energy_first (exP 3 2 5 jm false) exG om1 exI) (1 / 400)).
  { pose proof (C72_full_data (exP 3 2 5 jm false) c exG om1 exI 1 Hc HT exI_regular (exI_definite Vp) ltac:(cbn; lra) ltac:(cbn; lra) ltac:(lra)
      ltac:(intros; unfold om1; lra)) as F.
    replace (g_data exG * 1 * t_dt (tgrid (exP 3 2 5 jm false)) ^ 2 / 16) with (1 / 400) in F; [exact F|]. cbn. field. }
  assert (HK : 128 * 1e-20 ^ 2 <= 1 / 400 * g_dual exG) by (cbn [g_dual exG]; decimals; lra).
  assert (HE : controls_start (exP 3 2 5 jm false) exI (enorm2 (exP 3 2 5 jm false) exG om1 exI) (1 / 400)).
  { apply (controls_whole _ c); try assumption; try exact exI_regular; cbn; lra. }
  split; [exact Hc|]. split; [apply std_layout_ok|]. split; [apply std_layout_ok|]. split; [exact exI_regular|].
  split; [exact (exI_definite Vp)|]. split; [exact (exI_definite Vd)|]. split; [exact HW|]. split; [exact HF|]. split; [exact HE|]. split; [exact HK|].
  assert (P2 : 0 < 1e-20 ^ 2) by (decimals; lra).
  split.
  - apply (C72_space_time_problem (exP 3 2 5 jm false) c exG om1 exI _ (1 / 400) Hc HT); try apply std_layout_ok;
      try exact exI_regular; try exact (exI_definite Vp); try exact (exI_definite Vd); try exact HE;
      cbn [g_data g_dual g_primal g_jump exG] in *; lra.
  - apply (C72_first_slab (exP 3 2 5 jm false) c exG om1 exI _ (1 / 400) Hc HT); try apply std_layout_ok;
      try exact exI_regular; try exact (exI_definite Vp); try exact (exI_definite Vd); try exact HF;
      cbn [g_data g_dual g_primal g_jump exG] in *; lra.
Qed.

Print Assumptions C72_full_data.
Print Assumptions C72_first_slab.
Print Assumptions C72_preconditioner.
Print Assumptions C72_exact_solvers.
Print Assumptions C72_stability.
Print Assumptions C72_space_time_problem.
Print Assumptions C72_measurement_noise.
Print Assumptions C72_error_bound.
