(** Props_Smoke.v -- property C78, tests/test_solve_1d_smoke.py: solve_problem of
    solve_1d.py with measure_errors=True, from the set-up at module level to the reported
    errors. *)
From Coq Require Import Reals List ZArith Lra Lia Bool String.
From Coquelicot Require Import Coquelicot.
From Verif Require Import Base TimeModel TimeSpec TimeProofs QuadProofs FormModel FormSpec FormProofs
  SpaceTimeForms FormBlocks FormTime FormC12 FormStruct FormExample Props_Forms
  SpaceTimeModel SlabOps ApplyProofs MarchProofs MarchSum MarchLoops Lifecycle LifeProofs OpsProofs SetupOk LinAlg OpsExample WellPosed Injective Props_Ops
  ErrorsModel ErrorsSpec ErrorsProofs Props_Errors
  GmresModel Props_Gmres FormSym Props_WellPosed Stability Props_Stability Observe Props_Observe Krylov Delivered Props_Krylov
  DriverModel DriverConfig Props_Life Props_Solve Props_Config Space1D NoData Elliptic1D Props_Space1D Vanish Props_Vanish.
Import ListNotations.
Open Scope R_scope.

Lemma only_zero P E g om : construct P = Ok (e_c E) -> 0 < p_T P -> env_ok E -> p_jumps P = false ->
  let A := st_op P E g om in
  (forall v, exists x, veq (dimF E) (A x) v /\ forall x', veq (dimF E) (A x') v -> veq (dimF E) x' x) ->
  forall x, veq (dimF E) (A x) (fun _ => 0) -> veq (dimF E) x (fun _ => 0).
Proof.
  intros Hc HT HE Hj A US x Hx. pose proof (st_op_lin P E g om Hc HT HE Hj) as [LE LL]. fold A in LE, LL.
  destruct (US (fun _ => 0)) as [z [Z1 Z2]]. intros i Hi. rewrite (Z2 x Hx i Hi). symmetry. refine (Z2 (fun _ => 0) _ i Hi).
  intros j Hj2. pose proof (LL 0 (fun _ => 0) 0 (fun _ => 0) j Hj2) as L0. cbv beta in L0.
  transitivity (A (fun i => 0 * 0 + 0 * 0) j); [apply LE; [intros l _; ring|exact Hj2]|]. etransitivity; [exact L0|ring].
Qed.
(** For every order and number of slabs the driver accepts: the module-level statements
    succeed; with either slab solver the test passes exactly when the external GMRES does not
    report divergence; the right-hand side is left alone.  If GMRES delivers an iterate with
    minimal residual after more than 2 (N-1) (5 N ORDER + 1) steps, that iterate is the only solution
    of the system, and what measured_errors reports for it is 1/sqrt 2 up to [gap_1d]: the
    error of the zero function. *)
Theorem C78_smoke_test : forall o N qp E have, (1 <= o <= 3)%nat -> (1 <= N)%nat -> (Z.of_nat N <= slabs_1d o)%Z -> rule_ok o qp ->
  let P := st_params (setting_1d o N) in
  construct P = Ok (e_c E) -> env_ok E -> e_D E = disc_1d o N qp ->
  forall ind heap next, exists s1 b A0 A1, driver_setup E (init_state true ind heap next) = (Ok (Some b), s1) /\
  s_fim s1 = Some A0 /\ s_slm s1 = Some A1 /\
  forall lu pard S0 S1 F0 F1,
  slab_solver_of lu pard (SOLVER_TYPE have) A0 = Ok S0 -> slab_solver_of lu pard (SOLVER_TYPE have) A1 = Ok S1 ->
  computes E S0 F0 -> computes E S1 F1 ->
  exists B : vec -> vec,
  (exact (lay_dim (e_Lp E)) A0 S0 -> exact (lay_dim (e_Lp E)) A1 S1 ->
   forall v I, (I < dimF E)%nat -> prec_matrix P E gamma_shipped (fun _ => 0) (B v) I = v I) /\
  forall ext ev pt db xa k db', b <> xa ->
  configure db 100000 (Some 1e-7) None true None = Ok (k, db') ->
  no_alias (ext k (dimF E) b xa) -> spares b (ext k (dimF E) b xa) ->
  let A := st_op P E gamma_shipped (fun _ => 0) in
  let out := pure_ksp A B (dimF E) (ext k (dimF E) b xa) (upd xa (fun _ => 0) (s_heap s1)) in
  exists s', solve_problem E ext lu pard ev pt db Driver1D (SOLVER_TYPE have) b xa true s1
      = (if Z.ltb (o_reason (fst out)) 0 then Err PETScError else Ok tt, s') /\
    s_heap s' b = s_heap s1 b /\
    (exact (lay_dim (e_Lp E)) A0 S0 -> exact (lay_dim (e_Lp E)) A1 S1 ->
     forall m, (2 * (N - 1) * (5 * N * o + 1) < m)%nat -> min_residual (dimF E) m A B (s_heap s1 b) (snd out xa) ->
     veq (dimF E) (A (s_heap s' xa)) (s_heap s1 b) /\
     (forall x, veq (dimF E) (A x) (s_heap s1 b) -> veq (dimF E) x (s_heap s' xa)) /\
     forall s u r s'', s_heap s u = s_heap s' xa -> s_fes s = true -> measured_errors E u s = (Ok r, s'') ->
       Rabs (er_T r - sqrt (1 / 2)) <= gap_1d o N /\ Rabs (er_inf r - sqrt (1 / 2)) <= gap_1d o N).
Proof.
  intros o N qp E have Ho HN Hb Hr P Hc HE HD ind heap next.
  pose proof (shipped_1d o N Ho HN) as HS. destruct (shipped_good Driver1D _ HS) as [c [Hc' HG]]. fold P in Hc', HG.
  rewrite Hc in Hc'. injection Hc' as Ec. specialize (HG E Ec).
  destruct (shipped_params Driver1D _ HS) as [_ [_ [_ [_ [_ [_ [Hj Hw]]]]]]]. fold P in Hj, Hw.
  pose proof (mesh_1d o N qp ltac:(lia) HN Hr) as HM.
  assert (Hnn : nonneg_dx (e_D E)).
  { intros p Hp. rewrite HD in *. exact (rg_w _ _ (C75_regular _ _ _ _ _ _ (fun _ => 0) HM ltac:(intros; lra)) Dx p Hp). }
  destruct (C55_partial P E gamma_shipped true ind heap next HG ltac:(cbn; lra) HE Hj Hw Hnn) as [s1 [b [A0 [A1 [D1 [D2 [D3 K]]]]]]].
  exists s1, b, A0, A1. split; [exact D1|]. split; [exact D2|]. split; [exact D3|].
  intros lu pard S0 S1 F0 F1 HS0 HS1 C0 C1.
  destruct (K lu pard (SOLVER_TYPE have) S0 S1 F0 F1 ltac:(destruct have; discriminate) HS0 HS1 C0 C1) as [B [_ [HX HK]]].
  exists B. split; [exact HX|]. intros ext ev pt db xa k db' Hne Hk Ha Hs A out.
  destruct (HK Driver1D ext ev pt db xa true k db' Hne Hk Ha Hs) as [s' [R1 [R2 R3]]].
  exists s'. split; [exact R1|]. split; [exact R3|]. intros X0 X1 m Hm Hmin.
  specialize (HX X0 X1). change (s_om (init_state true ind heap next)) with (fun _ : nat => 0) in *. fold A in R2. fold out in R2.
  destruct (C77_solve_1d o N qp E Ho HN Hb Hr Hc HE HD ind heap next) as [s2 [b2 [D1' [US _]]]]. rewrite D1 in D1'. injection D1' as <- <-.
  fold P in US. fold A in US. cbv zeta in US.
  pose proof (st_op_lin P E gamma_shipped (fun _ => 0) Hc (gd_T _ _ _ HG) HE Hj) as [LE LL]. fold A in LE, LL.
  pose proof (only_zero P E gamma_shipped (fun _ => 0) Hc (gd_T _ _ _ HG) HE Hj US) as Inj. fold A in Inj.
  assert (Kr : (krylov_rank P (e_D E) < m)%nat).
  { unfold krylov_rank. rewrite Hw, HD. change (p_N P) with N. change (d_dim (disc_1d o N qp) Vp) with (S (5 * N * o)). rewrite Nat.add_0_r.
    replace (S (5 * N * o)) with (5 * N * o + 1)%nat by lia. exact Hm. }
  assert (Sol : veq (dimF E) (A (s_heap s' xa)) (s_heap s1 b)).
  { destruct (C74_krylov P E gamma_shipped (fun _ => 0) B Hc (gd_T _ _ _ HG) HE Hj HX Inj (s_heap s1 b) m Kr) as [_ K2].
    intros i Hi. rewrite <- (K2 _ Hmin i Hi). apply LE; [exact R2|exact Hi]. }
  split; [exact Sol|]. split.
  - intros x Hx. destruct (US (s_heap s1 b)) as [z [_ Z2]]. intros i Hi. rewrite (Z2 x Hx i Hi). symmetry. exact (Z2 _ Sol i Hi).
  - intros s u r s'' Hu Hf Hme. exact (C77_reported o N qp E Ho HN Hb Hr Hc HE HD ind heap next s1 b D1 _ u s r s'' Sol Hu Hf Hme).
Qed.

(** * The hypotheses can be met: the driver as shipped (ORDER = 1, N = 32) *)
Lemma direct_pair n A0 A1 : injective n A0 -> injective n A1 -> exists (lu : matrix -> solver) F0 F1,
  (forall b x, lu A0 b x = Ok (F0 b)) /\ (forall b x, lu A1 b x = Ok (F1 b)) /\
  (forall b b', veq n b b' -> F0 b = F0 b' /\ F1 b = F1 b') /\
  (forall b i, (i < n)%nat -> mult n A0 (F0 b) i = b i) /\ (forall b i, (i < n)%nat -> mult n A1 (F1 b) i = b i).
Proof.
  intros I0 I1. destruct (injective_inverse n A0 I0) as [X0 HX0]. destruct (injective_inverse n A1 I1) as [X1 HX1].
  set (same := fun A : matrix => forallb (fun i => forallb (fun j => if Req_EM_T (A i j) (A0 i j) then true else false) (seq 0 n)) (seq 0 n)).
  assert (Sm : forall A, same A = true -> forall x i, (i < n)%nat -> mult n A x i = mult n A0 x i).
  { intros A HA x J HJ. unfold mult. apply Rsum_ext_in. intros j Hj. apply in_seq in Hj. f_equal.
    pose proof (proj1 (forallb_forall _ _) HA J ltac:(apply in_seq; lia)) as HB. pose proof (proj1 (forallb_forall _ _) HB j ltac:(apply in_seq; lia)) as HD. cbv beta in HD.
    destruct (Req_EM_T (A J j) (A0 J j)) as [Q|Q]; [exact Q|discriminate HD]. }
  assert (S0 : same A0 = true).
  { apply forallb_forall. intros i _. apply forallb_forall. intros j _. destruct (Req_EM_T (A0 i j) (A0 i j)); [reflexivity|contradiction]. }
  assert (BC : forall X b b', veq n b b' -> by_columns n X b = by_columns n X b').
  { intros X b b' Hb. unfold by_columns. apply FunctionalExtensionality.functional_extensionality. intro l. apply Rsum_ext_in. intros j Hj. apply in_seq in Hj.
    rewrite (Hb j) by lia. reflexivity. }
  exists (fun A b _ => Ok (if same A then by_columns n X0 b else by_columns n X1 b)), (by_columns n X0), (if same A1 then by_columns n X0 else by_columns n X1).
  rewrite S0. split; [reflexivity|]. split; [intros; destruct (same A1); reflexivity|]. split.
  - intros b b' Hb. split; [apply BC, Hb|]. destruct (same A1); apply BC, Hb.
  - split; [exact HX0|]. intros b i Hi. destruct (same A1) eqn:Q; [rewrite (Sm A1 Q) by exact Hi; apply HX0, Hi|apply HX1, Hi].
Qed.

Example C78_smoke_nonvacuous : exists E s1 b lu ext xa s' s r s'', let P := st_params (setting_1d 1 32) in
  rule_ok 1 gauss3 /\ construct P = Ok (e_c E) /\ env_ok E /\ e_D E = disc_1d 1 32 gauss3 /\
  driver_setup E (init_state true (fun _ => 1) (fun _ _ => 0) 0) = (Ok (Some b), s1) /\
  solve_problem E ext lu (fun _ => Err NameError) (fun _ _ => 0) (fun _ => nil) (fun _ => None) Driver1D (SOLVER_TYPE false) b xa true s1 = (Ok tt, s') /\
  s_heap s 0%nat = s_heap s' xa /\ s_fes s = true /\
  measured_errors E 0 s = (Ok r, s'') /\ 0.7 < er_T r /\ 0.7 < er_inf r.
Proof.
  assert (Hb : (Z.of_nat 32 <= slabs_1d 1)%Z) by (cbn; lia).
  destruct (C76_driver 1 32 gauss3 (fun _ => 0) ltac:(lia) ltac:(lia) Hb gauss3_rule ltac:(intros; lra)) as [c [Hc US]].
  set (D := disc_1d 1 32 gauss3) in *. set (P := st_params (setting_1d 1 32)) in *.
  set (E := mkEnv c D (std_layout 4 (nc_full c) (fun j => d_dim D (spc j))) (std_layout 4 (nc_pre c) (fun j => d_dim D (spc j)))
    (std_layout 2 nc_coup (fun j => d_dim D (spc j))) (std_layout 2 nc_bnd (fun j => d_dim D (spc j)))).
  pose proof (construct_inv _ _ Hc) as HB.
  assert (HE : env_ok E).
  { split; try apply std_layout_ok. cbn [e_c E]. rewrite (bu_NP _ _ HB). cbn. lia. }
  pose proof (shipped_1d 1 32 ltac:(lia) ltac:(lia)) as HS. destruct (shipped_good Driver1D _ HS) as [c' [Hc' HG]]. fold P in Hc', HG.
  rewrite Hc in Hc'. injection Hc' as Ec. specialize (HG E Ec).
  destruct (C78_smoke_test 1 32 gauss3 E false ltac:(lia) ltac:(lia) Hb gauss3_rule Hc HE eq_refl (fun _ => 1) (fun _ _ => 0) 0%nat)
    as [s1 [b [A0 [A1 [D1 [D2 [D3 K]]]]]]].
  destruct (driver_ready P E gamma_shipped HG ltac:(cbn; lra) true (fun _ => 1) (fun _ _ => 0) 0%nat) as [s1' [b' [D1' [_ [HR _]]]]].
  rewrite D1 in D1'. injection D1' as <- <-. change (s_om (init_state true (fun _ => 1) (fun _ _ => 0) 0)) with (fun _ : nat => 0) in HR. cbv iota in HR.
  destruct (wf_slab_mats E _ s1 A0 A1 (reached_wf _ _ _ HR) D2 D3) as [_ [g [Hg [M0 M1]]]].
  change (e_c E) with c in Hg. rewrite (bu_stab _ _ HB) in Hg. rewrite (gd_g _ _ _ HG) in Hg. injection Hg as <-.
  destruct (US (e_Lf E) (e_Lp E) (eo_f _ HE) (eo_p _ HE)) as [_ [_ [U0 U1]]].
  unfold fn in M0, M1. cbn [Nat.eqb] in M0, M1. change (e_c E) with c in M0, M1. rewrite (bu_wp _ _ HB) in M0. change (p_wp P) with false in M0.
  cbn [negb] in M0, M1. change (e_D E) with D in M0, M1. rewrite <- M0 in U0. rewrite <- M1 in U1.
  destruct (direct_pair _ A0 A1 (unique_injective _ _ U0) (unique_injective _ _ U1)) as [lu [F0 [F1 [L0 [L1 [Fe [X0 X1]]]]]]].
  assert (C0 : computes E (lu A0) F0) by (split; [exact L0|intros r r' Hr l Hl; destruct (Fe r r' Hr) as [-> _]; reflexivity]).
  assert (C1 : computes E (lu A1) F1) by (split; [exact L1|intros r r' Hr l Hl; destruct (Fe r r' Hr) as [_ ->]; reflexivity]).
  assert (Y0 : exact (lay_dim (e_Lp E)) A0 (lu A0)) by (intros v x u Hu; rewrite L0 in Hu; injection Hu as <-; intros; apply X0; assumption).
  assert (Y1 : exact (lay_dim (e_Lp E)) A1 (lu A1)) by (intros v x u Hu; rewrite L1 in Hu; injection Hu as <-; intros; apply X1; assumption).
  destruct (K lu (fun _ => Err NameError) (lu A0) (lu A1) F0 F1 eq_refl eq_refl C0 C1) as [B [HBv KK]]. specialize (HBv Y0 Y1).
  destruct (C77_solve_1d 1 32 gauss3 E ltac:(lia) ltac:(lia) Hb gauss3_rule Hc HE eq_refl (fun _ => 1) (fun _ _ => 0) 0%nat) as [s2 [b2 [E1 [UA _]]]].
  rewrite D1 in E1. injection E1 as <- <-. cbv zeta in UA. fold P in UA, KK.
  pose proof (only_zero P E gamma_shipped (fun _ => 0) Hc ltac:(cbn; lra) HE eq_refl UA) as Inj.
  destruct (C74_attained P E gamma_shipped (fun _ => 0) B Hc ltac:(cbn; lra) HE eq_refl HBv Inj (s_heap s1 b) (S (krylov_rank P D)) (Nat.lt_succ_diag_r _)) as [x [Hx _]].
  set (ext := fun (_ : kspcfg) (_ _ xa : nat) => KWrite xa x (Halt (mkOut 2 0 vzero))).
  destruct (C49_configuration (fun _ => None) 100000 (Some 1e-7) None true None) as [db' Hcf]; [repeat split| |].
  { unfold accepted, default. decimals. repeat split; try lia; try (left; lra); try (right; lra); try lra. }
  match type of Hcf with _ = Ok (?k0, _) => set (k := k0) in * end. clearbody k.
  destruct (KK ext (fun _ _ => 0) (fun _ => nil) (fun _ => None) (S b) k db' (Nat.neq_succ_diag_r b) Hcf Logic.I (conj (Nat.neq_succ_diag_l b) Logic.I)) as [s' [R1 [_ R3]]].
  assert (O1 : forall h, snd (pure_ksp (st_op P E gamma_shipped (fun _ => 0)) B (dimF E) (ext k (dimF E) b (S b)) h) (S b) = x).
  { intro h. cbn [ext pure_ksp snd]. unfold upd. rewrite Nat.eqb_refl. reflexivity. }
  rewrite O1 in R3.
  destruct (R3 Y0 Y1 (S (krylov_rank P D))) as [Sol [_ Er]]; [|exact Hx|].
  { unfold krylov_rank. change (p_wp P) with false. change (p_N P) with 32%nat. change (d_dim D Vp) with (S (5 * 32 * 1)).
    rewrite Nat.add_0_r. replace (S (5 * 32 * 1)) with (5 * 32 * 1 + 1)%nat by lia. apply Nat.lt_succ_diag_r. }
  set (s0 := init_state true (fun _ => 1) (fun _ => s_heap s' (S b)) 0%nat). set (s := w_fes true s0).
  assert (Hnn : nonneg_dx (e_D E)).
  { intros p Hp. pose proof (mesh_1d 1 32 gauss3 ltac:(lia) ltac:(lia) gauss3_rule) as HM.
    exact (rg_w _ _ (C75_regular _ _ _ _ _ _ (fun _ => 0) HM ltac:(intros; lra)) Dx p Hp). }
  destruct (C46_total_nonnegative P E 0 s Hc HE ltac:(cbn; lra) Hnn eq_refl) as [r [s'' [Me _]]].
  exists E, s1, b, lu, ext, (S b), s', s, r, s''. cbv zeta. fold P. fold D.
  split; [exact gauss3_rule|]. split; [exact Hc|]. split; [exact HE|]. split; [reflexivity|]. split; [exact D1|].
  split; [exact R1|]. split; [reflexivity|]. split; [reflexivity|]. split; [exact Me|].
  destruct (Er s 0%nat r s'' eq_refl eq_refl Me) as [Q1 Q2].
  assert (G : gap_1d 1 32 <= 1 / 1000) by (unfold gap_1d; cbn [Nat.eqb]; replace (INR 32) with 32 by (cbn; lra); decimals; lra).
  assert (S2 : 0.701 < sqrt (1 / 2)).
  { assert (P0 : 0 <= 0.701) by (decimals; lra). rewrite <- (sqrt_Rsqr _ P0). apply sqrt_lt_1_alt. unfold Rsqr. decimals. lra. }
  apply Rabs_le_between in Q1, Q2. set (v := sqrt (1 / 2)) in *. clearbody v. decimals. lra.
Qed.

Print Assumptions C78_smoke_test.
Print Assumptions C78_smoke_nonvacuous.
