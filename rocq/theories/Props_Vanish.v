(** Props_Vanish.v -- property C77: what the drivers deliver when the right-hand side has no data.

    The operator given to GMRES is bounded below in the energy of C69, so its solution for
    the right-hand side of a fitted domain (C64: 1e-20 times some integrals) is as good as
    zero.  The errors that solve_1d.py reports are therefore the norms of the exact
    solution itself, up to a bound far below the accuracy of the method. *)
From Coq Require Import Reals List ZArith Lra Lia Bool String.
From Coquelicot Require Import Coquelicot.
From Verif Require Import Base TimeModel TimeSpec TimeProofs QuadProofs FormModel FormSpec FormProofs
  SpaceTimeForms FormBlocks GuardProofs FormTime FormC12 FormSym FormStruct FormWf FormExample Props_Forms
  SpaceTimeModel SlabOps ApplyProofs MarchProofs MarchSum Lifecycle LifeProofs OpsProofs LinAlg WellPosed Injective Props_Ops
  GmresModel Props_Gmres DriverModel DriverConfig Props_Solve Props_WellPosed Stability Props_Stability Observe Props_Observe Delivered
  Props_Krylov Props_Config Space1D NoData Elliptic1D Props_Space1D ErrorsModel ErrorsSpec ErrorsProofs Props_Errors Vanish.
Import ListNotations.
Open Scope R_scope.

(** L2 norm, at the quadrature points, of the exact solution at a time *)
Definition exact_norm (P : params) (D : disc) (t : R) : R := sqrt (Rsum (d_pts D Dx) (fun p => d_w D Dx p * p_v P t (d_x D p) ^ 2)).
(** square of a bound for the solution without data: [ar] area, [F] the factor of C76 *)
Definition tiny2 (g : gammas) (dt ar F : R) : R := 9216 * 1e-20 ^ 2 * ar * F / (g_primal g * g_dual g * dt ^ 2).
(** what C77 assumes of the spatial discretisation and the parameters *)
Record elliptic_setting (P : params) (E : env) (g : gammas) (om : nat -> R) (K H : R) : Prop := {
  es_c : construct P = Ok (e_c E); es_T : 0 < p_T P; es_env : env_ok E; es_j : p_jumps P = false; es_w : p_wp P = false;
  es_r : regular (e_D E) om; es_K0 : 0 < K; es_K : elliptic_bound (e_D E) (5 * INR (p_k P) ^ 2) K;
  es_h : forall p, In p (d_pts (e_D E) Dx) -> d_h (e_D E) Dx p <= H;
  es_g1 : 0 <= g_data g; es_g2 : 0 < g_dual g; es_g3 : 0 < g_primal g; es_g4 : 0 <= g_jump g;
  es_k : 256 * 1e-20 ^ 2 * factor (Z.to_nat (p_q P)) (t_dt (tgrid P)) K H <= g_primal g * g_dual g * t_dt (tgrid P) ^ 2 }.

(** the operator handed to GMRES: energy of x by the product with the flipped x *)
Theorem C77_delivered_stability : forall P E g om K H, elliptic_setting P E g om K H -> forall x x', flipped (e_c E) (e_D E) (e_Lf E) x x' ->
  enorm2 P g om (e_D E) (field_of (e_Lf E) x) <= 2 * dotn (dimF E) x' (st_op P E g om x).
Proof.
  intros P E g om K H [H1 H2 H3 H4 H5 H6 H7 H8 H9 G1 G2 G3 G4 Hk] x x' HF. rewrite (tgrid_dt P (e_c E) H1) in Hk at 2.
  rewrite (dot_st_op P E g om H1 H2 H3 H4 x x' HF). apply (del_stable P E g om K H); assumption.
Qed.
(** any solution for the right-hand side without data is tiny, at every time *)
Theorem C77_no_data_no_solution : forall P E g om K H, elliptic_setting P E g om K H ->
  forall v x, is_rhs E (fun _ => 0) v -> veq (dimF E) (st_op P E g om x) v ->
  forall n t, (n < p_N P)%nat -> within (tgrid P) n t ->
  let U := field_of (e_Lf E) x in let F := factor (Z.to_nat (p_q P)) (t_dt (tgrid P)) K H in
  let ar := Rsum (d_pts (e_D E) Dx) (d_w (e_D E) Dx) in
  L2 (e_D E) Vp Vp (at_time (tgrid P) U 0 n t) (at_time (tgrid P) U 0 n t) <= tiny2 g (t_dt (tgrid P)) ar F /\
  L2 (e_D E) Vp Vp (recon (tgrid P) U n t) (recon (tgrid P) U n t) <= tiny2 g (t_dt (tgrid P)) ar F.
Proof.
  intros P E g om K H [H1 H2 H3 H4 H5 H6 H7 H8 H9 G1 G2 G3 G4 Hk] v x Hv Hx n t Hn Ht U F ar. rewrite (tgrid_dt P (e_c E) H1) in Hk at 2.
  pose proof (construct_inv _ _ H1) as HB. rewrite <- (bu_NP _ _ HB) in Hn. rewrite <- (tgrid_td _ _ H1) in Ht.
  pose proof (dt_pos _ _ H1 H2) as Hdt.
  assert (Fp : 0 < F) by (apply (fa_pos P E K H H1 H2 H7)).
  assert (Ap : 0 <= ar) by (apply Rsum_nonneg; intros p Hp; exact (rg_w _ _ H6 Dx p Hp)).
  split.
  - pose proof (at_small P E g om K H H1 H2 H4 H5 H6 H7 H8 H9 G1 G2 G3 G4 U n t Hn Ht) as B.
    pose proof (small P E g om K H H1 H2 H3 H4 H5 H6 H7 H8 H9 G1 G2 G3 G4 Hk v x Hv Hx) as S0. fold U in S0. fold F in B.
    rewrite (tgrid_td _ _ H1) in B. eapply Rle_trans; [exact B|]. unfold tiny2. rewrite (tgrid_dt P (e_c E) H1).
    apply (Rle_trans _ (16 / c_dt (e_c E) * (F / g_primal g * (64 * 1e-20 ^ 2 * ar / (g_dual g * c_dt (e_c E)))))).
    + apply Rmult_le_compat_l; [apply Rlt_le, Rdiv_lt_0_compat; lra|]. apply Rmult_le_compat_l; [apply Rlt_le, Rdiv_lt_0_compat; lra|exact S0].
    + set (r2 := 1e-20 ^ 2) in *. assert (R0 : 0 <= r2) by apply pow2_ge_0. clearbody r2.
      replace (16 / c_dt (e_c E) * (F / g_primal g * (64 * r2 * ar / (g_dual g * c_dt (e_c E)))))
        with (1024 * (r2 * ar * F / (g_primal g * g_dual g * c_dt (e_c E) ^ 2))) by (field; repeat split; lra).
      replace (9216 * r2 * ar * F / (g_primal g * g_dual g * c_dt (e_c E) ^ 2))
        with (9216 * (r2 * ar * F / (g_primal g * g_dual g * c_dt (e_c E) ^ 2))) by (field; repeat split; lra).
      apply Rmult_le_compat_r; [|lra]. apply Rdiv_le_0_compat.
      * apply Rmult_le_pos; [apply Rmult_le_pos; lra|lra].
      * apply Rmult_lt_0_compat; [apply Rmult_lt_0_compat; lra|apply pow_lt, Hdt].
  - pose proof (recon_vanishes P E g om K H H1 H2 H3 H4 H5 H6 H7 H8 H9 G1 G2 G3 G4 Hk v x n t Hv Hx Hn Ht) as B.
    rewrite (tgrid_td _ _ H1) in B. fold U F in B. unfold tiny2. rewrite (tgrid_dt P (e_c E) H1). eapply Rle_trans; [|exact B].
    right. rewrite L2_pts. unfold dist2. apply Rsum_ext; intro p. ring.
Qed.
(** the reported errors are the norms of the exact solution *)
Theorem C77_errors : forall P E g om K H, elliptic_setting P E g om K H ->
  forall v x u s r s', is_rhs E (fun _ => 0) v -> veq (dimF E) (st_op P E g om x) v -> s_heap s u = x -> s_fes s = true ->
  measured_errors E u s = (Ok r, s') ->
  let de := sqrt (tiny2 g (t_dt (tgrid P)) (Rsum (d_pts (e_D E) Dx) (d_w (e_D E) Dx)) (factor (Z.to_nat (p_q P)) (t_dt (tgrid P)) K H)) in
  Rabs (er_T r - exact_norm P (e_D E) (p_T P)) <= de /\
  (forall i, (i <= 104)%nat -> exact_norm P (e_D E) (sample P i) - de <= er_inf r) /\
  (exists i, (i <= 104)%nat /\ Rabs (er_inf r - exact_norm P (e_D E) (sample P i)) <= de).
Proof.
  intros P E g om K H HS v x u s r s' Hv Hx Hu Hf Hm de.
  pose proof (C77_no_data_no_solution P E g om K H HS v x Hv Hx) as V. destruct HS as [H1 H2 H3 H4 H5 H6 H7 H8 H9 G1 G2 G3 G4 Hk].
  assert (Hnn : nonneg_dx (e_D E)) by (intros p Hp; exact (rg_w _ _ H6 Dx p Hp)).
  assert (Q : forall n t, (n < p_N P)%nat -> within (tgrid P) n t -> Rabs (e_at P E u s n t - exact_norm P (e_D E) t) <= de).
  { intros n t Hn Ht. destruct (V n t Hn Ht) as [_ B]. cbv zeta in B. unfold e_at, err2, exact_norm. rewrite Hu.
    eapply Rle_trans; [apply (dist2_triangle (e_D E) (fun p => fev (e_D E) Dx Vp Val (recon (tgrid P) (field_of (e_Lf E) x) n t) p 0) (fun p => p_v P t (d_x (e_D E) p)) Hnn)|].
    unfold de. apply sqrt_le_1_alt. eapply Rle_trans; [|exact B]. right. rewrite L2_pts. unfold dist2. apply Rsum_ext; intro p. ring. }
  destruct (C45_maximum P E u s r s' H1 H3 H2 Hnn Hf Hm) as [[e [A1 [A2 [[i0 [Hi0 A3]] [A4 _]]]]] _].
  assert (SW : forall t, 0 <= t <= p_T P -> exists n, (n < p_N P)%nat /\ within (tgrid P) n t).
  { intros t Ht. pose proof (construct_inv _ _ H1) as HB. destruct (some_slab P E HB H2 t Ht) as [n [Hn Hwt]].
    exists n. rewrite <- (bu_NP _ _ HB), <- (tgrid_td _ _ H1). split; assumption. }
  assert (Qe : forall t, 0 <= t <= p_T P -> Rabs (e t - exact_norm P (e_D E) t) <= de).
  { intros t Ht. destruct (SW t Ht) as [n [Hn Hwt]]. rewrite <- (A1 n t Hn Hwt). apply Q; assumption. }
  split; [rewrite A4; apply Qe; lra|]. split.
  - intros i Hi. pose proof (Qe _ (sample_in P H2 i Hi)) as B. apply Rabs_le_between in B. specialize (A2 i Hi). unfold sample in *. lra.
  - exists i0. split; [exact Hi0|]. rewrite <- A3. apply Qe. apply sample_in; assumption.
Qed.

(** * solve_1d.py *)
(** bound for the distance between reported errors and norms of the exact solution *)
Definition gap_1d (o N : nat) : R := if Nat.eqb o 1 then 4e-15 * INR N ^ 2 else 7e-12 * INR N ^ 4.
Lemma setting_1d_elliptic o N qp om E : (1 <= o <= 3)%nat -> (1 <= N)%nat -> (Z.of_nat N <= slabs_1d o)%Z -> rule_ok o qp -> (forall p, 0 <= om p) ->
  construct (st_params (setting_1d o N)) = Ok (e_c E) -> env_ok E -> e_D E = disc_1d o N qp ->
  elliptic_setting (st_params (setting_1d o N)) E gamma_shipped om (27 * INR (5 * N) ^ 2) (/ INR (5 * N)) /\
  sqrt (tiny2 gamma_shipped (t_dt (tgrid (st_params (setting_1d o N)))) 1
    (factor (Z.to_nat (p_q (st_params (setting_1d o N)))) (t_dt (tgrid (st_params (setting_1d o N)))) (27 * INR (5 * N) ^ 2) (/ INR (5 * N)))) <= gap_1d o N.
Proof.
  intros Ho HN Hb Hr Hom Hc HE HD. pose proof (mesh_1d o N qp ltac:(lia) HN Hr) as HM.
  set (P := st_params (setting_1d o N)) in *.
  assert (N1 : 1 <= INR N) by (change 1 with (INR 1); apply le_INR, HN).
  assert (E5 : INR (5 * N) = 5 * INR N) by (rewrite mult_INR; cbn [INR]; ring).
  assert (Edt : t_dt (tgrid P) = / INR N) by (unfold tgrid, P; cbn [t_dt p_T p_N setting_1d st_params driver_params]; unfold Rdiv; ring).
  assert (F : factor (Z.to_nat (p_q P)) (t_dt (tgrid P)) (27 * INR (5 * N) ^ 2) (/ INR (5 * N)) = 16605 * INR N ^ 2 * (if Nat.leb o 1 then 1 else 1 + 2624400 * INR N ^ 4)).
  { change (p_q P) with (Z.of_nat o). rewrite Nat2Z.id, Edt, E5. unfold factor. destruct (Nat.leb o 1); field; lra. }
  assert (R2 : 1e-20 ^ 2 = / 10 ^ 40) by (decimals; field).
  split.
  - constructor; try assumption.
    + cbn; lra.
    + reflexivity.
    + reflexivity.
    + rewrite HD. exact (C75_regular _ _ _ _ _ _ om HM Hom).
    + rewrite E5. assert (0 < (5 * INR N) ^ 2) by (apply pow_lt; lra). lra.
    + rewrite HD. apply (unit_elliptic (5 * N) o 1 qp (2 * o + 3)); [exact HM|lia|]. change (p_k P) with o.
      assert (1 <= INR o) by (change 1 with (INR 1); apply le_INR; lia). assert (1 <= INR o ^ 2) by (apply pow_R1_Rle; assumption). lra.
    + rewrite HD. intros p Hp. apply (cells_h (5 * N) o 1 qp); [lia|exact Hp].
    + cbn [g_data gamma_shipped]. lra.
    + cbn [g_dual gamma_shipped]. lra.
    + cbn [g_primal gamma_shipped]. lra.
    + cbn [g_jump gamma_shipped]. lra.
    + rewrite F, Edt. cbn [g_primal g_dual gamma_shipped]. pose proof (bigN N _ Hb) as Hbig. set (x := INR N) in *. clearbody x. unfold slabs_1d in Hbig.
      replace (1 / 1000 * 1 * (/ x) ^ 2) with (/ (1000 * x ^ 2)) by (field; lra). assert (X2 : 0 < x ^ 2) by (apply pow_lt; lra).
      apply (Rmult_le_reg_r (1000 * x ^ 2)); [lra|]. rewrite Rinv_l by lra. rewrite R2. destruct (Nat.eqb_spec o 1) as [->|Hne].
      * change (Nat.leb 1 1) with true. cbv iota. assert (X4 : 0 < x ^ 4 <= 1000000 ^ 4) by (split; [apply pow_lt; lra|apply pow_incr; lra]).
        set (y := x ^ 4) in *. match goal with |- ?a <= 1 => replace a with (256 * / 10 ^ 40 * 16605 * 1000 * y) by (unfold y; ring) end. lra.
      * assert (Nat.leb o 1 = false) as -> by (apply Nat.leb_gt; lia).
        assert (X4 : 0 < x ^ 4 <= 512 ^ 4) by (split; [apply pow_lt; lra|apply pow_incr; lra]).
        assert (X8 : 0 < x ^ 8 <= 512 ^ 8) by (split; [apply pow_lt; lra|apply pow_incr; lra]).
        match goal with |- ?a <= 1 => replace a with (256 * / 10 ^ 40 * 16605 * 1000 * (x ^ 4 + 2624400 * x ^ 8)) by ring end. lra.
  - rewrite F, Edt. unfold tiny2, gap_1d. rewrite R2. cbn [g_primal g_dual gamma_shipped]. set (x := INR N) in *. clearbody x.
    assert (X4 : 1 <= x ^ 4) by (apply pow_R1_Rle, N1). assert (X8 : x ^ 4 <= x ^ 8) by (replace (x ^ 8) with (x ^ 4 * x ^ 4) by ring; rewrite <- (Rmult_1_l (x ^ 4)) at 1; apply Rmult_le_compat_r; lra).
    destruct (Nat.eqb_spec o 1) as [->|Hne].
    + change (Nat.leb 1 1) with true. cbv iota.
      assert (P0 : 0 <= 4e-15 * x ^ 2) by (pose proof (pow2_ge_0 x); decimals; lra).
      rewrite <- (sqrt_Rsqr _ P0). apply sqrt_le_1_alt. unfold Rsqr.
      assert (D1 : 4e-15 = 4 / 10 ^ 15) by (decimals; field). rewrite D1.
      match goal with |- ?a <= ?b => replace a with (9216 * / 10 ^ 40 * 16605 * 1000 * x ^ 4) by (field; lra); replace b with ((4 / 10 ^ 15) ^ 2 * x ^ 4) by ring end. lra.
    + assert (Nat.leb o 1 = false) as -> by (apply Nat.leb_gt; lia).
      assert (P0 : 0 <= 7e-12 * x ^ 4) by (decimals; lra).
      rewrite <- (sqrt_Rsqr _ P0). apply sqrt_le_1_alt. unfold Rsqr.
      assert (D1 : 7e-12 = 7 / 10 ^ 12) by (decimals; field). rewrite D1.
      match goal with |- ?a <= ?b => replace a with (9216 * / 10 ^ 40 * 16605 * 1000 * (x ^ 4 + 2624400 * x ^ 8)) by (field; lra); replace b with ((7 / 10 ^ 12) ^ 2 * x ^ 8) by ring end. lra.
Qed.
Lemma area_1d o N qp : (1 <= o)%nat -> (1 <= N)%nat -> rule_ok o qp ->
  Rsum (d_pts (disc_1d o N qp) Dx) (d_w (disc_1d o N qp) Dx) = 1.
Proof.
  intros Ho HN Hr. pose proof (mesh_1d o N qp Ho HN Hr) as [Hn Hx Hkp Hkd Hq Hw He].
  assert (E1 : Rsum (d_pts (disc_1d o N qp) Dx) (d_w (disc_1d o N qp) Dx) = integ (disc_1d o N qp) Dx WOne 1 (fun _ _ => 1) (fun _ _ => 1)).
  { unfold integ. apply Rsum_ext; intro p. cbn [seq wval]. rewrite Rsum_cons, Rsum_nil. ring. }
  rewrite E1. unfold disc_1d. rewrite integ_cells by (first [exact Hq|intros; reflexivity]).
  rewrite (Rsum_ext_in (seq 0 (5 * N)) _ (fun _ => / INR (5 * N))).
  - assert (RC : forall m k, Rsum (seq k m) (fun _ => / INR (5 * N)) = INR m * / INR (5 * N)).
    { induction m as [|m IH]; intro k; [cbn [seq INR]; rewrite Rsum_nil; ring|]. cbn [seq]. rewrite Rsum_cons, IH, S_INR. ring. }
    rewrite RC. apply Rinv_r. apply not_0_INR. lia.
  - intros c Hc. apply in_seq in Hc. rewrite <- (unit_len (5 * N) c) by lia. fold (len (unit_vertex (5 * N)) c).
    rewrite (Rsum_ext _ _ (fun j => len (unit_vertex (5 * N)) c * (qw qp j * 1))) by (intro; ring). rewrite Rsum_scal.
    replace (sumn (List.length qp) (fun j => qw qp j * 1)) with 1; [ring|].
    pose proof (rule_sum qp (peval [1])) as RS. rewrite (He [1] ltac:(cbn; lia)) in RS.
    rewrite (Rsum_ext (seq 0 (List.length qp)) _ (fun j => qw qp j * 1)) in RS by (intro j; cbn; ring). rewrite <- RS.
    symmetry. apply (is_RInt_unique (V := R_CompleteNormedModule)). apply (is_RInt_ext (fun _ => 1)); [intros; cbn; ring|].
    replace 1 with (scal (1 - 0) 1) at 2 by (unfold scal; cbn; unfold mult; cbn; ring). apply (is_RInt_const (V := R_NormedModule)).
Qed.
(** For orders 1 to 3 and every number of slabs in the range of C76: the set-up succeeds; the
    system handed to GMRES has exactly one solution for any right-hand side; the errors
    measured for the solution of the driver's system are norms of the exact solution, whatever
    that solution and whatever the data domain. *)
Theorem C77_solve_1d : forall o N qp E, (1 <= o <= 3)%nat -> (1 <= N)%nat -> (Z.of_nat N <= slabs_1d o)%Z -> rule_ok o qp ->
  let P := st_params (setting_1d o N) in
  construct P = Ok (e_c E) -> env_ok E -> e_D E = disc_1d o N qp ->
  forall ind heap next, exists s1 b, driver_setup E (init_state true ind heap next) = (Ok (Some b), s1) /\
  let A := st_op P E gamma_shipped (fun _ => 0) in
  (forall v, exists x, veq (dimF E) (A x) v /\ forall x', veq (dimF E) (A x') v -> veq (dimF E) x' x) /\
  forall x u s r s', veq (dimF E) (A x) (s_heap s1 b) -> s_heap s u = x -> s_fes s = true -> measured_errors E u s = (Ok r, s') ->
  Rabs (er_T r - exact_norm P (e_D E) (p_T P)) <= gap_1d o N /\
  (forall i, (i <= 104)%nat -> exact_norm P (e_D E) (sample P i) - gap_1d o N <= er_inf r) /\
  (exists i, (i <= 104)%nat /\ Rabs (er_inf r - exact_norm P (e_D E) (sample P i)) <= gap_1d o N).
Proof.
  intros o N qp E Ho HN Hb Hr P Hc HE HD ind heap next.
  pose proof (shipped_1d o N Ho HN) as HS. destruct (C73_accepted Driver1D _ HS) as [_ [_ [_ [c [Hc' HA]]]]].
  fold P in HA, Hc'. rewrite Hc in Hc'. injection Hc' as Ec.
  destruct (HA E ind heap next Ec) as [_ [s1 [b [D1 [D2 _]]]]]. change (st_fitted (setting_1d o N)) with true in *. cbv iota in D2.
  exists s1, b. split; [exact D1|]. intro A.
  destruct (setting_1d_elliptic o N qp (fun _ => 0) E Ho HN Hb Hr ltac:(intros; lra) Hc HE HD) as [HEs Hgap]. fold P in HEs, Hgap.
  split.
  - pose proof (mesh_1d o N qp ltac:(lia) HN Hr) as HM.
    destruct (control_1d o N qp (fun _ => 0) Ho HN Hb Hr ltac:(intros; lra)) as [ka [Hct Hka]]. fold P in Hct. rewrite <- HD in Hct.
    destruct HEs as [H1 H2 H3 H4 H5 H6 H7 H8 H9 G1 G2 G3 G4 Hk].
    assert (Dp : definite (e_D E) Vp) by (rewrite HD; apply (C75_definite _ _ _ _ _ _ Vp HM); cbn [dg]; lia).
    assert (Dd : definite (e_D E) Vd) by (rewrite HD; apply (C75_definite _ _ _ _ _ _ Vd HM); cbn [dg]; lia).
    assert (R2 : 0 < 1e-20 ^ 2) by (decimals; lra).
    assert (Hkk : 4 * 1e-20 ^ 2 < ka * g_dual gamma_shipped) by (eapply Rlt_le_trans; [|exact Hka]; lra).
    assert (US : uniquely_solvable (lay_dim (e_Lf E)) (assemble (e_D E) (e_Lf E) (del_form E gamma_shipped (fun _ => 0)))).
    { apply injective_unique. intros x Hx i Hi.
      refine (st_op_inj P E gamma_shipped (fun _ => 0) H1 H2 H3 H4 ka H6 Dp Dd G1 G2 G3 G4 Hct Hkk x _ i Hi).
      intros I HI. rewrite (st_op_form P E gamma_shipped (fun _ => 0) H1 H2 H3 H4). apply Hx, HI. }
    intro v. destruct (US v) as [x [X1 X2]]. exists x. split.
    + intros I HI. unfold A. rewrite (st_op_form P E gamma_shipped (fun _ => 0) H1 H2 H3 H4). apply X1, HI.
    + intros x' Hx' i Hi. apply X2; [|exact Hi]. intros I HI. rewrite <- (Hx' I HI). unfold A. symmetry.
      apply (st_op_form P E gamma_shipped (fun _ => 0) H1 H2 H3 H4).
  - intros x u s r s' Hx Hu Hf Hm.
    destruct (C77_errors P E gamma_shipped (fun _ => 0) _ _ HEs (s_heap s1 b) x u s r s' D2 Hx Hu Hf Hm) as [B1 [B2 [i [Hi B3]]]]. cbv zeta in *.
    assert (Ar : Rsum (d_pts (e_D E) Dx) (d_w (e_D E) Dx) = 1) by (rewrite HD; apply area_1d; [lia|exact HN|exact Hr]).
    rewrite Ar in B1, B2, B3.
    split; [eapply Rle_trans; [exact B1|exact Hgap]|]. split.
    + intros j Hj2. eapply Rle_trans; [|apply (B2 j Hj2)]. lra.
    + exists i. split; [exact Hi|]. eapply Rle_trans; [exact B3|exact Hgap].
Qed.

(** ** the norms of the exact solution of solve_1d.py *)
Lemma cos_progression : forall n a b, 2 * sin (b / 2) * sumn n (fun c => cos (a + INR c * b)) = sin (a + INR n * b - b / 2) - sin (a - b / 2).
Proof.
  induction n as [|n IH]; intros a b.
  - cbn [seq]. rewrite Rsum_nil. cbn [INR]. replace (a + 0 * b - b / 2) with (a - b / 2) by ring. ring.
  - rewrite seq_S, Rsum_app, Rmult_plus_distr_l, IH, Rsum_cons, Rsum_nil. cbn [Nat.add].
    rewrite S_INR. replace (a + (INR n + 1) * b - b / 2) with (a + INR n * b + b / 2) by field.
    rewrite (sin_plus (a + INR n * b) (b / 2)), (sin_minus (a + INR n * b) (b / 2)). ring.
Qed.
Lemma full_period n a : (3 <= n)%nat -> sumn n (fun c => cos (a + INR c * (4 * PI / INR n))) = 0.
Proof.
  intro Hn. assert (N3 : 3 <= INR n) by (replace 3 with (INR 3) by (cbn; lra); apply le_INR, Hn). pose proof PI_RGT_0 as HP.
  pose proof (cos_progression n a (4 * PI / INR n)) as E.
  replace (a + INR n * (4 * PI / INR n) - 4 * PI / INR n / 2) with (a - 4 * PI / INR n / 2 + 2 * INR 2 * PI) in E by (cbn [INR]; field; lra).
  rewrite sin_period in E.
  assert (Hs : 0 < sin (4 * PI / INR n / 2)).
  { apply sin_gt_0; [apply Rdiv_lt_0_compat; [apply Rdiv_lt_0_compat|]; lra|].
    apply (Rmult_lt_reg_r (INR n)); [lra|]. replace (4 * PI / INR n / 2 * INR n) with (2 * PI) by (field; lra).
    rewrite (Rmult_comm 2). apply Rmult_lt_compat_l; lra. }
  apply (Rmult_eq_reg_l (2 * sin (4 * PI / INR n / 2))); [|lra]. rewrite E. ring.
Qed.
Lemma rule_one qp o : rule_ok o qp -> sumn (List.length qp) (fun j => qw qp j) = 1.
Proof.
  intros [A B C]. pose proof (rule_sum qp (peval [1])) as RS. rewrite (C [1] ltac:(cbn; lia)) in RS.
  rewrite (Rsum_ext (seq 0 (List.length qp)) _ (fun j => qw qp j)) in RS by (intro j; cbn; ring). rewrite <- RS.
  apply (is_RInt_unique (V := R_CompleteNormedModule)). apply (is_RInt_ext (fun _ => 1)); [intros; cbn; ring|].
  replace 1 with (scal (1 - 0) 1) at 2 by (unfold scal; cbn; unfold mult; cbn; ring). apply (is_RInt_const (V := R_NormedModule)).
Qed.
(** mean square of sin(2 pi x) over the quadrature points: exactly 1/2, for any rule *)
Lemma sine_half o N qp : (1 <= N)%nat -> rule_ok o qp ->
  Rsum (d_pts (disc_1d o N qp) Dx) (fun p => d_w (disc_1d o N qp) Dx p * sin (2 * PI * nth 0 (d_x (disc_1d o N qp) p) 0) ^ 2) = 1 / 2.
Proof.
  intros HN Hr. pose proof (ru_some _ _ Hr) as Hq. set (n := (5 * N)%nat). set (m := List.length qp).
  assert (Np : 0 < INR n) by (apply lt_0_INR; unfold n; lia).
  assert (E1 : Rsum (d_pts (disc_1d o N qp) Dx) (fun p => d_w (disc_1d o N qp) Dx p * sin (2 * PI * nth 0 (d_x (disc_1d o N qp) p) 0) ^ 2)
    = sumn n (fun c => sumn m (fun j => / INR n * (qw qp j * sin (2 * PI * (INR c / INR n + / INR n * qs qp j)) ^ 2)))).
  { unfold disc_1d. cbn [d_pts disc1]. fold n. fold m. rewrite sumn_mult. apply sumn_ext; intros c Hc. apply sumn_ext; intros j Hj.
    cbn [d_w d_x disc1 nth]. fold m. rewrite Nat.div_add_l, Nat.div_small, Nat.add_0_r by lia.
    rewrite (Nat.add_comm (c * m)), Nat.mod_add, Nat.mod_small by lia. unfold len. rewrite unit_len by (unfold n; lia). unfold unit_vertex. ring. }
  rewrite E1. clear E1.
  rewrite (Rsum_ext _ _ (fun c => sumn m (fun j => / INR n * qw qp j * (1 / 2 + - (1 / 2) * cos (4 * PI / INR n * qs qp j + INR c * (4 * PI / INR n)))))).
  2: { intro c. apply Rsum_ext; intro j. set (y := 2 * PI * (INR c / INR n + / INR n * qs qp j)).
    replace (4 * PI / INR n * qs qp j + INR c * (4 * PI / INR n)) with (2 * y) by (unfold y; field; lra).
    rewrite cos_2a_sin. fold y. field. lra. }
  rewrite Rsum_swap.
  rewrite (Rsum_ext _ _ (fun j => 1 / 2 * qw qp j)).
  - rewrite Rsum_scal. etransitivity; [apply Rmult_eq_compat_l; exact (rule_one qp o Hr)|ring].
  - intro j. rewrite Rsum_scal, Rsum_plus, Rsum_scal, (full_period n) by (unfold n; lia).
    assert (RC : forall k i, Rsum (seq i k) (fun _ => 1 / 2) = INR k * (1 / 2)).
    { induction k as [|k IH]; intro i; [cbn [seq INR]; rewrite Rsum_nil; ring|]. cbn [seq]. rewrite Rsum_cons, IH, S_INR. ring. }
    rewrite RC. field. lra.
Qed.
Lemma exact_norm_1d o N qp t : (1 <= N)%nat -> rule_ok o qp ->
  exact_norm (st_params (setting_1d o N)) (disc_1d o N qp) t = sqrt (cos (2 * PI * t) ^ 2 / 2).
Proof.
  intros HN Hr. unfold exact_norm. f_equal.
  rewrite (Rsum_ext _ _ (fun p => cos (2 * PI * t) ^ 2 * (d_w (disc_1d o N qp) Dx p * sin (2 * PI * nth 0 (d_x (disc_1d o N qp) p) 0) ^ 2))).
  - rewrite Rsum_scal, (sine_half o N qp HN Hr). field.
  - intro p. change (p_v (st_params (setting_1d o N))) with sample_sol_1d. unfold sample_sol_1d. ring.
Qed.
(** the errors reported by solve_1d.py for its own solution: 1/sqrt 2 at the final time and
    1/sqrt 2 in the maximum, for every order and every number of slabs in the range *)
Theorem C77_reported : forall o N qp E, (1 <= o <= 3)%nat -> (1 <= N)%nat -> (Z.of_nat N <= slabs_1d o)%Z -> rule_ok o qp ->
  let P := st_params (setting_1d o N) in
  construct P = Ok (e_c E) -> env_ok E -> e_D E = disc_1d o N qp ->
  forall ind heap next s1 b, driver_setup E (init_state true ind heap next) = (Ok (Some b), s1) ->
  forall x u s r s', veq (dimF E) (st_op P E gamma_shipped (fun _ => 0) x) (s_heap s1 b) -> s_heap s u = x -> s_fes s = true -> measured_errors E u s = (Ok r, s') ->
  Rabs (er_T r - sqrt (1 / 2)) <= gap_1d o N /\ Rabs (er_inf r - sqrt (1 / 2)) <= gap_1d o N.
Proof.
  intros o N qp E Ho HN Hb Hr P Hc HE HD ind heap next s1 b Hs x u s r s' Hx Hu Hf Hm.
  destruct (C77_solve_1d o N qp E Ho HN Hb Hr Hc HE HD ind heap next) as [s2 [b2 [D1 [_ H]]]]. rewrite Hs in D1. injection D1 as <- <-.
  destruct (H x u s r s' Hx Hu Hf Hm) as [B1 [B2 [i [Hi B3]]]]. clear H. fold P in B1, B2, B3. rewrite HD in B1, B2, B3.
  unfold P in B1, B2, B3. rewrite exact_norm_1d in B1 by assumption. rewrite exact_norm_1d in B3 by assumption.
  assert (C1 : cos (2 * PI * p_T (st_params (setting_1d o N))) ^ 2 / 2 = 1 / 2).
  { change (p_T (st_params (setting_1d o N))) with 1. rewrite Rmult_1_r, cos_2PI. field. }
  rewrite C1 in B1. split; [exact B1|].
  specialize (B2 0%nat ltac:(lia)). rewrite exact_norm_1d in B2 by assumption.
  assert (C0 : cos (2 * PI * sample (st_params (setting_1d o N)) 0) ^ 2 / 2 = 1 / 2).
  { unfold sample. cbn [INR]. rewrite Rmult_0_l, Rmult_0_r, cos_0. field. }
  rewrite C0 in B2. set (y := 2 * PI * sample (st_params (setting_1d o N)) i) in *.
  assert (C2 : sqrt (cos y ^ 2 / 2) <= sqrt (1 / 2)).
  { apply sqrt_le_1_alt. pose proof (COS_bound y) as [Y1 Y2]. assert (cos y ^ 2 <= 1); [|lra].
    replace 1 with (1 * 1) by ring. cbn [pow]. rewrite Rmult_1_r.
    destruct (Rle_dec 0 (cos y)); [apply Rmult_le_compat; lra|]. replace (cos y * cos y) with (- cos y * - cos y) by ring. apply Rmult_le_compat; lra. }
  apply Rabs_le_between in B3. apply Rabs_le_between. lra.
Qed.
(** the gap is far below 1/sqrt 2 for the numbers of slabs in the driver's studies *)
Example C77_nonvacuous : forall N, (1 <= N <= 128)%nat -> exists E u s r s', let P := st_params (setting_1d 1 N) in
  (Z.of_nat N <= slabs_1d 1)%Z /\ rule_ok 1 gauss3 /\ construct P = Ok (e_c E) /\ env_ok E /\ e_D E = disc_1d 1 N gauss3 /\
  (exists s1 b, driver_setup E (init_state true (fun _ => 1) (fun _ _ => 0) 0) = (Ok (Some b), s1) /\
     veq (dimF E) (st_op P E gamma_shipped (fun _ => 0) (s_heap s u)) (s_heap s1 b)) /\ s_fes s = true /\
  measured_errors E u s = (Ok r, s') /\ 0.7 < er_T r /\ 0.7 < er_inf r.
Proof.
  intros N HN.
  assert (HN1 : (1 <= N)%nat) by lia. assert (Hb : (Z.of_nat N <= slabs_1d 1)%Z) by (unfold slabs_1d; cbn [Nat.eqb]; lia).
  destruct (shipped_good Driver1D _ (shipped_1d 1 N ltac:(lia) HN1)) as [c [Hc _]].
  set (D := disc_1d 1 N gauss3) in *.
  set (E := mkEnv c D (std_layout 4 (nc_full c) (fun j => d_dim D (spc j))) (std_layout 4 (nc_pre c) (fun j => d_dim D (spc j)))
    (std_layout 2 nc_coup (fun j => d_dim D (spc j))) (std_layout 2 nc_bnd (fun j => d_dim D (spc j)))).
  assert (HE : env_ok E).
  { split; try apply std_layout_ok. cbn [e_c E]. pose proof (construct_inv _ _ Hc) as HB. rewrite (bu_NP _ _ HB). exact HN1. }
  destruct (C77_solve_1d 1 N gauss3 E ltac:(lia) HN1 Hb gauss3_rule Hc HE eq_refl (fun _ => 1) (fun _ _ => 0) 0%nat) as [s1 [b [D1 [US _]]]].
  cbv zeta in US. destruct (US (s_heap s1 b)) as [x [Hx _]].
  set (s0 := init_state true (fun _ => 1) (fun _ => x) 0%nat).
  set (s := w_fes true s0).
  assert (Hnn : nonneg_dx (e_D E)).
  { intros p Hp. pose proof (mesh_1d 1 N gauss3 ltac:(lia) HN1 gauss3_rule) as HM.
    exact (rg_w _ _ (C75_regular _ _ _ _ _ _ (fun _ => 0) HM ltac:(intros; lra)) Dx p Hp). }
  destruct (C46_total_nonnegative (st_params (setting_1d 1 N)) E 0 s Hc HE ltac:(cbn; lra) Hnn eq_refl) as [r [s' [M _]]].
  exists E, 0%nat, s, r, s'. cbv zeta.
  split; [exact Hb|]. split; [exact gauss3_rule|]. split; [exact Hc|]. split; [exact HE|]. split; [reflexivity|].
  split; [exists s1, b; split; [exact D1|exact Hx]|]. split; [reflexivity|]. split; [exact M|].
  destruct (C77_reported 1 N gauss3 E ltac:(lia) HN1 Hb gauss3_rule Hc HE eq_refl _ _ _ s1 b D1 x 0%nat s r s' Hx eq_refl eq_refl M) as [A B].
  assert (G : gap_1d 1 N <= 1 / 1000).
  { unfold gap_1d. cbn [Nat.eqb]. assert (INR N <= 128) by (replace 128 with (INR 128) by (cbn; lra); apply le_INR; lia).
    assert (N0 : 0 <= INR N) by apply pos_INR. assert (INR N ^ 2 <= 128 ^ 2) by (apply pow_incr; lra).
    set (y := INR N ^ 2) in *. clearbody y. decimals. lra. }
  assert (S2 : 0.701 < sqrt (1 / 2)).
  { assert (P0 : 0 <= 0.701) by (decimals; lra). rewrite <- (sqrt_Rsqr _ P0). apply sqrt_lt_1_alt. unfold Rsqr. decimals. lra. }
  apply Rabs_le_between in A, B. set (v := sqrt (1 / 2)) in *. clearbody v. decimals. lra.
Qed.

Print Assumptions C77_delivered_stability. Print Assumptions C77_no_data_no_solution. Print Assumptions C77_errors.
Print Assumptions C77_solve_1d. Print Assumptions C77_reported. Print Assumptions C77_nonvacuous.
