(** Props_Space1D.v -- properties C75 and C76: the discretisation on an interval.

    C75: with continuous piecewise polynomials on any mesh of an interval, the spatial
    products of all forms are the integrals, endpoint values and derivative jumps of
    the finite element functions; mass forms are definite.
    C76: no measurements are needed.  The primal stabilisation alone determines the
    discrete solution; all linear systems of solve_1d.py have exactly one solution for
    every number of slabs in a stated range, whatever the indicator function. *)
From Coq Require Import Reals List ZArith Lra Lia Bool String.
From Coquelicot Require Import Coquelicot.
From Verif Require Import Base TimeModel TimeSpec TimeProofs QuadProofs FormModel FormSpec FormProofs
  SpaceTimeForms FormBlocks GuardProofs FormTime FormC12 FormSym FormStruct FormWf FormExample Props_Forms
  SpaceTimeModel SlabOps ApplyProofs MarchProofs MarchSum Lifecycle LifeProofs OpsProofs LinAlg WellPosed Injective Props_Ops
  GmresModel DriverModel DriverConfig Props_WellPosed Props_Stability Observe Props_Observe Props_Config Space1D NoData Elliptic1D.
Import ListNotations.
Open Scope R_scope.

(** * C75: finite element functions on an interval *)
(** a mesh of [xs 0, xs n]; a rule on [0,1] with positive weights *)
Record mesh1 (n : nat) (xs : nat -> R) (kp kd : nat) (qp : list (R * R)) (deg : nat) : Prop := {
  m1_n : (1 <= n)%nat;
  m1_x : forall c, (c < n)%nat -> xs c < xs (S c);
  m1_kp : (1 <= kp)%nat;
  m1_kd : (1 <= kd)%nat;
  m1_qp : qp <> [];
  m1_w : forall j, (j < List.length qp)%nat -> 0 < qw qp j;
  m1_exact : exact_rule qp deg }.
(** coefficient vector [a], degree k: value at x of the piecewise polynomial whose values at
    the equispaced points of the cells are the entries of [a] *)
Definition fe (xs : nat -> R) (k : nat) (a : vec) (c : nat) (x : R) : R :=
  sumn (S k) (fun i => a (c * k + i)%nat * lagrange k i ((x - xs c) / (xs (S c) - xs c))).
Definition dg (kp kd : nat) (s : fsp) : nat := match s with Vp => kp | Vd => kd end.

Theorem C75_continuous : forall n xs kp kd qp deg s a c, mesh1 n xs kp kd qp deg -> (S c < n)%nat ->
  fe xs (dg kp kd s) a c (xs (S c)) = fe xs (dg kp kd s) a (S c) (xs (S c)).
Proof.
  intros n xs kp kd qp deg s a c [Hn Hx Hkp Hkd Hq Hw He] Hc.
  change (on_cell xs kp kd s a c (xs (S c)) = on_cell xs kp kd s a (S c) (xs (S c))).
  rewrite (at_right n xs kp kd) by (try assumption; lia). rewrite (at_left n xs kp kd) by (try assumption; lia). reflexivity.
Qed.
Theorem C75_mass : forall n xs kp kd qp deg s1 s2 a b, mesh1 n xs kp kd qp deg -> (dg kp kd s1 + dg kp kd s2 <= deg)%nat ->
  L2 (disc1 n xs kp kd qp) s1 s2 a b
  = sumn n (fun c => RInt (fun x => fe xs (dg kp kd s1) a c x * fe xs (dg kp kd s2) b c x) (xs c) (xs (S c))).
Proof. intros n xs kp kd qp deg s1 s2 a b [Hn Hx Hkp Hkd Hq Hw He] Hd. apply (L2_integral n xs kp kd qp Hx Hq deg); assumption. Qed.
Theorem C75_stiffness : forall n xs kp kd qp deg s1 s2 a b, mesh1 n xs kp kd qp deg -> (dg kp kd s1 + dg kp kd s2 <= deg)%nat ->
  H1 (disc1 n xs kp kd qp) s1 s2 a b
  = sumn n (fun c => RInt (fun x => Derive (fe xs (dg kp kd s1) a c) x * Derive (fe xs (dg kp kd s2) b c) x) (xs c) (xs (S c))).
Proof. intros n xs kp kd qp deg s1 s2 a b [Hn Hx Hkp Hkd Hq Hw He] Hd. apply (H1_integral n xs kp kd qp Hx Hq deg); assumption. Qed.
(** outer normal derivative at both ends *)
Theorem C75_flux : forall n xs kp kd qp deg s1 s2 a b, mesh1 n xs kp kd qp deg ->
  flux (disc1 n xs kp kd qp) s1 s2 a b
  = Derive (fe xs (dg kp kd s1) a (n - 1)) (xs n) * fe xs (dg kp kd s2) b (n - 1) (xs n)
    - Derive (fe xs (dg kp kd s1) a 0) (xs 0%nat) * fe xs (dg kp kd s2) b 0 (xs 0%nat).
Proof. intros n xs kp kd qp deg s1 s2 a b [Hn Hx Hkp Hkd Hq Hw He]. apply (flux_ends n xs kp kd qp); assumption. Qed.
Theorem C75_penalty : forall n xs kp kd qp deg lam s a b, mesh1 n xs kp kd qp deg ->
  bndw (disc1 n xs kp kd qp) lam s a b
  = lam / (xs 1%nat - xs 0%nat) * (fe xs (dg kp kd s) a 0 (xs 0%nat) * fe xs (dg kp kd s) b 0 (xs 0%nat))
    + lam / (xs n - xs (n - 1)%nat) * (fe xs (dg kp kd s) a (n - 1) (xs n) * fe xs (dg kp kd s) b (n - 1) (xs n)).
Proof.
  intros n xs kp kd qp deg lam s a b [Hn Hx Hkp Hkd Hq Hw He]. rewrite (bndw_ends n xs kp kd qp) by assumption.
  unfold len. replace (S (n - 1)) with n by lia. reflexivity.
Qed.
(** jumps of the derivative at the inner vertices *)
Definition slope_jump (xs : nat -> R) (k : nat) (a : vec) (v : nat) : R := Derive (fe xs k a (v - 1)) (xs v) - Derive (fe xs k a v) (xs v).
Theorem C75_jumps : forall n xs kp kd qp deg s a b, mesh1 n xs kp kd qp deg ->
  facet (disc1 n xs kp kd qp) s a b
  = Rsum (seq 1 (n - 1)) (fun v => (xs (v + 1)%nat - xs (v - 1)%nat) / 2 * (slope_jump xs (dg kp kd s) a v * slope_jump xs (dg kp kd s) b v)).
Proof.
  intros n xs kp kd qp deg s a b [Hn Hx Hkp Hkd Hq Hw He]. rewrite (facet_jumps n xs kp kd qp) by assumption. rewrite (Rsum_seq_shift 1).
  apply sumn_ext; intros v Hv. unfold len. replace (1 + v + 1)%nat with (S (S v)) by lia. replace (1 + v - 1)%nat with v by lia.
  cbn [Nat.add]. unfold djump, slope_jump. change (on_cell xs kp kd s) with (fe xs (dg kp kd s)). field.
Qed.
(** residual of the wave operator, squared and weighted with the cell size *)
Theorem C75_laplacian : forall n xs kp kd qp deg a, mesh1 n xs kp kd qp deg -> (2 * kp <= deg)%nat ->
  let D := disc1 n xs kp kd qp in
  integ D Dx WH2 1 (fun p _ => fev D Dx Vp Lap a p 0) (fun p _ => fev D Dx Vp Lap a p 0)
  = sumn n (fun c => (xs (S c) - xs c) ^ 2 * RInt (fun x => Derive (Derive (fe xs kp a c)) x * Derive (Derive (fe xs kp a c)) x) (xs c) (xs (S c))).
Proof. intros n xs kp kd qp deg a [Hn Hx Hkp Hkd Hq Hw He] Hd D. apply (lap_integral n xs kp kd qp Hx Hq Hn Hkp Hkd deg); assumption. Qed.

(** the hypotheses of C67 - C74 on the spatial discretisation *)
Theorem C75_regular : forall n xs kp kd qp deg om, mesh1 n xs kp kd qp deg -> (forall p, 0 <= om p) -> regular (disc1 n xs kp kd qp) om.
Proof. intros n xs kp kd qp deg om [Hn Hx Hkp Hkd Hq Hw He] Ho. apply (regular1 n xs kp kd qp); try assumption. intros p _. apply Ho. Qed.
Theorem C75_definite : forall n xs kp kd qp deg s, mesh1 n xs kp kd qp deg -> (2 * dg kp kd s <= deg)%nat -> definite (disc1 n xs kp kd qp) s.
Proof. intros n xs kp kd qp deg s [Hn Hx Hkp Hkd Hq Hw He] Hd. intros a Ha. apply (definite1 n xs kp kd qp Hx Hq Hn Hkp Hkd deg s); assumption. Qed.

(** ** a rule and meshes that satisfy the hypotheses *)
(** three-point Gauss rule on [0,1] *)
Definition gauss3 : list (R * R) := [(1 / 2 - sqrt (3 / 20), 5 / 18); (1 / 2, 4 / 9); (1 / 2 + sqrt (3 / 20), 5 / 18)].
Lemma gauss3_exact : exact_rule gauss3 5.
Proof.
  intros p Hp. rewrite RInt_pint. unfold gauss3. rewrite !Rsum_cons, Rsum_nil.
  set (r := sqrt (3 / 20)). assert (E : r * r = 3 / 20) by (apply sqrt_def; lra). clearbody r.
  set (mom := fun j => 5 / 18 * (1 / 2 - r) ^ j + 4 / 9 * (1 / 2) ^ j + 5 / 18 * (1 / 2 + r) ^ j).
  assert (M0 : mom 0%nat = 1) by (unfold mom; field).
  assert (M1 : mom 1%nat = 1 / 2) by (unfold mom; field).
  assert (M2 : mom 2%nat = 1 / 3).
  { transitivity (5 / 9 * (1 / 4 + r * r) + 4 / 9 * (1 / 4)); [unfold mom; field|rewrite E; field]. }
  assert (M3 : mom 3%nat = 1 / 4).
  { transitivity (5 / 9 * (1 / 8 + 3 / 2 * (r * r)) + 4 / 9 * (1 / 8)); [unfold mom; field|rewrite E; field]. }
  assert (M4 : mom 4%nat = 1 / 5).
  { transitivity (5 / 9 * (1 / 16 + 3 / 2 * (r * r) + (r * r) * (r * r)) + 4 / 9 * (1 / 16)); [unfold mom; field|rewrite E; field]. }
  assert (M5 : mom 5%nat = 1 / 6).
  { transitivity (5 / 9 * (1 / 32 + 5 / 4 * (r * r) + 5 / 2 * ((r * r) * (r * r))) + 4 / 9 * (1 / 32)); [unfold mom; field|rewrite E; field]. }
  destruct p as [|p0 [|p1 [|p2 [|p3 [|p4 [|p5 [|]]]]]]]; try (cbn in Hp; lia).
  - cbn. ring.
  - transitivity (p0 * mom 0%nat); [unfold mom; cbn; field|]. rewrite M0. unfold pint. cbn. field.
  - transitivity (p0 * mom 0%nat + p1 * mom 1%nat); [unfold mom; cbn; field|]. rewrite M0, M1. unfold pint. cbn. field.
  - transitivity (p0 * mom 0%nat + p1 * mom 1%nat + p2 * mom 2%nat); [unfold mom; cbn; field|]. rewrite M0, M1, M2. unfold pint. cbn. field.
  - transitivity (p0 * mom 0%nat + p1 * mom 1%nat + p2 * mom 2%nat + p3 * mom 3%nat); [unfold mom; cbn; field|]. rewrite M0, M1, M2, M3. unfold pint. cbn. field.
  - transitivity (p0 * mom 0%nat + p1 * mom 1%nat + p2 * mom 2%nat + p3 * mom 3%nat + p4 * mom 4%nat); [unfold mom; cbn; field|]. rewrite M0, M1, M2, M3, M4. unfold pint. cbn. field.
  - transitivity (p0 * mom 0%nat + p1 * mom 1%nat + p2 * mom 2%nat + p3 * mom 3%nat + p4 * mom 4%nat + p5 * mom 5%nat); [unfold mom; cbn; field|].
    rewrite M0, M1, M2, M3, M4, M5. unfold pint. cbn. field.
Qed.
(** equidistant vertices of the unit interval, create_unit_interval(comm, n) *)
Definition unit_vertex (n c : nat) : R := INR c / INR n.
Lemma unit_len n c : (1 <= n)%nat -> unit_vertex n (S c) - unit_vertex n c = / INR n.
Proof. intro Hn. unfold unit_vertex. rewrite S_INR. field. apply not_0_INR. lia. Qed.
Lemma unit_mesh n kp kd qp deg : (1 <= n)%nat -> (1 <= kp)%nat -> (1 <= kd)%nat -> qp <> [] ->
  (forall j, (j < List.length qp)%nat -> 0 < qw qp j) -> exact_rule qp deg -> mesh1 n (unit_vertex n) kp kd qp deg.
Proof.
  intros Hn Hp Hd Hq Hw He. constructor; try assumption. intros c Hc. pose proof (unit_len n c Hn) as L.
  assert (0 < / INR n) by (apply Rinv_0_lt_compat, lt_0_INR; lia). lra.
Qed.
Lemma gauss3_pos j : (j < List.length gauss3)%nat -> 0 < qw gauss3 j.
Proof. unfold qw, gauss3. cbn [List.length]. intro H. destruct j as [|[|[|j]]]; [| | |lia]; cbn [nth snd]; lra. Qed.
(** the spaces and the rule degree 2k+3 of solve_1d.py with ORDER = 1 *)
Example C75_nonvacuous : forall N, (1 <= N)%nat -> mesh1 (5 * N) (unit_vertex (5 * N)) 1 1 gauss3 (2 * 1 + 3) /\ definite (disc1 (5 * N) (unit_vertex (5 * N)) 1 1 gauss3) Vp /\ definite (disc1 (5 * N) (unit_vertex (5 * N)) 1 1 gauss3) Vd /\ d_dim (disc1 (5 * N) (unit_vertex (5 * N)) 1 1 gauss3) Vp = (5 * N + 1)%nat.
Proof.
  intros N HN. assert (M : mesh1 (5 * N) (unit_vertex (5 * N)) 1 1 gauss3 (2 * 1 + 3)).
  { apply unit_mesh; try lia; [discriminate|exact gauss3_pos|exact gauss3_exact]. }
  split; [exact M|]. split; [apply (C75_definite _ _ _ _ _ _ Vp M); cbn; lia|]. split; [apply (C75_definite _ _ _ _ _ _ Vd M); cbn; lia|]. cbn. lia.
Qed.

(** * C76: no measurements *)
(** mean square of a discrete function by its Laplacian inside the cells (weighted with the
    squared cell size), boundary values and gradient jumps *)
Definition elliptic_bound (D : disc) (lam K : R) : Prop := forall a,
  L2 D Vp Vp a a <= K * (integ D Dx WH2 1 (fun p _ => fev D Dx Vp Lap a p 0) (fun p _ => fev D Dx Vp Lap a p 0) + bndw D lam Vp a a + facet D Vp a a).
(** growth factor: order in time q, slab length dt, largest cell size H *)
Definition factor (q : nat) (dt K H : R) : R :=
  K * (3 + 3 * H ^ 2 * (180 / dt ^ 2)) * (if Nat.leb q 1 then 1 else 1 + 3 * H ^ 2 * K * (180 / dt ^ 2) ^ 2).

Lemma lam_pos P c : construct P = Ok c -> c_lam c = 5 * INR (p_k P) ^ 2.
Proof. intro HC. apply (bu_lam _ _ (construct_inv _ _ HC)). Qed.
Lemma regular_ones D om : regular D om -> regular D (fun _ => 1).
Proof. intros [A B C E _]. constructor; try assumption. intros; lra. Qed.
Lemma gain_factor P c K H : construct P = Ok c -> gain c K H = factor (Z.to_nat (p_q P)) (t_dt (tgrid P)) K H.
Proof.
  intro HC. pose proof (construct_inv _ _ HC) as HB. unfold gain, factor, M. rewrite (tgrid_dt P c HC), (bu_cq _ _ HB). reflexivity.
Qed.
(** the values of u1 on a slab are bounded by its primal stabilisation, in any space dimension *)
Theorem C76_primal_controls : forall P c om D K H X n, construct P = Ok c -> 0 < p_T P -> regular D om -> 0 <= K ->
  elliptic_bound D (5 * INR (p_k P) ^ 2) K -> (forall p, In p (d_pts D Dx) -> d_h D Dx p <= H) ->
  over_slab (tgrid P) n (fun t => L2 D Vp Vp (at_time (tgrid P) X 0 n t) (at_time (tgrid P) X 0 n t))
  <= factor (Z.to_nat (p_q P)) (t_dt (tgrid P)) K H * primal D (tgrid P) (5 * INR (p_k P) ^ 2) X X n.
Proof.
  intros P c om D K H X n HC HT HR HK0 HK HH. pose proof (construct_inv _ _ HC) as HB. pose proof (dt_pos _ _ HC HT) as Hdt.
  rewrite <- (gain_factor P c K H HC). rewrite <- (lam_pos P c HC) in *. unfold over_slab. rewrite <- (tgrid_td _ _ HC). cbn [t_dt td].
  apply (values_by_primal P c om D HB Hdt HR K H HK0); [|exact HH|].
  - exact HK.
  - rewrite (lam_pos P c HC). pose proof (pow2_ge_0 (INR (p_k P))). lra.
Qed.
Theorem C76_no_measurements : forall P c g om D K H, construct P = Ok c -> 0 < p_T P -> regular D om -> definite D Vp -> 0 < K ->
  elliptic_bound D (5 * INR (p_k P) ^ 2) K -> (forall p, In p (d_pts D Dx) -> d_h D Dx p <= H) -> 0 <= g_data g -> 0 < g_primal g ->
  controls_start P D (energy_first P g om D) (g_primal g * t_dt (tgrid P) ^ 2 / (16 * factor (Z.to_nat (p_q P)) (t_dt (tgrid P)) K H)).
Proof.
  intros P c g om D K H HC HT HR Dp HK0 HK HH G1 G3. pose proof (construct_inv _ _ HC) as HB. pose proof (dt_pos _ _ HC HT) as Hdt.
  pose proof (regular_ones D om HR) as HR1.
  set (fa := factor (Z.to_nat (p_q P)) (t_dt (tgrid P)) K H).
  assert (Fp : 0 < fa).
  { unfold fa, factor. rewrite (tgrid_dt P c HC). assert (0 < 180 / c_dt c ^ 2) by (apply Rdiv_lt_0_compat; [lra|apply pow_lt, Hdt]).
    pose proof (pow2_ge_0 H). assert (0 <= 3 * H ^ 2 * (180 / c_dt c ^ 2)) by (apply Rmult_le_pos; lra).
    apply Rmult_lt_0_compat; [apply Rmult_lt_0_compat; lra|]. destruct (Nat.leb _ _); [lra|].
    assert (0 <= 3 * H ^ 2 * K * (180 / c_dt c ^ 2) ^ 2); [|lra]. apply Rmult_le_pos; [apply Rmult_le_pos; lra|apply pow2_ge_0]. }
  assert (B : forall X, data D (td c) (fun _ => 1) X X 0 <= fa * primal D (td c) (c_lam c) X X 0).
  { intro X. pose proof (C76_primal_controls P c om D K H X 0 HC HT HR (Rlt_le _ _ HK0) HK HH) as Q. fold fa in Q.
    rewrite <- (tgrid_td _ _ HC), <- (lam_pos P c HC) in Q. eapply Rle_trans; [|exact Q]. right. reflexivity. }
  split; intro X; rewrite (energy_first_eq P c g om D X HC); unfold first_energy;
    pose proof (data_pos P c om D HB Hdt HR X 0) as D1; pose proof (primal_pos P c om D HB Hdt HR X 0) as D3;
    pose proof (Rmult_le_pos _ _ (Rlt_le _ _ G3) D3) as Q3; pose proof (Rmult_le_pos _ _ G1 D1) as Q1.
  - rewrite (tgrid_dt P c HC).
    pose proof (data_trace P c (fun _ => 1) D HB Hdt HR1 1 ltac:(lra) ltac:(intros; lra) X 0) as T. change (0 * S (c_q c))%nat with 0%nat in T.
    specialize (B X). set (a := L2 D Vp Vp (X 0%nat 0%nat) (X 0%nat 0%nat)) in *. set (u := data D (td c) (fun _ => 1) X X 0) in *.
    set (v := primal D (td c) (c_lam c) X X 0) in *. set (w := g_data g * data D (td c) om X X 0) in *.
    apply (Rle_trans _ (c_dt c * (g_primal g * v))); [|apply Rmult_le_compat_l; lra].
    assert (T2 : c_dt c / 16 * a <= fa * v) by lra.
    replace (g_primal g * c_dt c ^ 2 / (16 * fa) * a) with (c_dt c * (g_primal g * (/ fa * (c_dt c / 16 * a)))) by (field; lra).
    apply Rmult_le_compat_l; [lra|]. apply Rmult_le_compat_l; [lra|]. apply (Rmult_le_reg_l fa); [exact Fp|].
    rewrite <- Rmult_assoc, Rinv_r by lra. lra.
  - intro E. assert (V0 : primal D (td c) (c_lam c) X X 0 = 0) by (apply (zero_of_prod (g_primal g)); lra).
    specialize (B X). rewrite V0 in B. pose proof (data_pos P c (fun _ => 1) D HB Hdt HR1 X 0) as D0.
    unfold L2. apply sp_zero1. intros l Hl.
    apply (full_velocity P c (fun _ => 1) D HB Hdt HR1 Dp 1 ltac:(lra) ltac:(intros; lra) X 0); [lra|exact V0|exact Hl].
Qed.

(** ** on an interval *)
Theorem C76_interval : forall n xs kp kd qp deg lam hmin hmax, mesh1 n xs kp kd qp deg -> (2 * kp <= deg)%nat -> 0 < lam -> 0 < hmin ->
  (forall c, (c < n)%nat -> hmin <= xs (S c) - xs c <= hmax) ->
  let l := xs n - xs 0%nat in
  elliptic_bound (disc1 n xs kp kd qp) lam (l * (12 * hmax / lam + 24 * INR n * l ^ 2 / hmin)).
Proof.
  intros n xs kp kd qp deg lam hmin hmax [Hn Hx Hkp Hkd Hq Hw He] Hd Hl Hm Hh l a.
  apply (elliptic n xs kp kd qp Hx Hq Hn Hkp Hkd deg He Hd a hmin hmax lam); assumption.
Qed.
Lemma cells_h n kp kd qp p : (1 <= n)%nat -> In p (d_pts (disc1 n (unit_vertex n) kp kd qp) Dx) -> d_h (disc1 n (unit_vertex n) kp kd qp) Dx p <= / INR n.
Proof. intros Hn _. cbn [d_h disc1]. unfold len. rewrite unit_len by exact Hn. lra. Qed.
Lemma unit_elliptic n kp kd qp deg lam : mesh1 n (unit_vertex n) kp kd qp deg -> (2 * kp <= deg)%nat -> 5 <= lam ->
  elliptic_bound (disc1 n (unit_vertex n) kp kd qp) lam (27 * INR n ^ 2).
Proof.
  intros HM Hd Hl a. pose proof (m1_n _ _ _ _ _ _ HM) as Hn. assert (Np : 1 <= INR n) by (change 1 with (INR 1); apply le_INR, Hn).
  assert (Hi : 0 < / INR n) by (apply Rinv_0_lt_compat; lra).
  pose proof (C76_interval n _ kp kd qp deg lam (/ INR n) (/ INR n) HM Hd ltac:(lra) Hi ltac:(intros; rewrite unit_len by exact Hn; lra) a) as B.
  cbv zeta in B. eapply Rle_trans; [exact B|]. apply Rmult_le_compat_r.
  - pose proof (C75_regular _ _ _ _ _ _ (fun _ => 0) HM ltac:(intros; lra)) as HR.
    pose proof (integ_nonneg (disc1 n (unit_vertex n) kp kd qp) Dx WH2 1 (fun p _ => fev (disc1 n (unit_vertex n) kp kd qp) Dx Vp Lap a p 0) (reg_h2 _ _ Dx HR)).
    pose proof (integ_nonneg _ Ds (WLamH lam) (ncomp (disc1 n (unit_vertex n) kp kd qp) Val) (fev (disc1 n (unit_vertex n) kp kd qp) Ds Vp Val a) (reg_lamh _ _ Ds lam ltac:(lra) HR)).
    pose proof (integ_nonneg _ DS WHavg (ncomp (disc1 n (unit_vertex n) kp kd qp) JumpGrad) (fev (disc1 n (unit_vertex n) kp kd qp) DS Vp JumpGrad a) (reg_havg _ _ HR)).
    unfold bndw, facet, sp. lra.
  - unfold unit_vertex. replace (INR n / INR n) with 1 by (field; lra). replace (INR 0 / INR n) with 0 by (cbn; field; lra).
    replace ((1 - 0) * (12 * / INR n / lam + 24 * INR n * (1 - 0) ^ 2 / / INR n)) with (12 * (/ INR n * / lam) + 24 * INR n ^ 2) by (field; lra).
    assert (I1 : / INR n <= 1) by (rewrite <- Rinv_1; apply Rinv_le_contravar; lra).
    assert (I2 : / lam <= / 5) by (apply Rinv_le_contravar; lra). assert (0 < / lam) by (apply Rinv_0_lt_compat; lra).
    assert (I3 : / INR n * / lam <= 1 * / 5) by (apply Rmult_le_compat; lra).
    assert (1 <= INR n ^ 2) by (apply pow_R1_Rle; exact Np). lra.
Qed.

(** ** solve_1d.py *)
(** its mesh and spaces: 5 N cells, degree ORDER for the primal and 1 for the dual variables;
    [qp] is the rule of degree 2 ORDER + 3 that the form compiler picks *)
Definition disc_1d (ORDER N : nat) (qp : list (R * R)) : disc := disc1 (5 * N) (unit_vertex (5 * N)) ORDER 1 qp.
Record rule_ok (ORDER : nat) (qp : list (R * R)) : Prop := {
  ru_some : qp <> [];
  ru_pos : forall j, (j < List.length qp)%nat -> 0 < qw qp j;
  ru_exact : exact_rule qp (2 * ORDER + 3) }.
Definition slabs_1d (ORDER : nat) : Z := if Nat.eqb ORDER 1 then 1000000 else 512.

Lemma mesh_1d o N qp : (1 <= o)%nat -> (1 <= N)%nat -> rule_ok o qp -> mesh1 (5 * N) (unit_vertex (5 * N)) o 1 qp (2 * o + 3).
Proof. intros Ho HN [A B C]. apply unit_mesh; try assumption; lia. Qed.
Lemma bigN N b : (Z.of_nat N <= b)%Z -> INR N <= IZR b.
Proof. intro H. rewrite INR_IZR_INZ. apply IZR_le, H. Qed.
Lemma control_1d : forall o N qp om, (1 <= o <= 3)%nat -> (1 <= N)%nat -> (Z.of_nat N <= slabs_1d o)%Z -> rule_ok o qp -> (forall p, 0 <= om p) ->
  exists ka, controls_start (st_params (setting_1d o N)) (disc_1d o N qp) (energy_first (st_params (setting_1d o N)) gamma_shipped om (disc_1d o N qp)) ka
    /\ 128 * 1e-20 ^ 2 <= ka * g_dual gamma_shipped.
Proof.
  intros o N qp om Ho HN Hb Hr Hom. pose proof (mesh_1d o N qp ltac:(lia) HN Hr) as HM.
  destruct (shipped_good Driver1D _ (shipped_1d o N Ho HN)) as [c [Hc _]].
  set (P := st_params (setting_1d o N)) in *. set (D := disc_1d o N qp).
  pose proof (C75_regular _ _ _ _ _ _ om HM Hom) as HR. fold D in HR.
  assert (Dp : definite D Vp) by (apply (C75_definite _ _ _ _ _ _ Vp HM); cbn [dg]; lia).
  assert (N1 : 1 <= INR N) by (change 1 with (INR 1); apply le_INR, HN).
  assert (E5 : INR (5 * N) = 5 * INR N) by (rewrite mult_INR; cbn [INR]; ring).
  assert (HK : elliptic_bound D (5 * INR (p_k P) ^ 2) (27 * INR (5 * N) ^ 2)).
  { apply (unit_elliptic (5 * N) o 1 qp (2 * o + 3)); [exact HM|lia|]. change (p_k P) with o.
    assert (1 <= INR o) by (change 1 with (INR 1); apply le_INR; lia). assert (1 <= INR o ^ 2) by (apply pow_R1_Rle; assumption). lra. }
  exists (g_primal gamma_shipped * t_dt (tgrid P) ^ 2 / (16 * factor (Z.to_nat (p_q P)) (t_dt (tgrid P)) (27 * INR (5 * N) ^ 2) (/ INR (5 * N)))). split.
  - apply (C76_no_measurements P c gamma_shipped om D); try assumption; try (cbn; lra).
    + rewrite E5. assert (0 < (5 * INR N) ^ 2) by (apply pow_lt; lra). lra.
    + intros p Hp. apply (cells_h (5 * N) o 1 qp); [lia|exact Hp].
  - rewrite E5. change (p_q P) with (Z.of_nat o). rewrite Nat2Z.id.
    assert (Edt : t_dt (tgrid P) = / INR N) by (unfold tgrid, P; cbn [t_dt p_T p_N setting_1d st_params driver_params]; unfold Rdiv; ring).
    rewrite Edt. cbn [g_primal g_dual gamma_shipped]. pose proof (bigN N _ Hb) as Hbig. set (x := INR N) in *.
    assert (F : factor o (/ x) (27 * (5 * x) ^ 2) (/ (5 * x)) = 16605 * x ^ 2 * (if Nat.leb o 1 then 1 else 1 + 2624400 * x ^ 4)).
    { unfold factor. destruct (Nat.leb o 1); field; lra. }
    rewrite F. clear F HK Edt. clearbody x. unfold slabs_1d in Hbig. decimals. destruct (Nat.eqb_spec o 1) as [->|Hne].
    + change (Nat.leb 1 1) with true. cbv iota.
      replace (1 / 1000 * (/ x) ^ 2 / (16 * (16605 * x ^ 2 * 1)) * 1) with (/ (265680000 * x ^ 4)) by (field; lra).
      assert (X4 : 0 < 265680000 * x ^ 4 <= 265680000 * 1000000 ^ 4).
      { split; [assert (0 < x ^ 4) by (apply pow_lt; lra); lra|]. apply Rmult_le_compat_l; [lra|]. apply pow_incr. lra. }
      apply (Rle_trans _ (/ (265680000 * 1000000 ^ 4))); [lra|]. apply Rinv_le_contravar; lra.
    + assert (Nat.leb o 1 = false) as -> by (apply Nat.leb_gt; lia).
      replace (1 / 1000 * (/ x) ^ 2 / (16 * (16605 * x ^ 2 * (1 + 2624400 * x ^ 4))) * 1) with (/ (265680000 * (x ^ 4 + 2624400 * x ^ 8))).
      2: { field. assert (0 < x ^ 4) by (apply pow_lt; lra). assert (0 < x ^ 8) by (apply pow_lt; lra). repeat split; try lra. }
      assert (X4 : 0 < x ^ 4 <= 512 ^ 4) by (split; [apply pow_lt; lra|apply pow_incr; lra]).
      assert (X8 : 0 < x ^ 8 <= 512 ^ 8) by (split; [apply pow_lt; lra|apply pow_incr; lra]).
      apply (Rle_trans _ (/ (265680000 * (512 ^ 4 + 2624400 * 512 ^ 8)))); [lra|]. apply Rinv_le_contravar; lra.
Qed.
(** All four linear systems of the driver have exactly one solution for every right-hand
    side: the space-time system, the preconditioner and the two slab systems.  The indicator
    may be anything not negative, also 0 (which is what the fitted domain delivers). *)
Theorem C76_driver : forall o N qp om, (1 <= o <= 3)%nat -> (1 <= N)%nat -> (Z.of_nat N <= slabs_1d o)%Z -> rule_ok o qp -> (forall p, 0 <= om p) ->
  exists c, construct (st_params (setting_1d o N)) = Ok c /\ forall L Lp,
  lay_ok (disc_1d o N qp) 4 (nc_full c) L -> lay_ok (disc_1d o N qp) 4 (nc_pre c) Lp ->
  uniquely_solvable (lay_dim L) (st_matrix (disc_1d o N qp) L c gamma_shipped om false) /\
  uniquely_solvable (lay_dim L) (st_matrix (disc_1d o N qp) L c gamma_shipped om true) /\
  uniquely_solvable (lay_dim Lp) (assemble (disc_1d o N qp) Lp (slab_form c gamma_shipped om false)) /\
  uniquely_solvable (lay_dim Lp) (assemble (disc_1d o N qp) Lp (slab_form c gamma_shipped om true)).
Proof.
  intros o N qp om Ho HN Hb Hr Hom. pose proof (mesh_1d o N qp ltac:(lia) HN Hr) as HM.
  pose proof (shipped_1d o N Ho HN) as HS. destruct (shipped_good Driver1D _ HS) as [c [Hc _]].
  pose proof (shipped_weights Driver1D _ HS) as HW. destruct (shipped_params Driver1D _ HS) as [_ [_ [_ [_ [_ [_ [Hj _]]]]]]].
  destruct (control_1d o N qp om Ho HN Hb Hr Hom) as [ka [Hct Hka]].
  pose proof (C75_regular _ _ _ _ _ _ om HM Hom) as HR.
  assert (Dp : definite (disc_1d o N qp) Vp) by (apply (C75_definite _ _ _ _ _ _ Vp HM); cbn [dg]; lia).
  assert (Dd : definite (disc_1d o N qp) Vd) by (apply (C75_definite _ _ _ _ _ _ Vd HM); cbn [dg]; lia).
  assert (HT : 0 < p_T (st_params (setting_1d o N))) by (cbn; lra).
  assert (R2 : 0 < 1e-20 ^ 2) by (decimals; lra).
  exists c. split; [exact Hc|]. intros L Lp HL HLp. split; [|split; [|split]].
  - apply (C72_space_time_problem (st_params (setting_1d o N)) c gamma_shipped om _ L ka Hc HT HL HR Dp Dd); try (cbn [g_data g_dual g_primal g_jump gamma_shipped]; lra).
    + apply (controls_whole _ c); try assumption; cbn [g_data g_dual g_primal g_jump gamma_shipped]; lra.
    + eapply Rle_trans; [|exact Hka]. lra.
  - apply (C72_preconditioner (st_params (setting_1d o N)) c gamma_shipped om _ L ka); try assumption. eapply Rlt_le_trans; [|exact Hka]. lra.
  - apply (C72_first_slab (st_params (setting_1d o N)) c gamma_shipped om _ Lp ka Hc HT HLp HR Dp Dd); try (cbn [g_data g_dual g_primal g_jump gamma_shipped]; lra).
    + exact Hct.
    + eapply Rlt_le_trans; [|exact Hka]. lra.
  - apply (C67_slab_problem (st_params (setting_1d o N)) c gamma_shipped om); assumption.
Qed.
Lemma gauss3_rule : rule_ok 1 gauss3.
Proof.
  split; [discriminate|exact gauss3_pos|exact gauss3_exact].
Qed.
Example C76_nonvacuous : (Z.of_nat 32 <= slabs_1d 1)%Z /\ rule_ok 1 gauss3 /\ (forall p : nat, 0 <= (fun _ => 0) p) /\
  (exists c, construct (st_params (setting_1d 1 32)) = Ok c /\
   lay_ok (disc_1d 1 32 gauss3) 4 (nc_full c) (std_layout 4 (nc_full c) (fun j => d_dim (disc_1d 1 32 gauss3) (spc j))) /\
   lay_ok (disc_1d 1 32 gauss3) 4 (nc_pre c) (std_layout 4 (nc_pre c) (fun j => d_dim (disc_1d 1 32 gauss3) (spc j)))) /\
  elliptic_bound (disc_1d 1 32 gauss3) 5 (27 * INR (5 * 32) ^ 2).
Proof.
  split; [vm_compute; discriminate|]. split; [exact gauss3_rule|]. split; [intros; lra|]. split.
  - destruct (shipped_good Driver1D _ (shipped_1d 1 32 ltac:(lia) ltac:(lia))) as [c [Hc _]]. exists c. split; [exact Hc|].
    split; apply std_layout_ok.
  - apply (unit_elliptic (5 * 32) 1 1 gauss3 5); [|lia|lra]. exact (mesh_1d 1 32 gauss3 ltac:(lia) ltac:(lia) gauss3_rule).
Qed.

Print Assumptions C75_continuous. Print Assumptions C75_mass. Print Assumptions C75_stiffness. Print Assumptions C75_flux.
Print Assumptions C75_penalty. Print Assumptions C75_jumps. Print Assumptions C75_laplacian. Print Assumptions C75_regular.
Print Assumptions C75_definite. Print Assumptions C75_nonvacuous.
Print Assumptions C76_primal_controls. Print Assumptions C76_no_measurements. Print Assumptions C76_interval.
Print Assumptions C76_driver. Print Assumptions C76_nonvacuous.
