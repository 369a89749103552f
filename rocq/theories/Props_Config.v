(** Props_Config.v -- property C73: the settings the drivers can be edited to. *)
From Coq Require Import Reals List ZArith Lra Lia Bool String.
From Coquelicot Require Import Coquelicot.
From Verif Require Import Base TimeModel TimeSpec TimeProofs QuadProofs FormModel FormSpec FormProofs
  SpaceTimeForms FormBlocks FormExample SpaceTimeModel SlabOps ApplyProofs MarchProofs MarchSum GmresModel ErrorsModel
  DriverModel DriverConfig Lifecycle LifeProofs OpsProofs OpsExample SetupOk Props_Forms Props_Ops Props_Driver Props_Gmres Props_Errors Props_Solve
  WellPosed Props_WellPosed MeshModel Props_Mesh Props_Geometry.
Import ListNotations.
Open Scope R_scope.

(** * Python's list index *)
Lemma py_index_in {A} (l : list A) d i : (- Z.of_nat (List.length l) <= i < Z.of_nat (List.length l))%Z ->
  py_index l i = Ok (nth (Z.to_nat (i mod Z.of_nat (List.length l))) l d).
Proof.
  intros Hi. unfold py_index. set (n := Z.of_nat (List.length l)) in *.
  assert (E : (if Z.ltb i 0 then i + n else i)%Z = (i mod n)%Z).
  { destruct (Z.ltb_spec i 0).
    - rewrite <- (Z.mod_small (i + n) n) by lia. replace (i + n)%Z with (i + 1 * n)%Z by lia. apply Z.mod_add. lia.
    - symmetry. apply Z.mod_small. lia. }
  rewrite E. assert (B := Z.mod_pos_bound i n ltac:(lia)).
  destruct (Z.leb_spec 0 (i mod n)); [|lia]. destruct (Z.ltb_spec (i mod n) n); [|lia]. cbn [andb].
  rewrite (nth_error_nth' l d) by (unfold n in *; lia). reflexivity.
Qed.
Lemma py_index_out {A} (l : list A) i : ~ (- Z.of_nat (List.length l) <= i < Z.of_nat (List.length l))%Z -> py_index l i = Err IndexError.
Proof.
  intros Hi. unfold py_index. set (n := Z.of_nat (List.length l)) in *.
  destruct (Z.ltb_spec i 0); destruct (Z.leb_spec 0 (if Z.ltb i 0 then i + n else i)) as [H1|H1];
    destruct (Z.ltb_spec (if Z.ltb i 0 then i + n else i) n) as [H2|H2]; revert H1 H2;
    destruct (Z.ltb_spec i 0); intros; try lia; cbn [andb]; try reflexivity.
  all: destruct (Z.leb_spec 0 (i + n)); destruct (Z.ltb_spec (i + n) n); cbn; try reflexivity; try lia.
  all: destruct (Z.leb_spec 0 i); destruct (Z.ltb_spec i n); cbn; try reflexivity; try lia.
Qed.

(** * When the constructor accepts *)
Lemma construct_accepts P : (1 <= p_N P)%nat -> (0 <= p_q P <= 3)%Z -> (0 <= p_qstar P <= 3)%Z -> exists c, construct P = Ok c.
Proof.
  intros HN Hq Hs. unfold construct. destruct (Nat.eqb_spec (p_N P) 0); [lia|].
  set (q := p_q P) in *. set (qs := p_qstar P) in *. clearbody q qs.
  assert (q = 0 \/ q = 1 \/ q = 2 \/ q = 3)%Z as Q by lia. assert (qs = 0 \/ qs = 1 \/ qs = 2 \/ qs = 3)%Z as Q' by lia.
  destruct Q as [->|[->|[->| ->]]]; destruct Q' as [->|[->|[->| ->]]]; eexists; reflexivity.
Qed.
Lemma construct_rejects P : (1 <= p_N P)%nat -> ~ ((0 <= p_q P <= 3)%Z /\ (0 <= p_qstar P <= 3)%Z) -> construct P = Err KeyError.
Proof.
  intros HN H. unfold construct. destruct (Nat.eqb_spec (p_N P) 0); [lia|].
  rewrite (elmat_undefined _ _ H). reflexivity.
Qed.

(** * The settings *)
Inductive shipped : driver -> setting -> Prop :=
  | shipped_1d : forall o N, (1 <= o <= 3)%nat -> (1 <= N)%nat -> shipped Driver1D (setting_1d o N)
  | shipped_2d : forall mesh (ms : list mesh) o lvl S m, (1 <= o <= 3)%nat -> setting_2d ms o lvl = Ok (S, m) -> shipped Driver2D S
  | shipped_3d : forall o lvl S, (1 <= o <= 3)%nat -> setting_3d o lvl = Ok S -> shipped Driver3D S.
Definition gamma_shipped : gammas := SpaceTimeForms.mkG 10000 1 (1/1000) 1.
Lemma stabs_gammas : exists g, get_gammas STABS = Ok g /\ g = gamma_shipped.
Proof.
  eexists. split; [reflexivity|]. unfold gamma_shipped. f_equal; decimals; lra.
Qed.
(** number of slabs is a power of two *)
Lemma level_N lvl N : py_index REF_LVL_TO_N lvl = Ok N -> (1 <= N)%nat /\ (-6 <= lvl < 6)%Z /\ N = Nat.pow 2 (Z.to_nat (lvl mod 6)).
Proof.
  intro H. assert (R : (-6 <= lvl < 6)%Z \/ ~ (-6 <= lvl < 6)%Z) by lia. destruct R as [R|R].
  - rewrite (py_index_in _ 0%nat) in H by exact R. injection H as <-.
    change (Z.of_nat (List.length REF_LVL_TO_N)) with 6%Z. pose proof (Z.mod_pos_bound lvl 6 ltac:(lia)) as B.
    set (m := (lvl mod 6)%Z) in *. clearbody m.
    assert (m = 0 \/ m = 1 \/ m = 2 \/ m = 3 \/ m = 4 \/ m = 5)%Z as Q by lia.
    split; [|split; [exact R|]]; destruct Q as [->|[->|[->|[->|[->| ->]]]]]; first [apply Nat.leb_le; reflexivity|reflexivity].
  - rewrite py_index_out in H by exact R. discriminate.
Qed.
Lemma shipped_params d S : shipped d S -> (1 <= p_N (st_params S))%nat /\ (0 <= p_q (st_params S) <= 3)%Z /\ (0 <= p_qstar (st_params S) <= 3)%Z
  /\ (1 <= p_k (st_params S))%nat /\ 0 < p_T (st_params S) /\ p_stab (st_params S) = STABS
  /\ p_jumps (st_params S) = false /\ p_wp (st_params S) = false.
Proof.
  intro H. destruct H as [o N Ho HN|mesh ms o lvl S m Ho HS|o lvl S Ho HS].
  - cbn [setting_1d st_params driver_params p_N p_q p_qstar p_k p_T p_stab p_jumps p_wp default_parameters jumps_in_fw_problem well_posed].
    repeat split; try lia; try lra; destruct (Nat.eqb o 1); cbn; lia.
  - unfold setting_2d, rbind in HS. destruct (py_index REF_LVL_TO_N lvl) as [N|] eqn:E; [|discriminate]. destruct (py_index ms lvl); [|discriminate].
    injection HS as <- _. destruct (level_N _ _ E) as [HN _].
    cbn [st_params driver_params p_N p_q p_qstar p_k p_T p_stab p_jumps p_wp default_parameters jumps_in_fw_problem well_posed].
    repeat split; try lia. decimals. lra.
  - unfold setting_3d, rbind in HS. destruct (py_index REF_LVL_TO_N lvl) as [N|] eqn:E; [|discriminate]. destruct (py_index Nxs lvl); [|discriminate].
    injection HS as <-. destruct (level_N _ _ E) as [HN _].
    cbn [st_params driver_params p_N p_q p_qstar p_k p_T p_stab p_jumps p_wp default_parameters jumps_in_fw_problem well_posed].
    repeat split; try lia. lra.
Qed.
Lemma shipped_good d S : shipped d S -> exists c, construct (st_params S) = Ok c /\
  forall E, e_c E = c -> good (st_params S) E gamma_shipped.
Proof.
  intro H. destruct (shipped_params d S H) as [HN [Hq [Hs [Hk [HT [Hst _]]]]]].
  destruct (construct_accepts _ HN Hq Hs) as [c Hc]. exists c. split; [exact Hc|]. intros E <-.
  destruct stabs_gammas as [g [Hg ->]].
  constructor; try assumption; try (rewrite Hst; exact Hg); cbn; lra.
Qed.
Lemma shipped_weights d S : shipped d S -> weights_ok (st_params S) gamma_shipped.
Proof.
  intro H. destruct (shipped_params d S H) as [_ [_ [_ [_ [_ [_ [Hj _]]]]]]].
  unfold weights_ok, coupling. rewrite Hj. cbn [g_data g_dual g_primal g_jump gamma_shipped]. repeat split; decimals; lra.
Qed.

(** The numbers themselves, driver by driver. *)
Theorem C73_constants : forall o N lvl mesh (ms : list mesh),
  (let P := st_params (setting_1d o N) in
   p_T P = 1 /\ p_t P = 0 /\ p_q P = Z.of_nat o /\ p_k P = o /\ p_kstar P = 1%nat /\
   p_qstar P = (if Nat.eqb o 1 then 1 else 0)%Z /\ p_N P = N /\ st_cells (setting_1d o N) = (5 * N)%nat /\
   st_fitted (setting_1d o N) = true /\
   (forall t x, p_v P t x = cos (2 * PI * t) * sin (2 * PI * nth 0 x 0)) /\
   (forall t x, is_derive (fun t => p_v P t x) t (p_dv P t x))) /\
  (forall S m, setting_2d ms o lvl = Ok (S, m) -> let P := st_params S in
   p_T P = 1 /\ p_t P = 0 /\ p_q P = Z.of_nat o /\ p_qstar P = Z.of_nat o /\ p_k P = o /\ p_kstar P = o /\
   p_N P = Nat.pow 2 (Z.to_nat (lvl mod 6)) /\ st_fitted S = true /\
   (forall t x, p_v P t x = cos (sqrt 2 * PI * t) * sin (PI * nth 0 x 0) * sin (PI * nth 1 x 0)) /\
   (forall t x, is_derive (fun t => p_v P t x) t (p_dv P t x))) /\
  (forall S, setting_3d o lvl = Ok S -> let P := st_params S in
   p_T P = 1 / 2 /\ p_t P = 0 /\ p_q P = Z.of_nat o /\ p_qstar P = Z.of_nat o /\ p_k P = o /\ p_kstar P = o /\
   p_N P = Nat.pow 2 (Z.to_nat (lvl mod 6)) /\ st_cells S = (2 * p_N P)%nat /\ (st_fitted S = true <-> lvl mod 6 <> 0)%Z /\
   (forall t x, p_v P t x = cos (sqrt 3 * PI * t) * sin (PI * nth 0 x 0) * sin (PI * nth 1 x 0) * sin (PI * nth 2 x 0)) /\
   (forall t x, is_derive (fun t => p_v P t x) t (p_dv P t x))).
Proof.
  intros o N lvl mesh ms. split; [|split].
  - cbv zeta. cbn [setting_1d st_params st_cells st_fitted driver_params p_T p_t p_q p_k p_kstar p_qstar p_N p_v p_dv].
    do 5 (split; [reflexivity|]). split; [destruct (Nat.eqb o 1); reflexivity|]. do 3 (split; [reflexivity|]).
    split; [reflexivity|]. intros t x. unfold sample_sol_1d, dt_sample_sol_1d. auto_derive; [exact Logic.I|]. ring.
  - intros S m HS. unfold setting_2d, rbind in HS. destruct (py_index REF_LVL_TO_N lvl) as [n|] eqn:E; [|discriminate].
    destruct (py_index ms lvl); [|discriminate]. injection HS as <- _. destruct (level_N _ _ E) as [_ [_ HN]].
    cbv zeta. cbn [st_params st_cells st_fitted driver_params p_T p_t p_q p_k p_kstar p_qstar p_N p_v p_dv].
    split; [decimals; lra|]. do 5 (split; [reflexivity|]). split; [exact HN|]. split; [reflexivity|].
    split; [reflexivity|]. intros t x. unfold sample_sol_2d, dt_sample_sol_2d. auto_derive; [exact Logic.I|]. ring.
  - intros S HS. unfold setting_3d, rbind in HS. destruct (py_index REF_LVL_TO_N lvl) as [n|] eqn:E; [|discriminate].
    destruct (py_index Nxs lvl) as [nx|] eqn:E2; [|discriminate]. injection HS as <-. destruct (level_N _ _ E) as [_ [R HN]].
    cbv zeta. cbn [st_params st_cells st_fitted driver_params p_T p_t p_q p_k p_kstar p_qstar p_N p_v p_dv].
    do 6 (split; [reflexivity|]). split; [exact HN|].
    assert (HX : nx = (2 * n)%nat /\ (Nat.ltb 2 nx = true <-> (lvl mod 6 <> 0)%Z)).
    { rewrite (py_index_in _ 0%nat) in E by exact R. rewrite (py_index_in _ 0%nat) in E2 by exact R. injection E as <-. injection E2 as <-.
      change (Z.of_nat (List.length REF_LVL_TO_N)) with 6%Z. change (Z.of_nat (List.length Nxs)) with 6%Z.
      pose proof (Z.mod_pos_bound lvl 6 ltac:(lia)) as B. set (m := (lvl mod 6)%Z) in *. clearbody m.
      assert (m = 0 \/ m = 1 \/ m = 2 \/ m = 3 \/ m = 4 \/ m = 5)%Z as Q by lia.
      destruct Q as [->|[->|[->|[->|[->| ->]]]]]; (split; [reflexivity|split; [intro A; first [discriminate A|discriminate]|intro A; first [reflexivity|congruence]]]). }
    split; [apply HX|]. split; [apply HX|].
    split; [reflexivity|]. intros t x. unfold sample_sol_3d, dt_sample_sol_3d. auto_derive; [exact Logic.I|]. ring.
Qed.

(** Orders 1 to 3 and every index of the level tables: the constructor accepts, the
    weights satisfy the conditions of C67 to C72, the statements before solve_problem
    return a right-hand side. *)
Theorem C73_accepted : forall d S, shipped d S ->
  weights_ok (st_params S) gamma_shipped /\ p_jumps (st_params S) = false /\ p_wp (st_params S) = false /\
  exists c, construct (st_params S) = Ok c /\ forall E ind heap next, e_c E = c ->
  good (st_params S) E gamma_shipped /\
  exists s1 b, driver_setup E (init_state (st_fitted S) ind heap next) = (Ok (Some b), s1) /\
    is_rhs E (if st_fitted S then (fun _ => 0) else ind) (s_heap s1 b) /\
    (st_fitted S = true -> forall I, s_heap s1 b I = tiny_rhs E I).
Proof.
  intros d S H. split; [apply (shipped_weights d); exact H|]. destruct (shipped_params d S H) as [_ [_ [_ [_ [_ [_ [Hj Hw]]]]]]].
  split; [exact Hj|]. split; [exact Hw|]. destruct (shipped_good d S H) as [c [Hc HG]]. exists c. split; [exact Hc|].
  intros E ind heap next HE. specialize (HG E HE). split; [exact HG|].
  destruct (driver_ready _ E gamma_shipped HG ltac:(cbn; lra) (st_fitted S) ind heap next) as [s1 [b [H1 [H2 [_ [_ [_ H3]]]]]]].
  assert (HR : is_rhs E (if st_fitted S then (fun _ => 0) else ind) (s_heap s1 b)).
  { rewrite H2 in *. pose proof (C64_rhs E (st_fitted S) ind heap next [Setup_fes; Prepare] b) as Q. cbv zeta in Q.
    apply Q; [|exact H3]. intros k [<-|[<-|[]]]; reflexivity. }
  exists s1, b. split; [exact H1|]. split; [exact HR|].
  intros Hf. rewrite Hf in HR. apply (fitted_rhs _ E _ (gd_c _ _ _ HG) (gd_T _ _ _ HG) Hw HR).
Qed.

(** Everything else is refused: higher orders with KeyError, N = 0 with
    ZeroDivisionError, levels outside the tables with IndexError. *)
Theorem C73_refused :
  (forall o N, (4 <= o)%nat -> (1 <= N)%nat -> construct (st_params (setting_1d o N)) = Err KeyError) /\
  (forall o, construct (st_params (setting_1d o 0)) = Err ZeroDivisionError) /\
  (forall mesh (ms : list mesh) o lvl S m, (4 <= o)%nat -> setting_2d ms o lvl = Ok (S, m) -> construct (st_params S) = Err KeyError) /\
  (forall o lvl S, (4 <= o)%nat -> setting_3d o lvl = Ok S -> construct (st_params S) = Err KeyError) /\
  (forall mesh (ms : list mesh) o lvl, List.length ms = 6%nat ->
     ((-6 <= lvl < 6)%Z -> exists S m, setting_2d ms o lvl = Ok (S, m)) /\ (~ (-6 <= lvl < 6)%Z -> setting_2d ms o lvl = Err IndexError)) /\
  (forall o lvl, ((-6 <= lvl < 6)%Z -> exists S, setting_3d o lvl = Ok S) /\ (~ (-6 <= lvl < 6)%Z -> setting_3d o lvl = Err IndexError)).
Proof.
  split; [|split; [|split; [|split; [|split]]]].
  - intros o N Ho HN. apply construct_rejects; [exact HN|]. cbn [setting_1d st_params driver_params p_q]. lia.
  - intro o. reflexivity.
  - intros mesh ms o lvl S m Ho HS. unfold setting_2d, rbind in HS. destruct (py_index REF_LVL_TO_N lvl) as [N|] eqn:E; [|discriminate].
    destruct (py_index ms lvl); [|discriminate]. injection HS as <- _. destruct (level_N _ _ E) as [HN _].
    apply construct_rejects; [exact HN|]. cbn [st_params driver_params p_q]. lia.
  - intros o lvl S Ho HS. unfold setting_3d, rbind in HS. destruct (py_index REF_LVL_TO_N lvl) as [N|] eqn:E; [|discriminate].
    destruct (py_index Nxs lvl); [|discriminate]. injection HS as <-. destruct (level_N _ _ E) as [HN _].
    apply construct_rejects; [exact HN|]. cbn [st_params driver_params p_q]. lia.
  - intros mesh ms o lvl HL. split; intro H; unfold setting_2d, rbind.
    + rewrite (py_index_in REF_LVL_TO_N 0%nat) by exact H. destruct ms as [|m0 ms]; [discriminate|].
      rewrite (py_index_in (m0 :: ms) m0) by (rewrite HL; exact H). eexists _, _. reflexivity.
    + rewrite (py_index_out REF_LVL_TO_N) by exact H. reflexivity.
  - intros o lvl. split; intro H; unfold setting_3d, rbind.
    + rewrite (py_index_in REF_LVL_TO_N 0%nat), (py_index_in Nxs 0%nat) by exact H. eexists. reflexivity.
    + rewrite (py_index_out REF_LVL_TO_N) by exact H. reflexivity.
Qed.

(** * The choice of solver *)
(** SOLVER_TYPE takes two values, so the branch of C55_refuted is never taken. *)
Theorem C73_solvers : forall d S have fitted, shipped d S -> fitted = st_fitted S ->
  exists c, construct (st_params S) = Ok c /\ forall E ind heap next, e_c E = c -> env_ok E -> nonneg_dx (e_D E) ->
  let s0 := init_state fitted ind heap next in
  exists s1 b A0 A1, driver_setup E s0 = (Ok (Some b), s1) /\ s_fim s1 = Some A0 /\ s_slm s1 = Some A1 /\
  forall lu pard S0 S1 F0 F1,
  (have = true -> pard A0 = Ok S0 /\ pard A1 = Ok S1) -> (have = false -> lu A0 = S0 /\ lu A1 = S1) ->
  computes E S0 F0 -> computes E S1 F1 ->
  exists B : vec -> vec, forall ext ev pt db xa m k db', b <> xa ->
  configure db 100000 (Some 1e-7) None true None = Ok (k, db') ->
  no_alias (ext k (dimF E) b xa) -> spares b (ext k (dimF E) b xa) ->
  let out := pure_ksp (st_op (st_params S) E gamma_shipped (s_om s0)) B (dimF E) (ext k (dimF E) b xa) (upd xa (fun _ => 0) (s_heap s1)) in
  exists s', solve_problem E ext lu pard ev pt db d (SOLVER_TYPE have) b xa m s1 = (if Z.ltb (o_reason (fst out)) 0 then Err PETScError else Ok tt, s')
    /\ veq (dimF E) (s_heap s' xa) (snd out xa) /\ s_heap s' b = s_heap s1 b.
Proof.
  intros d S have fitted H Hf. destruct (shipped_good d S H) as [c [Hc HG]]. destruct (shipped_params d S H) as [_ [_ [_ [_ [_ [_ [Hj Hw]]]]]]].
  exists c. split; [exact Hc|]. intros E ind heap next HE Hok Hnn s0. specialize (HG E HE).
  destruct (C55_partial (st_params S) E gamma_shipped fitted ind heap next HG ltac:(cbn; lra) Hok Hj Hw Hnn) as [s1 [b [A0 [A1 [D1 [D2 [D3 K]]]]]]].
  exists s1, b, A0, A1. split; [exact D1|]. split; [exact D2|]. split; [exact D3|]. intros lu pard S0 S1 F0 F1 P1 P2 C0 C1.
  destruct (K lu pard (SOLVER_TYPE have) S0 S1 F0 F1) as [B [_ [_ R]]]; try assumption.
  - destruct have; discriminate.
  - destruct have; cbn; [apply P1; reflexivity|f_equal; apply P2; reflexivity].
  - destruct have; cbn; [apply P1; reflexivity|f_equal; apply P2; reflexivity].
  - exists B. intros ext ev pt db xa m k db' Hb Hk Ha Hs out. exact (R d ext ev pt db xa m k db' Hb Hk Ha Hs).
Qed.

(** * The meshes resolve the data domain *)
(** points of the open cell (i_1, .., i_d) of the uniform mesh with [n] cells per direction *)
Definition in_cell (n : nat) (cell : list nat) (p : list R) : Prop :=
  List.length p = List.length cell /\ forall k, (k < List.length cell)%nat ->
    INR (nth k cell 0%nat) < INR n * nth k p 0 < INR (nth k cell 0%nat) + 1.
(** an indicator is constant on every cell: then its values at the cells describe it *)
Definition resolved (n dim : nat) (ind : list R -> res R) : Prop :=
  forall cell p p', List.length cell = dim -> (forall i, In i cell -> (i < n)%nat) -> in_cell n cell p -> in_cell n cell p' -> ind p = ind p'.
Definition at_point (ind : points -> res (list R)) (p : list R) : res R :=
  rbind (ind [p]) (fun l => match l with [a] => Ok a | _ => Err ValueError end).

Lemma side_const (n a : nat) m x y t : (1 <= n)%nat -> INR n * t = INR m -> INR a < INR n * x < INR a + 1 -> INR a < INR n * y < INR a + 1 ->
  (x < t /\ y < t) \/ (t < x /\ t < y).
Proof.
  intros Hn Ht Hx Hy. assert (0 < INR n) by (apply lt_0_INR; lia).
  destruct (le_lt_dec (S a) m) as [L|L].
  - left. apply le_INR in L. rewrite S_INR in L. split; apply (Rmult_lt_reg_l (INR n)); lra.
  - right. assert (L' : (m <= a)%nat) by lia. apply le_INR in L'. split; apply (Rmult_lt_reg_l (INR n)); lra.
Qed.
Lemma char_one (ind : points -> res (list R)) (Q : list R -> Prop) : (forall x, exists v, ind x = Ok v /\ char x Q v) ->
  forall p p', (Q p <-> Q p') -> (Q p \/ ~ Q p) -> at_point ind p = at_point ind p'.
Proof.
  intros H p p' HQ HD. unfold at_point. destruct (H [p]) as [v [-> [L C]]]. destruct (H [p']) as [v' [-> [L' C']]].
  destruct v as [|a [|]]; try discriminate L. destruct v' as [|a' [|]]; try discriminate L'.
  destruct (C 0%nat ltac:(cbn; lia)) as [C1 C2]. destruct (C' 0%nat ltac:(cbn; lia)) as [C1' C2']. cbn [nth] in *. cbn [rbind]. f_equal.
  destruct HD as [D|D]; [rewrite C1, C1'|rewrite C2, C2']; tauto.
Qed.
Theorem C73_mesh_1d : forall o N, (1 <= N)%nat ->
  resolved (st_cells (setting_1d o N)) 1 (at_point omega_ind_nogcc_1d) /\
  resolved (st_cells (setting_1d o N)) 1 (at_point omega_ind_convex_1d).
Proof.
  intros o N HN. cbn [setting_1d st_cells].
  assert (K : forall cell p p', List.length cell = 1%nat -> in_cell (5 * N) cell p -> in_cell (5 * N) cell p' ->
    ((nth 0 p 0 < 1/5 /\ nth 0 p' 0 < 1/5) \/ (1/5 < nth 0 p 0 /\ 1/5 < nth 0 p' 0)) /\
    ((nth 0 p 0 < 4/5 /\ nth 0 p' 0 < 4/5) \/ (4/5 < nth 0 p 0 /\ 4/5 < nth 0 p' 0))).
  { intros cell p p' HL [_ H1] [_ H2]. specialize (H1 0%nat ltac:(lia)). specialize (H2 0%nat ltac:(lia)). split.
    - apply (side_const (5 * N) (nth 0 cell 0%nat) N); [lia| |exact H1|exact H2]. rewrite mult_INR. cbn [INR]. lra.
    - apply (side_const (5 * N) (nth 0 cell 0%nat) (4 * N)); [lia| |exact H1|exact H2]. rewrite !mult_INR. cbn [INR]. lra. }
  split; intros cell p p' HL _ H1 H2; destruct (K cell p p' HL H1 H2) as [K1 K2].
  - apply (char_one _ (fun p => co 0 p <= 1/5)); [intro x; apply C53_1d| |]; lra.
  - apply (char_one _ (fun p => co 0 p <= 1/5 \/ 4/5 <= co 0 p)); [intro x; apply C53_1d| |]; lra.
Qed.
Lemma levels_Nx lvl Nx : py_index Nxs lvl = Ok Nx -> Nx = 2%nat \/ exists m, Nx = (4 * m)%nat /\ (1 <= m)%nat.
Proof.
  intro H. assert (R : (-6 <= lvl < 6)%Z \/ ~ (-6 <= lvl < 6)%Z) by lia. destruct R as [R|R].
  - rewrite (py_index_in _ 0%nat) in H by exact R. injection H as <-.
    change (Z.of_nat (List.length Nxs)) with 6%Z. pose proof (Z.mod_pos_bound lvl 6 ltac:(lia)) as B.
    set (m := (lvl mod 6)%Z) in *. clearbody m.
    assert (m = 0 \/ m = 1 \/ m = 2 \/ m = 3 \/ m = 4 \/ m = 5)%Z as Q by lia.
    destruct Q as [->|[->|[->|[->|[->| ->]]]]]; [left; reflexivity|right|right|right|right|right].
    + exists 1%nat. split; [reflexivity|lia].
    + exists 2%nat. split; [reflexivity|lia].
    + exists 4%nat. split; [reflexivity|lia].
    + exists 8%nat. split; [reflexivity|lia].
    + exists 16%nat. split; [reflexivity|lia].
  - rewrite py_index_out in H by exact R. discriminate.
Qed.
(** the flag "fitted" of the 3D driver is set exactly when the mesh resolves its data
    domain, with either choice of GCC *)
Theorem C73_mesh_3d : forall o lvl S GCC, setting_3d o lvl = Ok S ->
  (st_fitted S = true <-> resolved (st_cells S) 3 (indicator_3d GCC (st_cells S))).
Proof.
  intros o lvl S GCC HS. unfold setting_3d, rbind in HS. destruct (py_index REF_LVL_TO_N lvl) as [N|]; [|discriminate].
  destruct (py_index Nxs lvl) as [Nx|] eqn:E; [|discriminate]. injection HS as <-. cbn [st_fitted st_cells].
  destruct (levels_Nx _ _ E) as [->|[m [-> Hm]]].
  - split; [intro H; discriminate H|]. intro H. exfalso.
    specialize (H [0%nat; 0%nat; 0%nat] [1/10; 1/10; 1/10] [4/10; 4/10; 4/10] eq_refl).
    assert (C : forall x, 0 < x < 1/2 -> in_cell 2 [0%nat; 0%nat; 0%nat] [x; x; x]).
    { intros x Hx. split; [reflexivity|]. intros k Hk. cbn [List.length] in Hk.
      destruct k as [|[|[|k]]]; [| | |lia]; cbn [nth INR]; lra. }
    specialize (H ltac:(intros i Hi; cbn in Hi; lia) (C (1/10) ltac:(lra)) (C (4/10) ltac:(lra))).
    unfold indicator_3d in H. change (Nat.ltb 2 2) with false in H. cbv iota in H. destruct GCC; injection H as H.
    + rewrite (proj1 (C53_3d_ufl [1/10; 1/10; 1/10])) in H by (exists 0%nat; split; [lia|cbn; lra]).
      rewrite (proj2 (C53_3d_ufl [4/10; 4/10; 4/10])) in H; [lra|]. unfold outside_box. rewrite ex3. cbn [nth]. intros [[F|F]|[[F|F]|[F|F]]]; lra.
    + destruct (C53_3d_side [[1/10; 1/10; 1/10]; [4/10; 4/10; 4/10]]) as [v [_ [[_ B] D]]].
      pose proof (D 0%nat ltac:(cbn; lia)) as D0. pose proof (D 1%nat ltac:(cbn; lia)) as D1. cbn [nth] in D0, D1.
      rewrite <- D0, <- D1 in H.
      rewrite (proj1 (B 0%nat ltac:(cbn; lia))) in H by (cbn [nth]; lra). rewrite (proj2 (B 1%nat ltac:(cbn; lia))) in H; [lra|]. cbn [nth]. lra.
  - split; [|intros _; apply Nat.ltb_lt; lia]. intros Hf cell p p' HL _ [Lp H1] [Lp' H2].
    unfold indicator_3d. rewrite Hf. rewrite HL in *.
    assert (K : forall k, (k < 3)%nat ->
      ((co k p < 1/4 /\ co k p' < 1/4) \/ (1/4 < co k p /\ 1/4 < co k p')) /\ ((co k p < 3/4 /\ co k p' < 3/4) \/ (3/4 < co k p /\ 3/4 < co k p'))
      /\ 0 < co k p /\ 0 < co k p').
    { intros k Hk. specialize (H1 k Hk). specialize (H2 k Hk). split; [|split].
      - apply (side_const (4 * m) (nth k cell 0%nat) m); [lia| |exact H1|exact H2]. rewrite mult_INR. cbn [INR]. lra.
      - apply (side_const (4 * m) (nth k cell 0%nat) (3 * m)); [lia| |exact H1|exact H2]. rewrite !mult_INR. cbn [INR]. lra.
      - assert (0 < INR (4 * m)) by (apply lt_0_INR; lia). pose proof (pos_INR (nth k cell 0%nat)).
        split; apply (Rmult_lt_reg_l (INR (4 * m))); lra. }
    pose proof (K 0%nat ltac:(lia)) as K0. pose proof (K 1%nat ltac:(lia)) as K1. pose proof (K 2%nat ltac:(lia)) as K2.
    destruct GCC.
    + apply (char_one _ near_boundary); [exact C53_3d| |]; unfold near_boundary; rewrite ?ex3.
      * split; intro; lra.
      * destruct K0 as [[[]|[]] [[[]|[]] _]]; destruct K1 as [[[]|[]] [[[]|[]] _]]; destruct K2 as [[[]|[]] [[[]|[]] _]]; lra.
    + apply (char_one _ (fun p => 0 <= co 0 p <= 1/4)); [intro x; destruct (C53_3d_side x) as [v [A [B _]]]; exists v; auto| |]; lra.
Qed.

(** 2D: every index of the tables, also a negative one, gives 2^l slabs and the mesh
    refined l times, l = index mod 6 *)
Theorem C73_mesh_2d : forall entities com msh_file build refine v07 rank remote h s o, g_open s = false ->
  (rank <> 0%nat -> remote = Some (prune_z (file_around entities com msh_file h))) ->
  exists ms s', get_mesh_data_all_around entities com msh_file build refine v07 rank remote 5 h s = (Ok ms, s') /\
  forall lvl, ((-6 <= lvl < 6)%Z -> let l := Z.to_nat (lvl mod 6) in exists S,
    setting_2d ms o lvl = Ok (S, Nat.iter l (fun m => refine m (right_edges m)) (mesh_of build (file_around entities com msh_file h)))
    /\ p_N (st_params S) = (2 ^ l)%nat) /\
  (~ (-6 <= lvl < 6)%Z -> setting_2d ms o lvl = Err IndexError).
Proof.
  intros entities com msh_file build refine v07 rank remote h s o HO HR.
  destruct (C66_levels entities com msh_file build refine v07 rank remote h s HO HR) as [ms [s' [E HL]]]. exists ms, s'. split; [exact E|].
  assert (LM : List.length ms = 6%nat).
  { destruct (C56_partial entities com msh_file build refine rank remote 5 h s HO) as [_ [_ [_ H]]].
    destruct (H v07 HR) as [ms' [s'' [E' [EL _]]]]. rewrite E in E'. injection E' as <- _. exact EL. }
  intro lvl. split.
  - intros Hl l. unfold setting_2d, rbind. rewrite (py_index_in REF_LVL_TO_N 0%nat) by exact Hl.
    pose proof (Z.mod_pos_bound lvl 6 ltac:(lia)) as B. assert (Ll : (l < 6)%nat) by (unfold l; lia). destruct (HL l Ll) as [H1 H2].
    assert (d : mesh) by (destruct ms as [|d ms]; [discriminate LM|exact d]).
    rewrite (py_index_in ms d) by (rewrite LM; exact Hl). rewrite LM. change (Z.of_nat 6) with 6%Z.
    change (Z.of_nat (List.length REF_LVL_TO_N)) with 6%Z. fold l.
    eexists. split.
    + rewrite (nth_error_nth ms l d H2). reflexivity.
    + cbn [st_params driver_params p_N]. apply (nth_error_nth REF_LVL_TO_N l 0%nat H1).
  - intro Hl. apply (proj2 (proj1 (proj2 (proj2 (proj2 (proj2 C73_refused)))) _ ms o lvl LM) Hl).
Qed.

(** the values in the files; all three run, only the coarsest 3D mesh uses the data *)
Example C73_nonvacuous : shipped Driver1D (setting_1d 1 32) /\
  (forall mesh (ms : list mesh), List.length ms = 6%nat -> exists S m, setting_2d ms 3 3 = Ok (S, m) /\ shipped Driver2D S /\ p_N (st_params S) = 8%nat) /\
  (exists S, setting_3d 1 3 = Ok S /\ shipped Driver3D S /\ st_fitted S = true /\ p_N (st_params S) = 8%nat /\ st_cells S = 16%nat) /\
  (exists S, setting_3d 1 0 = Ok S /\ shipped Driver3D S /\ st_fitted S = false /\ p_N (st_params S) = 1%nat) /\
  (forall d S, shipped d S -> st_fitted S = false -> d = Driver3D /\ st_cells S = 2%nat) /\
  in_cell 160 [31%nat] [0.198] /\ SOLVER_TYPE true = Pypardiso.
Proof.
  split; [apply shipped_1d; lia|]. split; [|split; [|split; [|split; [|split; [|reflexivity]]]]].
  - intros mesh ms HL. destruct (proj1 (proj1 (proj2 (proj2 (proj2 (proj2 C73_refused)))) mesh ms 3%nat 3%Z HL)) as [S [m E]]; [lia|].
    exists S, m. split; [exact E|]. split; [apply (shipped_2d mesh ms 3 3 S m); [lia|exact E]|].
    unfold setting_2d, rbind in E. cbn [py_index] in E. destruct (py_index ms 3); [|discriminate]. injection E as <- _. reflexivity.
  - eexists. split; [reflexivity|]. split; [apply (shipped_3d 1 3); [lia|reflexivity]|]. repeat split.
  - eexists. split; [reflexivity|]. split; [apply (shipped_3d 1 0); [lia|reflexivity]|]. repeat split.
  - intros d S H Hf. destruct H as [o N Ho HN|mesh ms o lvl S m Ho HS|o lvl S Ho HS]; [discriminate Hf| |].
    + unfold setting_2d, rbind in HS. destruct (py_index REF_LVL_TO_N lvl); [|discriminate]. destruct (py_index ms lvl); [|discriminate].
      injection HS as <- _. discriminate Hf.
    + split; [reflexivity|]. unfold setting_3d, rbind in HS. destruct (py_index REF_LVL_TO_N lvl); [|discriminate].
      destruct (py_index Nxs lvl) as [Nx|] eqn:E; [|discriminate]. injection HS as <-. cbn [st_fitted st_cells] in *.
      destruct (levels_Nx _ _ E) as [->|[m [-> Hm]]]; [reflexivity|]. apply Nat.ltb_ge in Hf. lia.
  - split; [reflexivity|]. intros k Hk. cbn [List.length] in Hk. replace k with 0%nat by lia. cbn [nth].
    replace (INR 160) with 160 by (cbn; lra). replace (INR 31) with 31 by (cbn; lra). decimals. lra.
Qed.

Print Assumptions C73_accepted.
Print Assumptions C73_constants.
Print Assumptions C73_refused.
Print Assumptions C73_solvers.
Print Assumptions C73_mesh_1d.
Print Assumptions C73_mesh_3d.
Print Assumptions C73_mesh_2d.
