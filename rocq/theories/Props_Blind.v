(** Props_Blind.v -- property C96: orders in space and the quadrature degree.

    space_time.py:127-128 fixes the degree of the dx rule to 2k+3, whatever kstar is.
    The systems of SpaceTime are solvable exactly when no function of either space vanishes
    at all dx points; on an interval, with the k+2 points that a Gauss rule of this degree
    has in each cell, exactly when kstar <= k + 1. *)
From Coq Require Import Reals List ZArith Lra Lia Bool String.
From Coquelicot Require Import Coquelicot.
From Verif Require Import Base TimeModel TimeSpec TimeProofs QuadProofs FormModel FormSpec FormProofs
  SpaceTimeForms FormBlocks GuardProofs FormTime FormC12 FormSym FormStruct FormWf FormExample Props_Forms
  SpaceTimeModel SlabOps ApplyProofs MarchProofs MarchSum Lifecycle LifeProofs OpsProofs LinAlg WellPosed Injective Props_Ops
  Props_WellPosed Observe Props_Observe Space1D Props_Space1D DriverModel DriverConfig Props_Config Blind.
Import ListNotations.
Open Scope R_scope.

(** a nonzero vector in the kernel of the matrix and of its transpose *)
Definition singular (n : nat) (A : matrix) : Prop := exists x, (exists i, (i < n)%nat /\ x i <> 0)
  /\ (forall i, (i < n)%nat -> sumn n (fun j => A i j * x j) = 0)
  /\ (forall j, (j < n)%nat -> sumn n (fun i => A i j * x i) = 0).
(** a function of space s, not zero, whose mean square computed by the dx rule is zero *)
Definition blind (D : disc) (s : fsp) : Prop :=
  exists a, L2 D s s a a = 0 /\ exists l, (l < d_dim D s)%nat /\ a l <> 0.

Lemma mult_col n A y x : sumn n (fun i => x i * mult n A y i) = sumn n (fun j => y j * sumn n (fun i => A i j * x i)).
Proof.
  rewrite (Rsum_ext _ _ (fun i => sumn n (fun j => x i * (A i j * y j)))) by (intro i; unfold mult; rewrite Rsum_scal; reflexivity).
  rewrite Rsum_swap. apply Rsum_ext. intro j. rewrite <- Rsum_scal. apply Rsum_ext. intro i. ring.
Qed.
Theorem C96_unsolvable : forall n A, singular n A ->
  ~ uniquely_solvable n A /\ exists b, forall x, exists i, (i < n)%nat /\ mult n A x i <> b i.
Proof.
  intros n A [x [[i0 [Hi0 Hx0]] [Hr Hc]]]. split.
  - intro U. apply Hx0. apply (unique_injective n A U x Hr i0 Hi0).
  - exists x. intro y.
    destruct (zero_row n (fun i => mult n A y i - x i)) as [Z|[i [Hi Hne]]]; [|exists i; split; [exact Hi|lra]].
    exfalso. pose proof (mult_col n A y x) as E.
    rewrite (Rsum_zero (seq 0 n) (fun j => y j * sumn n (fun i => A i j * x i))) in E.
    2: { intros j Hj. apply in_seq in Hj. rewrite Hc by lia. ring. }
    rewrite (sumn_ext n _ (fun i => x i * x i)) in E by (intros i Hi; specialize (Z i Hi); cbv beta in Z; f_equal; lra).
    pose proof (Rsum_nonneg_zero (seq 0 n) (fun i => x i * x i) (fun i _ => Rle_0_sqr (x i)) E i0 ltac:(apply in_seq; lia)) as Q.
    apply Rmult_integral in Q. tauto.
Qed.

Lemma blind_singular D nb nc L f om s j : lay_ok D nb nc L -> wf_bform nb nc f = true -> plain j f = true ->
  (j < nb)%nat -> (0 < nc j)%nat -> spc j = s -> regular D om -> blind D s -> singular (lay_dim L) (assemble D L f).
Proof.
  intros HL HW HP Hj Hn <- HR [a [Ha [l [Hl Hal]]]].
  destruct (spike_kernel D nb nc L f j 0 a HL HW HP Hj Hn (massless D om _ a HR Ha)) as [x [Hx [_ [Hr Hc]]]].
  exists x. split; [|split].
  - exists (dof L j 0 l). split; [apply (dof_lt D nb nc); assumption|]. rewrite Hx by exact Hl. exact Hal.
  - intros i _. apply Hr.
  - intros k Hk. pose proof (Hc (unitv k)) as E. rewrite mult_col in E. unfold unitv in E. rewrite sumn_delta in E by exact Hk. exact E.
Qed.
Definition v_block (s : fsp) : nat := match s with Vp => 1 | Vd => 3 end.
Lemma v_block_ok s : (v_block s = 1%nat \/ v_block s = 3%nat) /\ (v_block s < 4)%nat /\ spc (v_block s) = s.
Proof. destruct s; cbn; repeat split; try lia; tauto. Qed.

(** * Necessary *)
Theorem C96_space_time : forall P c g om D L s precond, construct P = Ok c -> lay_ok D 4 (nc_full c) L -> regular D om ->
  blind D s -> singular (lay_dim L) (st_matrix D L c g om precond).
Proof.
  intros P c g om D L s precond HC HL HR HB. destruct (v_block_ok s) as [A [B C]]. pose proof (construct_inv _ _ HC) as HBu.
  pose proof (bu_N _ _ HBu). apply (blind_singular D 4 (nc_full c) L _ om s (v_block s)); try assumption; [apply wf_st; assumption|apply plain_st, A|].
  unfold nc_full, ntime. nia.
Qed.
Theorem C96_slab : forall P c g om D L s jumps, construct P = Ok c -> lay_ok D 4 (nc_pre c) L -> regular D om ->
  blind D s -> singular (lay_dim L) (assemble D L (slab_form c g om jumps)).
Proof.
  intros P c g om D L s b HC HL HR HB. destruct (v_block_ok s) as [A [B C]].
  apply (blind_singular D 4 (nc_pre c) L _ om s (v_block s)); try assumption; [apply wf_slab|apply plain_slab, A|].
  unfold nc_pre, ntime. lia.
Qed.
(** the kernel contains every such function in the second dual component of any time node;
    nothing else of the solution is affected and the right-hand side is compatible *)
Theorem C96_kernel : forall P c g om D L s i a precond, construct P = Ok c -> lay_ok D 4 (nc_full c) L -> regular D om ->
  L2 D s s a a = 0 -> (i < nc_full c (v_block s))%nat ->
  exists x, (forall l, (l < d_dim D s)%nat -> x (dof L (v_block s) i l) = a l)
    /\ (forall j' i' l, (j' < 4)%nat -> (i' < nc_full c j')%nat -> (l < d_dim D (spc j'))%nat ->
          (j', i') <> (v_block s, i) -> x (dof L j' i' l) = 0)
    /\ (forall y r I, mult (lay_dim L) (st_matrix D L c g om precond) (fun J => y J + r * x J) I
          = mult (lay_dim L) (st_matrix D L c g om precond) y I)
    /\ (forall gd gj xs u1v u1g u2v, dotn (lay_dim L) x (assemble_vec D L (rhs_form c om gd gj xs u1v u1g u2v)) = 0).
Proof.
  intros P c g om D L s i a precond HC HL HR Ha Hi. destruct (v_block_ok s) as [A [B C]]. pose proof (construct_inv _ _ HC) as HBu.
  pose proof (bu_N _ _ HBu) as HN. pose proof (massless D om s a HR Ha) as HM. rewrite <- C in HM.
  destruct (spike_kernel D 4 (nc_full c) L (st_form c g om precond) (v_block s) i a HL (wf_st c g om precond HN)
    (plain_st c g om _ A precond) B Hi HM) as [x [Hx [H0 [Hr _]]]].
  exists x. split; [intros l Hl; apply Hx; rewrite C; exact Hl|]. split; [exact H0|]. split.
  - intros y r I. unfold st_matrix. pose proof (Hr I) as E. unfold mult in *.
    rewrite (Rsum_ext _ _ (fun J => assemble D L (st_form c g om precond) I J * y J + r * (assemble D L (st_form c g om precond) I J * x J))) by (intro; ring).
    rewrite Rsum_plus, Rsum_scal, E. ring.
  - intros gd gj xs u1v u1g u2v. unfold dotn.
    rewrite (dot_assemble_vec D 4 (nc_full c)) by (try exact HL; apply wf_rhs, HN).
    rewrite (leval_ext D 4 (nc_full c) _ _ (spike (v_block s) i a)).
    + apply (hidden_leval D 4 (nc_full c) (v_block s)); [apply wf_rhs, HN|apply plain_rhs, A|apply spike_hidden, HM].
    + apply wf_rhs, HN.
    + intros j' i' l Hj' Hi' Hl. unfold field_of, spike. destruct (Nat.eqb_spec j' (v_block s)) as [->|Hne].
      * destruct (Nat.eqb_spec i' i) as [->|Hne]; [apply Hx, Hl|apply H0; congruence || assumption].
      * apply H0; congruence || assumption.
Qed.

(** the operator GMRES works with: such functions are multiplied to zero *)
Theorem C96_operator : forall P E om sp s s' vi vo, construct P = Ok (e_c E) -> env_ok E -> reached E om s -> vi <> vo ->
  regular (e_D E) om -> apply_spacetime_matrix E vi vo s = (Ok tt, s') ->
  (forall i, (i < nc_full (e_c E) (v_block sp))%nat ->
     L2 (e_D E) sp sp (fun l => s_heap s vi (dof (e_Lf E) (v_block sp) i l)) (fun l => s_heap s vi (dof (e_Lf E) (v_block sp) i l)) = 0) ->
  (forall j i l, (j < 4)%nat -> (i < nc_full (e_c E) j)%nat -> (l < d_dim (e_D E) (spc j))%nat -> j <> v_block sp ->
     s_heap s vi (dof (e_Lf E) j i l) = 0) ->
  forall I, (I < dimF E)%nat -> s_heap s' vo I = 0.
Proof.
  intros P E om sp s s' vi vo HC HE HS Hv HR Hrun Hm Hz I HI.
  destruct (apply_result E om s s' vi vo HE HS Hv Hrun) as [g [_ [Happ _]]]. rewrite Happ by exact HI.
  destruct (v_block_ok sp) as [A [B C]]. set (v := v_block sp) in *. set (X := fldF E (s_heap s vi)).
  assert (K1 : forall i p, (i < nc_full (e_c E) v)%nat -> In p (d_pts (e_D E) Dx) ->
    d_w (e_D E) Dx p * fev (e_D E) Dx (spc v) Val (X v i) p 0 = 0).
  { intros i p Hi Hp. rewrite C. exact (massless (e_D E) om sp _ HR (Hm i Hi) p Hp). }
  unfold applyF. apply Rsum_zero. intros n Hn. apply in_seq in Hn.
  assert (Hn' : (n < c_N (e_c E))%nat) by lia.
  assert (E1 : aS E g om n X (basF E I) = 0).
  { unfold aS. apply (hidden_range (e_D E) 4 (nc_pre (e_c E)) v); [apply wf_slab|apply plain_slab, A| |].
    - intros i p _ Hi Hp. apply (K1 (n * ntime (e_c E) v + i)%nat p); [|exact Hp].
      exact (up_slab_lt (e_c E) n v i Hn' (proj2 (in_slab_idx (e_c E) v i) (conj B Hi))).
    - intros j i l Hj Hi Hl Hne. rewrite restr_at. apply Hz; try assumption.
      exact (up_slab_lt (e_c E) n j i Hn' (proj2 (in_slab_idx (e_c E) j i) (conj Hj Hi))). }
  assert (E2 : aC E (g_jump g) n X (basF E I) = 0).
  { unfold aC. destruct (Nat.ltb_spec 0 n); [|reflexivity].
    apply (hidden_range (e_D E) 2 nc_coup v); [apply wf_coup|apply plain_coup, A| |].
    - intros i p h Hi Hp. apply (K1 (up_coup (e_c E) n v i) p); [|exact Hp]. apply up_coup_lt; auto; apply in_coup_idx; auto.
    - intros j i l Hj Hi Hl Hne. unfold pull. apply Hz; auto; try lia. apply up_coup_lt; auto; apply in_coup_idx; auto. }
  rewrite E1, E2. ring.
Qed.

(** more functions than points: always *)
Theorem C96_more_functions : forall D s, (List.length (d_pts D Dx) < d_dim D s)%nat -> blind D s.
Proof.
  intros D s H. destruct (more_dofs D s H) as [a [Ha Hz]]. exists a. split; [|exact Ha].
  unfold L2, sp, integ. cbn [ncomp]. apply Rsum_zero. intros p Hp. cbn [seq]. rewrite Rsum_cons, Rsum_nil, Hz by exact Hp. ring.
Qed.
Lemma blind_definite D s : ~ blind D s -> definite D s.
Proof.
  intros H a Ha l Hl. destruct (Req_dec (a l) 0) as [E|E]; [exact E|]. exfalso. apply H. exists a. split; [exact Ha|]. exists l. split; assumption.
Qed.
Lemma definite_blind D s : definite D s -> ~ blind D s.
Proof. intros H [a [Ha [l [Hl Hne]]]]. apply Hne, (H a Ha l Hl). Qed.

(** * Necessary and sufficient *)
Theorem C96_slab_iff : forall P c g om D L, construct P = Ok c -> 0 < p_T P -> lay_ok D 4 (nc_pre c) L -> regular D om -> weights_ok P g ->
  (uniquely_solvable (lay_dim L) (assemble D L (slab_form c g om true)) <-> ~ blind D Vp /\ ~ blind D Vd).
Proof.
  intros P c g om D L HC HT HL HR HW. split.
  - intro U. split; intro B; refine (proj1 (C96_unsolvable _ _ (C96_slab P c g om D L _ true HC HL HR B)) U).
  - intros [A B]. apply (C67_slab_problem P); try assumption; apply blind_definite; assumption.
Qed.
Theorem C96_space_time_iff : forall P c g om D L, construct P = Ok c -> 0 < p_T P -> p_wp P = true -> lay_ok D 4 (nc_full c) L -> regular D om ->
  0 <= g_data g -> 0 < g_dual g -> 0 < g_primal g -> 0 < g_jump g -> 4 * 1e-20 ^ 2 < g_jump g * g_dual g ->
  (uniquely_solvable (lay_dim L) (st_matrix D L c g om false) <-> ~ blind D Vp /\ ~ blind D Vd).
Proof.
  intros P c g om D L HC HT Hwp HL HR G1 G2 G3 G4 G5. split.
  - intro U. split; intro B; refine (proj1 (C96_unsolvable _ _ (C96_space_time P c g om D L _ false HC HL HR B)) U).
  - intros [A B]. apply (C68_space_time_problem P); try assumption; apply blind_definite; assumption.
Qed.

(** * Solvers *)
(** no solver of the slab problems returns a solution for every right-hand side *)
Theorem C96_no_solver : forall P E om s sp S0 S1, construct P = Ok (e_c E) -> env_ok E -> reached E om s ->
  s_fim s <> None -> s_slm s <> None -> regular (e_D E) om -> blind (e_D E) sp ->
  exact_solvers E s S0 S1 -> ~ total S0 /\ ~ total S1.
Proof.
  intros P E om s sp S0 S1 HC HE HS H0 H1 HR HB [X0 X1]. pose proof (construct_inv _ _ HC) as HBu.
  destruct (s_fim s) as [A0|] eqn:E0; [|congruence]. destruct (s_slm s) as [A1|] eqn:E1; [|congruence].
  destruct (wf_slab_mats E om s A0 A1 (reached_wf _ _ _ HS) E0 E1) as [_ [g [Hg [M0 M1]]]].
  assert (K : forall b A S, A = assemble (e_D E) (e_Lp E) (slab_form (e_c E) g om b) -> exact (lay_dim (e_Lp E)) A S -> ~ total S).
  { intros b A S HA HX HT. subst A.
    destruct (C96_unsolvable _ _ (C96_slab P (e_c E) g om (e_D E) (e_Lp E) sp b HC (eo_p _ HE) HR HB)) as [_ [r Hr]].
    destruct (HT r (fun _ => 0)) as [u Hu]. destruct (Hr u) as [i [Hi Hne]]. apply Hne, (HX r (fun _ => 0) u Hu i Hi). }
  split; [|exact (K true A1 S1 M1 (X1 A1 eq_refl))].
  unfold MarchSum.fn in M0. exact (K _ A0 S0 M0 (X0 A0 eq_refl)).
Qed.

(** * On an interval *)
Lemma pts1 n xs kp kd qp : List.length (d_pts (disc1 n xs kp kd qp) Dx) = (n * List.length qp)%nat.
Proof. cbn. apply seq_length. Qed.
(** as many nodes as points, or more *)
Theorem C96_interval_blind : forall n xs kp kd qp s, (1 <= n)%nat -> (List.length qp <= dg kp kd s)%nat -> blind (disc1 n xs kp kd qp) s.
Proof.
  intros n xs kp kd qp s Hn H. apply C96_more_functions. rewrite pts1. change (d_dim (disc1 n xs kp kd qp) s) with (S (n * dg kp kd s))%nat. nia.
Qed.
(** the rule of degree 2k+3 has k+2 points *)
Theorem C96_points : forall P, quadrature_degree P = (2 * p_k P + 3)%nat /\ rule_points (quadrature_degree P) = (p_k P + 2)%nat.
Proof.
  intro P. split; [reflexivity|]. unfold rule_points, quadrature_degree. symmetry. apply (Nat.div_unique _ 2 _ 1); lia.
Qed.
Theorem C96_interval : forall n xs kp kd qp, mesh1 n xs kp kd qp (2 * kp + 3) -> List.length qp = (kp + 2)%nat ->
  ~ blind (disc1 n xs kp kd qp) Vp /\ (blind (disc1 n xs kp kd qp) Vd <-> (kp + 2 <= kd)%nat).
Proof.
  intros n xs kp kd qp HM Hl. pose proof (m1_n _ _ _ _ _ _ HM). split; [|split].
  - apply definite_blind, (C75_definite _ _ _ _ _ _ Vp HM). cbn. lia.
  - intro B. destruct (le_lt_dec (kp + 2) kd) as [h|h]; [exact h|]. exfalso. revert B.
    apply definite_blind, (C75_definite _ _ _ _ _ _ Vd HM). cbn. lia.
  - intro h. apply C96_interval_blind; [assumption|cbn; lia].
Qed.
Theorem C96_interval_solvable : forall P c g om n xs qp Lp Lf, construct P = Ok c -> 0 < p_T P -> p_wp P = true ->
  mesh1 n xs (p_k P) (p_kstar P) qp (quadrature_degree P) -> List.length qp = rule_points (quadrature_degree P) -> (forall p, 0 <= om p) -> weights_ok P g ->
  let D := disc1 n xs (p_k P) (p_kstar P) qp in
  lay_ok D 4 (nc_pre c) Lp -> lay_ok D 4 (nc_full c) Lf -> 4 * 1e-20 ^ 2 < g_jump g * g_dual g ->
  (uniquely_solvable (lay_dim Lp) (assemble D Lp (slab_form c g om true)) <-> (p_kstar P <= p_k P + 1)%nat)
  /\ (uniquely_solvable (lay_dim Lf) (st_matrix D Lf c g om false) <-> (p_kstar P <= p_k P + 1)%nat)
  /\ ((p_k P + 2 <= p_kstar P)%nat -> forall b, singular (lay_dim Lf) (st_matrix D Lf c g om b) /\ singular (lay_dim Lp) (assemble D Lp (slab_form c g om b))).
Proof.
  intros P c g om n xs qp Lp Lf HC HT Hwp HM Hl Ho HW D HLp HLf HG. destruct (C96_points P) as [Q1 Q2]. rewrite Q2 in Hl. rewrite Q1 in HM.
  destruct (C96_interval _ _ _ _ _ HM Hl) as [Bp Bd]. pose proof (C75_regular _ _ _ _ _ _ om HM Ho) as HR.
  assert (Q : ~ blind D Vp /\ ~ blind D Vd <-> (p_kstar P <= p_k P + 1)%nat).
  { unfold D. rewrite Bd. split; [intros [_ h]; lia|intro h; split; [exact Bp|lia]]. }
  pose proof HW as [G1 [G2 [G3 [G4 _]]]]. split; [|split].
  - rewrite <- Q. apply (C96_slab_iff P); assumption.
  - rewrite <- Q. apply (C96_space_time_iff P); assumption.
  - intros h b. assert (B : blind D Vd) by (apply Bd, h).
    split; [apply (C96_space_time P _ _ _ _ _ Vd)|apply (C96_slab P _ _ _ _ _ Vd)]; assumption.
Qed.
(** the orders of the three drivers stay below the limit *)
Theorem C96_shipped : forall o N lvl mesh (ms : list mesh),
  (p_kstar (st_params (setting_1d o N)) <= p_k (st_params (setting_1d o N)) + 1)%nat
  /\ (forall S m, setting_2d ms o lvl = Ok (S, m) -> (p_kstar (st_params S) <= p_k (st_params S) + 1)%nat)
  /\ (forall S, setting_3d o lvl = Ok S -> (p_kstar (st_params S) <= p_k (st_params S) + 1)%nat).
Proof.
  intros o N lvl mesh ms. destruct (C73_constants o N lvl mesh ms) as [A [B C]]. cbv zeta in A. split; [|split].
  - destruct A as [_ [_ [_ [-> [-> _]]]]]. lia.
  - intros S m HS. specialize (B S m HS). cbv zeta in B. destruct B as [_ [_ [_ [_ [-> [-> _]]]]]]. lia.
  - intros S HS. specialize (C S HS). cbv zeta in C. destruct C as [_ [_ [_ [_ [-> [-> _]]]]]]. lia.
Qed.
(** the three-point rule, k = 1: kstar = 2 is the last order that works *)
Theorem C96_nonvacuous : forall n kd, (1 <= n)%nat -> (1 <= kd)%nat ->
  mesh1 n (unit_vertex n) 1 kd gauss3 (2 * 1 + 3) /\ List.length gauss3 = (1 + 2)%nat
  /\ (blind (disc1 n (unit_vertex n) 1 kd gauss3) Vd <-> (3 <= kd)%nat)
  /\ regular (disc1 n (unit_vertex n) 1 kd gauss3) (fun _ => 1)
  /\ (0 < d_dim (disc1 n (unit_vertex n) 1 kd gauss3) Vd)%nat.
Proof.
  intros n kd Hn Hk. assert (M : mesh1 n (unit_vertex n) 1 kd gauss3 (2 * 1 + 3)).
  { apply unit_mesh; try assumption; try lia; [discriminate|exact gauss3_pos|exact gauss3_exact]. }
  split; [exact M|]. split; [reflexivity|]. split; [apply (C96_interval _ _ _ _ _ M eq_refl)|].
  split; [apply (C75_regular _ _ _ _ _ _ _ M); intro; lra|cbn; lia].
Qed.
(** a whole problem with kstar = 3 = k + 2: data, weights and spaces meet all hypotheses, the matrices are singular *)
Definition p3 (b : bool) : params := {| p_q := 1; p_qstar := 1; p_k := 1; p_kstar := if b then 3 else 2; p_N := 2; p_T := 1; p_t := 0;
  p_stab := p_stab (exP 1 1 2 false true); p_v := fun _ _ => 0; p_dv := fun _ _ => 0; p_jumps := false; p_wp := true |}.
Theorem C96_example : forall b n, (1 <= n)%nat -> exists c Lp Lf, construct (p3 b) = Ok c
  /\ let D := disc1 n (unit_vertex n) 1 (p_kstar (p3 b)) gauss3 in
     lay_ok D 4 (nc_pre c) Lp /\ lay_ok D 4 (nc_full c) Lf
     /\ (uniquely_solvable (lay_dim Lf) (st_matrix D Lf c exG (fun _ => 1) false) <-> b = false)
     /\ (uniquely_solvable (lay_dim Lp) (assemble D Lp (slab_form c exG (fun _ => 1) true)) <-> b = false).
Proof.
  intros b n Hn. assert (HC : exists c, construct (p3 b) = Ok c) by (eexists; reflexivity). destruct HC as [c Hc].
  set (D := disc1 n (unit_vertex n) 1 (p_kstar (p3 b)) gauss3).
  exists c, (std_layout 4 (nc_pre c) (fun j => d_dim D (spc j))), (std_layout 4 (nc_full c) (fun j => d_dim D (spc j))).
  split; [exact Hc|]. cbv zeta. fold D.
  assert (Lp : lay_ok D 4 (nc_pre c) (std_layout 4 (nc_pre c) (fun j => d_dim D (spc j)))) by apply std_layout_ok.
  assert (Lf : lay_ok D 4 (nc_full c) (std_layout 4 (nc_full c) (fun j => d_dim D (spc j)))) by apply std_layout_ok.
  split; [exact Lp|]. split; [exact Lf|].
  assert (K : (1 <= p_kstar (p3 b))%nat) by (destruct b; cbn; lia).
  destruct (C96_nonvacuous n (p_kstar (p3 b)) Hn K) as [M [HL _]].
  assert (W : weights_ok (p3 b) exG).
  { unfold weights_ok, coupling. cbn [g_data g_dual g_primal g_jump exG p_jumps p_qstar p3]. repeat split; lra. }
  assert (HG : 4 * 1e-20 ^ 2 < g_jump exG * g_dual exG) by (cbn [g_dual g_jump exG]; decimals; lra).
  destruct (C96_interval_solvable (p3 b) c exG (fun _ => 1) n (unit_vertex n) gauss3 _ _ Hc ltac:(cbn; lra) eq_refl M HL
    ltac:(intro; lra) W Lp Lf HG) as [Q1 [Q2 _]].
  change (disc1 n (unit_vertex n) (p_k (p3 b)) (p_kstar (p3 b)) gauss3) with D in Q1, Q2.
  assert (Z : (p_kstar (p3 b) <= p_k (p3 b) + 1)%nat <-> b = false) by (destruct b; cbn; split; intro; try lia; try discriminate; reflexivity).
  split; [rewrite Q2; exact Z|rewrite Q1; exact Z].
Qed.

Print Assumptions C96_unsolvable.
Print Assumptions C96_space_time.
Print Assumptions C96_slab.
Print Assumptions C96_kernel.
Print Assumptions C96_operator.
Print Assumptions C96_more_functions.
Print Assumptions C96_slab_iff.
Print Assumptions C96_space_time_iff.
Print Assumptions C96_no_solver.
Print Assumptions C96_interval_blind.
Print Assumptions C96_points.
Print Assumptions C96_interval.
Print Assumptions C96_interval_solvable.
Print Assumptions C96_shipped.
Print Assumptions C96_nonvacuous.
Print Assumptions C96_example.
