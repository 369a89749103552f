(** Props_WellPosed.v -- properties C67 and C68: the linear systems solved by
    SpaceTime have exactly one solution.

    The mass forms of both spaces are definite on the quadrature points, the
    weights of the dual, primal and jump terms are positive, and their product
    dominates the 1e-20 regularisation (and, with jump terms in the forward
    problem, the coupling of primal and dual at the start of a slab). *)
From Coq Require Import Reals List ZArith Lra Lia Bool String.
From Coquelicot Require Import Coquelicot.
From Verif Require Import Base TimeModel TimeSpec TimeProofs QuadProofs FormModel FormSpec FormProofs
  SpaceTimeForms FormBlocks GuardProofs FormTime FormC12 FormSym FormStruct FormWf FormExample Props_Forms
  SpaceTimeModel SlabOps ApplyProofs MarchProofs MarchSum Lifecycle LifeProofs OpsProofs LinAlg WellPosed Injective Props_Ops.
Import ListNotations.
Open Scope R_scope.

(** the mass form of a space separates its functions *)
Definition definite (D : disc) (s : fsp) : Prop :=
  forall a, L2 D s s a a = 0 -> forall l, (l < d_dim D s)%nat -> a l = 0.
(** one and only one solution, for every right-hand side *)
Definition uniquely_solvable (n : nat) (A : matrix) : Prop := forall b, exists x,
  (forall i, (i < n)%nat -> mult n A x i = b i) /\
  (forall x', (forall i, (i < n)%nat -> mult n A x' i = b i) -> forall i, (i < n)%nat -> x' i = x i).
(** size of the coupling between primal and dual variables at the start of a slab *)
Definition coupling (P : params) : R :=
  if p_jumps P then 1 + (if Z.eqb (p_qstar P) 0 then 1e-15 else 0) else 0.
Definition weights_ok (P : params) (g : gammas) : Prop :=
  0 <= g_data g /\ 0 < g_dual g /\ 0 < g_primal g /\ 0 < g_jump g
  /\ coupling P ^ 2 + 16 * 1e-20 ^ 2 < 4 * g_jump g * g_dual g.

Lemma injective_unique n A : injective n A -> uniquely_solvable n A.
Proof.
  intros HA b. destruct (injective_solve n A b HA) as [x Hx]. exists x. split; [exact Hx|].
  intros x' Hx' i Hi.
  assert (Z : x' i - x i = 0); [|lra].
  apply (HA (fun i => x' i - x i)); [|exact Hi]. intros k Hk.
  assert (E : mult n A (fun i => x' i - x i) k = mult n A x' k - mult n A x k).
  { unfold mult. replace (sumn n (fun j => A k j * x' j) - sumn n (fun j => A k j * x j))
      with (sumn n (fun j => A k j * x' j) + -1 * sumn n (fun j => A k j * x j)) by ring.
    rewrite <- Rsum_scal, <- Rsum_plus. apply Rsum_ext; intro; ring. }
  rewrite E, Hx, Hx' by exact Hk. ring.
Qed.

(** every discrete function is the field of a vector *)
Lemma field_onto D nb nc L (Y : field) : lay_ok D nb nc L -> exists y, feq D nb nc Y (field_of L y).
Proof.
  intro HL.
  exists (fun I => Rsum (seq 0 nb) (fun j => sumn (nc j) (fun i => sumn (d_dim D (spc j)) (fun l =>
      delta I (dof L j i l) * Y j i l)))).
  intros j i l Hj Hi Hl. unfold field_of.
  rewrite (sumn_ext nb _ (fun j0 => delta j j0 * Y j i l)).
  - rewrite sumn_delta by exact Hj. reflexivity.
  - intros j0 Hj0. rewrite (sumn_ext _ _ (fun i0 => delta i i0 * (delta j j0 * Y j i l))).
    + destruct (Nat.eq_dec j j0) as [<-|Hne].
      * rewrite sumn_delta by exact Hi. reflexivity.
      * assert (Dz : delta j j0 = 0) by (unfold delta; destruct (Nat.eqb_spec j j0); [contradiction|reflexivity]).
        rewrite Dz. rewrite Rmult_0_l. apply Rsum_zero; intros i0 _. ring.
    + intros i0 Hi0. rewrite (sumn_ext _ _ (fun l0 => delta l l0 * (delta i i0 * (delta j j0 * Y j i l)))).
      * destruct (Nat.eq_dec j j0) as [<-|Hne].
        -- rewrite sumn_delta by exact Hl. reflexivity.
        -- assert (Dz : delta j j0 = 0) by (unfold delta; destruct (Nat.eqb_spec j j0); [contradiction|reflexivity]).
           rewrite Dz. rewrite Rmult_0_l, Rmult_0_r. apply Rsum_zero; intros l0 _. ring.
      * intros l0 Hl0. unfold delta.
        destruct (Nat.eqb_spec (dof L j i l) (dof L j0 i0 l0)) as [E|E].
        -- apply (dof_inj D nb nc) in E; auto. destruct E as [-> [-> ->]]. rewrite !Nat.eqb_refl. ring.
        -- destruct (Nat.eqb_spec l l0) as [->|]; [|ring]. destruct (Nat.eqb_spec i i0) as [->|]; [|ring].
           destruct (Nat.eqb_spec j j0) as [->|]; [contradiction|ring].
Qed.
(** a matrix is injective when its form has a trivial kernel *)
Lemma injective_assemble D nb nc L f : lay_ok D nb nc L -> wf_bform nb nc f = true ->
  (forall X, (forall Y, eval D f X Y = 0) -> feq D nb nc X fzero) -> injective (lay_dim L) (assemble D L f).
Proof.
  intros HL HW HK x Hx.
  assert (K : forall Y, eval D f (field_of L x) Y = 0).
  { intro Y. destruct (field_onto D nb nc L Y HL) as [y Hy].
    rewrite (eval_ext D nb nc f _ (field_of L x) Y (field_of L y)); [|exact HW|apply feq_refl|exact Hy].
    rewrite <- (dot_assemble D nb nc) by assumption.
    apply Rsum_zero. intros I HI. apply in_seq in HI. rewrite Hx by lia. ring. }
  apply (field_of_inj D nb nc L x (fun _ => 0) HL).
  intros j i l Hj Hi Hl. rewrite (HK _ K j i l Hj Hi Hl). reflexivity.
Qed.
Lemma feq_pre P c D X : built P c -> zero_on c D 0 X -> feq D 4 (nc_pre c) X fzero.
Proof.
  intros HB [A B] j i l Hj Hi Hl. unfold fzero. unfold nc_pre in Hi. destruct (Nat.ltb_spec j 2) as [h|h].
  - assert (Es : spc j = Vp) by (unfold spc; destruct (Nat.ltb_spec j 2); [reflexivity|lia]).
    rewrite Es in Hl. rewrite (ntime_p P c HB j h) in Hi. exact (A j i l h ltac:(lia) Hl).
  - assert (Es : spc j = Vd) by (unfold spc; destruct (Nat.ltb_spec j 2); [lia|reflexivity]).
    rewrite Es in Hl. rewrite (ntime_d P c HB j h) in Hi. exact (B j i l ltac:(lia) ltac:(lia) Hl).
Qed.
Lemma feq_full P c D X : built P c -> (forall n, (n < c_N c)%nat -> zero_on c D n X) -> feq D 4 (nc_full c) X fzero.
Proof.
  intros HB HZ j i l Hj Hi Hl. unfold fzero. unfold nc_full in Hi.
  set (nt := ntime c j) in *. assert (Hnt : (0 < nt)%nat) by (unfold nt, ntime; lia).
  assert (Hn : (i / nt < c_N c)%nat) by (apply Nat.div_lt_upper_bound; lia).
  assert (Ha : (i mod nt < nt)%nat) by (apply Nat.mod_upper_bound; lia).
  destruct (HZ _ Hn) as [A B].
  replace i with (i / nt * nt + i mod nt)%nat by (rewrite (Nat.div_mod i nt) at 3 by lia; lia).
  destruct (Nat.ltb_spec j 2) as [h|h].
  - assert (Es : spc j = Vp) by (unfold spc; destruct (Nat.ltb_spec j 2); [reflexivity|lia]).
    rewrite Es in Hl. unfold nt in *. rewrite (ntime_p P c HB j h) in *. apply A; [exact h|lia|exact Hl].
  - assert (Es : spc j = Vd) by (unfold spc; destruct (Nat.ltb_spec j 2); [lia|reflexivity]).
    rewrite Es in Hl. unfold nt in *. rewrite (ntime_d P c HB j h) in *. apply B; [lia|lia|exact Hl].
Qed.
Lemma kappa_coupling P c : built P c -> kappa c = coupling P.
Proof.
  intro HB. unfold kappa, coupling. rewrite (bu_jumps _ _ HB), (bu_eps _ _ HB). reflexivity.
Qed.
Lemma weights_reg P g : weights_ok P g -> 16 * 1e-20 ^ 2 < 4 * g_jump g * g_dual g.
Proof. intros [_ [_ [_ [_ H]]]]. pose proof (pow2_ge_0 (coupling P)). lra. Qed.

(** * C67 *)
Lemma slab_injective P c g om D L : construct P = Ok c -> 0 < p_T P -> lay_ok D 4 (nc_pre c) L ->
  regular D om -> definite D Vp -> definite D Vd -> weights_ok P g ->
  injective (lay_dim L) (assemble D L (slab_form c g om true)).
Proof.
  intros HC HT HL HR Dp Dd HW. pose proof (construct_inv _ _ HC) as HB. pose proof (dt_pos _ _ HC HT) as Hdt.
  apply (injective_assemble D 4 (nc_pre c)); [exact HL|apply wf_slab|].
  intros X HK. apply (feq_pre P c D X HB). pose proof HW as [G1 [G2 [G3 [G4 G5]]]].
  apply (slab_inj P c g om D HB Hdt HR Dp Dd G1 G2 G3 G4 1e-20).
  - rewrite (kappa_coupling P c HB). exact G5.
  - intro Y. rewrite <- (HK Y). rewrite eval_slab. reflexivity.
Qed.
Theorem C67_slab_problem : forall P c g om D L, construct P = Ok c -> 0 < p_T P ->
  lay_ok D 4 (nc_pre c) L -> regular D om -> definite D Vp -> definite D Vd -> weights_ok P g ->
  uniquely_solvable (lay_dim L) (assemble D L (slab_form c g om true)).
Proof. intros. apply injective_unique, (slab_injective P); assumption. Qed.

(** exact solvers for the matrices held by an object *)
Theorem C67_exact_solvers : forall P E om s g, construct P = Ok (e_c E) -> 0 < p_T P -> env_ok E ->
  reached E om s -> s_fim s <> None -> s_slm s <> None -> get_gammas (p_stab P) = Ok g ->
  regular (e_D E) om -> definite (e_D E) Vp -> definite (e_D E) Vd -> weights_ok P g ->
  p_wp P = true \/ injective (lay_dim (e_Lp E)) (assemble (e_D E) (e_Lp E) (slab_form (e_c E) g om false)) ->
  exists S0 S1, exact_solvers E s S0 S1 /\ total S0 /\ total S1.
Proof.
  intros P E om s g HC HT HE HS H0 H1 Hg HR Dp Dd HW Hfirst. pose proof (construct_inv _ _ HC) as HB.
  pose proof (reached_wf _ _ _ HS) as HWf.
  destruct (s_fim s) as [A0|] eqn:E0; [|congruence]. destruct (s_slm s) as [A1|] eqn:E1; [|congruence].
  destruct (wf_slab_mats E om s A0 A1 HWf E0 E1) as [_ [g' [Hg' [M0 M1]]]].
  rewrite (bu_stab _ _ HB), Hg in Hg'. injection Hg' as <-.
  pose proof (slab_injective P (e_c E) g om (e_D E) (e_Lp E) HC HT (eo_p _ HE) HR Dp Dd HW) as IJ.
  assert (I1 : injective (lay_dim (e_Lp E)) A1) by (rewrite M1; exact IJ).
  assert (I0 : injective (lay_dim (e_Lp E)) A0).
  { rewrite M0. unfold MarchSum.fn. cbn [Nat.eqb]. rewrite (bu_wp _ _ HB). destruct (p_wp P); [exact IJ|].
    destruct Hfirst as [Hf|Hf]; [discriminate|exact Hf]. }
  destruct (injective_inverse _ _ I0) as [X0 HX0]. destruct (injective_inverse _ _ I1) as [X1 HX1].
  exists (fun b _ => Ok (by_columns (lay_dim (e_Lp E)) X0 b)), (fun b _ => Ok (by_columns (lay_dim (e_Lp E)) X1 b)).
  split; [split|split]; try (intros b x; eexists; reflexivity).
  - intros A HA b x u [= <-] J HJ. assert (A = A0) as -> by congruence. apply HX0, HJ.
  - intros A HA b x u [= <-] J HJ. assert (A = A1) as -> by congruence. apply HX1, HJ.
Qed.

(** * C68 *)
Theorem C68_space_time_problem : forall P c g om D L, construct P = Ok c -> 0 < p_T P -> p_wp P = true ->
  lay_ok D 4 (nc_full c) L -> regular D om -> definite D Vp -> definite D Vd ->
  0 <= g_data g -> 0 < g_dual g -> 0 < g_primal g -> 0 < g_jump g -> 4 * 1e-20 ^ 2 < g_jump g * g_dual g ->
  uniquely_solvable (lay_dim L) (st_matrix D L c g om false).
Proof.
  intros P c g om D L HC HT Hwp HL HR Dp Dd G1 G2 G3 G4 G5.
  pose proof (construct_inv _ _ HC) as HB. pose proof (dt_pos _ _ HC HT) as Hdt.
  apply injective_unique, (injective_assemble D 4 (nc_full c)); [exact HL|apply wf_st, (bu_N _ _ HB)|].
  intros X HK. apply (feq_full P c D X HB).
  apply (st_inj P c g om D HB Hdt HR Dp Dd G1 G2 G3 G4 X); [rewrite (bu_wp _ _ HB); exact Hwp|lra|exact HK].
Qed.
(** the matrix that preconditions it *)
Theorem C68_preconditioner : forall P c g om D L, construct P = Ok c -> 0 < p_T P -> p_jumps P = false ->
  lay_ok D 4 (nc_full c) L -> regular D om -> definite D Vp -> definite D Vd -> weights_ok P g ->
  p_wp P = true \/ (exists Lp, lay_ok D 4 (nc_pre c) Lp /\ injective (lay_dim Lp) (assemble D Lp (slab_form c g om false))) ->
  uniquely_solvable (lay_dim L) (st_matrix D L c g om true).
Proof.
  intros P c g om D L HC HT Hj HL HR Dp Dd HW Hfirst.
  pose proof (construct_inv _ _ HC) as HB. pose proof (dt_pos _ _ HC HT) as Hdt.
  apply injective_unique, (injective_assemble D 4 (nc_full c)); [exact HL|apply wf_st, (bu_N _ _ HB)|].
  intros X HK. apply (feq_full P c D X HB). pose proof HW as [G1 [G2 [G3 [G4 _]]]].
  apply (pre_inj P c g om D HB Hdt HR Dp Dd G1 G2 G3 G4 X);
    [rewrite (bu_jumps _ _ HB); exact Hj|apply (weights_reg P), HW| |exact HK].
  rewrite (bu_wp _ _ HB). destruct Hfirst as [Hf|[Lp [HLp HI]]]; [left; exact Hf|right].
  intros Z HZ. destruct (field_onto D 4 (nc_pre c) Lp Z HLp) as [z Hz].
  assert (Z0 : forall I, (I < lay_dim Lp)%nat -> z I = 0).
  { apply HI. intros I HI0. rewrite (mult_assemble D 4 (nc_pre c)); [|exact HLp|apply wf_slab].
    rewrite (eval_ext D 4 (nc_pre c) _ _ Z _ (field_of Lp (unitv I)));
      [apply HZ|apply wf_slab|intros j i l ? ? ?; symmetry; apply Hz; assumption|apply feq_refl]. }
  assert (FZ : feq D 4 (nc_pre c) Z fzero).
  { intros j i l Hj' Hi Hl. rewrite (Hz j i l Hj' Hi Hl). unfold field_of, fzero. apply Z0.
    apply (dof_lt D 4 (nc_pre c)); assumption. }
  split; intros j i l Hj' Hi Hl.
  - apply FZ; [lia|unfold nc_pre; rewrite (ntime_p P c HB j Hj'); cbn; lia|].
    unfold spc; destruct (Nat.ltb_spec j 2); [exact Hl|lia].
  - apply FZ; [lia|unfold nc_pre; rewrite (ntime_d P c HB j) by lia; cbn; lia|].
    unfold spc; destruct (Nat.ltb_spec j 2); [lia|exact Hl].
Qed.

(** the hypotheses hold for a well-posed example with cubic elements in time, with
    and without jump terms *)
Example C67_nonvacuous : forall jm, exists c L Lf, construct (exP 3 2 5 jm true) = Ok c
  /\ lay_ok exI 4 (nc_pre c) L /\ lay_ok exI 4 (nc_full c) Lf /\ regular exI om1 /\ definite exI Vp /\ definite exI Vd
  /\ weights_ok (exP 3 2 5 jm true) exG.
Proof.
  intro jm. destruct (exP_ok 3 2 5 jm true) as [c Hc]; try lia.
  exists c, (std_layout 4 (nc_pre c) (fun j => d_dim exI (spc j))), (std_layout 4 (nc_full c) (fun j => d_dim exI (spc j))).
  split; [exact Hc|]. split; [apply std_layout_ok|]. split; [apply std_layout_ok|].
  split; [exact exI_regular|]. split; [exact (exI_definite Vp)|]. split; [exact (exI_definite Vd)|].
  unfold weights_ok, coupling. cbn [g_data g_dual g_primal g_jump exG p_jumps p_qstar exP].
  repeat split; try lra. destruct jm; cbn [Z.eqb Z.of_nat]; decimals; lra.
Qed.
Example C68_nonvacuous : exists c L, construct (exP 3 2 5 true true) = Ok c /\ p_wp (exP 3 2 5 true true) = true
  /\ uniquely_solvable (lay_dim L) (st_matrix exI L c exG om1 false) /\ (0 < lay_dim L)%nat.
Proof.
  destruct (exP_ok 3 2 5 true true) as [c Hc]; try lia.
  exists c, (std_layout 4 (nc_full c) (fun j => d_dim exI (spc j))).
  split; [exact Hc|]. split; [reflexivity|]. split.
  - apply (C68_space_time_problem (exP 3 2 5 true true));
      [exact Hc|cbn [p_T exP]; lra|reflexivity|apply std_layout_ok|exact exI_regular|exact (exI_definite Vp)|exact (exI_definite Vd)| | | | | ];
      cbn [g_data g_dual g_primal g_jump exG]; [lra|lra|lra|lra|]. decimals. lra.
  - pose proof (construct_inv _ _ Hc) as HB. unfold std_layout; cbn [lay_dim base]. unfold nc_full, ntime.
    pose proof (bu_N _ _ HB). cbn. nia.
Qed.

Print Assumptions C67_slab_problem.
Print Assumptions C67_exact_solvers.
Print Assumptions C68_space_time_problem.
Print Assumptions C68_preconditioner.
