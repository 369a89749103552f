(** Props_Krylov.v -- property C74: number of GMRES steps in exact arithmetic.

    The operator the GMRES wrapper delivers and the matrix that the improved
    preconditioner inverts differ only in the rows of the last primal coefficients of the
    slabs (and of the first coefficients in the well-posed mode).  With exact slab
    solvers the solution therefore lies in a Krylov space whose dimension does not depend
    on the polynomial degrees in time. *)
From Coq Require Import Reals List ZArith Lra Lia Bool String.
From Verif Require Import Base TimeModel TimeSpec TimeProofs QuadProofs FormModel FormSpec FormProofs
  SpaceTimeForms FormBlocks GuardProofs FormTime FormC12 FormSym FormStruct FormWf FormExample Props_Forms
  SpaceTimeModel SlabOps ApplyProofs MarchProofs MarchSum Lifecycle LifeProofs OpsProofs SetupOk LinAlg OpsExample WellPosed Injective Props_Ops
  GmresModel Props_Gmres Props_WellPosed Props_Stability Observe Props_Observe Krylov Delivered.
Import ListNotations.
Open Scope R_scope.

(** the matrix inverted by the improved preconditioner (C25) *)
Definition prec_matrix (P : params) (E : env) (g : gammas) (om : nat -> R) (x : vec) : vec := fun I =>
  mult (dimF E) (matF E g om true) x I + 1e-20 * tiny_march P (e_D E) (fldF E x) (basF E I).
(** time indices: last coefficient of each slab but the last one; in the well-posed mode
    also the first coefficient *)
Definition slab_ends (P : params) : list nat :=
  map (fun n => (n * S (Z.to_nat (p_q P)) - 1)%nat) (seq 1 (p_N P - 1)) ++ (if p_wp P then [0%nat] else []).
(** x is a combination of v, K v, .., K^(m-1) v *)
Definition in_krylov (n m : nat) (K : vec -> vec) (v x : vec) : Prop :=
  exists a, veq n x (fun l => sumn m (fun i => a i * Nat.iter i K v l)).
(** square of the preconditioned residual *)
Definition res2 (n : nat) (A B : vec -> vec) (b x : vec) : R := sumn n (fun i => (B b i - B (A x) i) ^ 2).
(** what m steps of left-preconditioned GMRES from a zero start vector compute *)
Definition min_residual (n m : nat) (A B : vec -> vec) (b x : vec) : Prop :=
  in_krylov n m (fun v => B (A v)) (B b) x /\
  forall y, in_krylov n m (fun v => B (A v)) (B b) y -> res2 n A B b x <= res2 n A B b y.

(** * The two operators *)
Theorem C74_rows : forall P E g om, construct P = Ok (e_c E) -> 0 < p_T P -> env_ok E -> p_jumps P = false ->
  forall x I, (I < dimF E)%nat ->
  (forall j i l, (j < 2)%nat -> In i (slab_ends P) -> (l < d_dim (e_D E) Vp)%nat -> I <> dof (e_Lf E) j i l) ->
  st_op P E g om x I = prec_matrix P E g om x I.
Proof.
  intros P E g om HC HT HE Hj x I HI Hn. apply (off_rows P E g om HC HT HE Hj x I).
  intro H. unfold changed_rows in H. apply in_flat_map in H. destruct H as [j [H1 H2]]. apply in_flat_map in H2. destruct H2 as [i [H2 H3]].
  apply in_map_iff in H3. destruct H3 as [l [H3 H4]]. apply in_seq in H4. apply (Hn j i l); [destruct H1 as [<-|[<-|[]]]; lia| |lia|congruence].
  pose proof (construct_inv _ _ HC) as HB. unfold slab_ends. unfold last_ends in H2. rewrite (bu_NP _ _ HB), (bu_cq _ _ HB), (bu_wp _ _ HB) in H2. exact H2.
Qed.
(** number of these rows *)
Definition krylov_rank (P : params) (D : disc) : nat := (2 * (p_N P - 1 + (if p_wp P then 1 else 0)) * d_dim D Vp)%nat.

(** * The delivered operator is injective *)
Theorem C74_injective : forall P E g om ka, construct P = Ok (e_c E) -> 0 < p_T P -> env_ok E -> p_jumps P = false ->
  regular (e_D E) om -> definite (e_D E) Vp -> definite (e_D E) Vd ->
  0 <= g_data g -> 0 < g_dual g -> 0 < g_primal g -> 0 <= g_jump g ->
  controls_start P (e_D E) (energy_first P g om (e_D E)) ka -> 4 * 1e-20 ^ 2 < ka * g_dual g ->
  forall b x x', veq (dimF E) (st_op P E g om x) b -> veq (dimF E) (st_op P E g om x') b -> veq (dimF E) x x'.
Proof.
  intros P E g om ka HC HT HE Hj HR Dp Dd G1 G2 G3 G4 Hc Hk b x x' Hx Hx'.
  pose proof (st_op_lin P E g om HC HT HE Hj) as [_ HL].
  assert (Z : same (dimF E) (fun i => 1 * x i + -1 * x' i) (fun _ => 0)).
  { apply (st_op_inj P E g om HC HT HE Hj ka HR Dp Dd G1 G2 G3 G4 Hc Hk). intros i Hi. rewrite (HL 1 x (-1) x' i Hi), (Hx i Hi), (Hx' i Hi). ring. }
  intros i Hi. specialize (Z i Hi). cbv beta in Z. lra.
Qed.

(** * The solution is found in few steps *)
Theorem C74_krylov : forall P E g om (B : vec -> vec), construct P = Ok (e_c E) -> 0 < p_T P -> env_ok E -> p_jumps P = false ->
  (forall v I, (I < dimF E)%nat -> prec_matrix P E g om (B v) I = v I) ->
  (forall x, veq (dimF E) (st_op P E g om x) (fun _ => 0) -> veq (dimF E) x (fun _ => 0)) ->
  let A := st_op P E g om in
  forall b m, (krylov_rank P (e_D E) < m)%nat ->
  (exists x, in_krylov (dimF E) m (fun v => B (A v)) (B b) x /\ veq (dimF E) (A x) b) /\
  forall x, min_residual (dimF E) m A B b x -> veq (dimF E) (A x) b.
Proof.
  intros P E g om B HC HT HE Hj HB Hi A b m Hm. pose proof (construct_inv _ _ HC) as HBu.
  pose proof (st_op_lin P E g om HC HT HE Hj) as LA. pose proof (pre_op_lin P E g om HC HE) as LC.
  pose proof (rows_length E) as RL. rewrite (bu_NP _ _ HBu), (bu_wp _ _ HBu) in RL. fold (krylov_rank P (e_D E)) in RL.
  assert (Off : forall x i, (i < dimF E)%nat -> ~ In i (changed_rows E) -> A x i = pre_op P E g om x i) by (intros x i _ H; apply off_rows; assumption).
  assert (Mn : forall x, (forall a, sumn (dimF E) (fun i => (B b i - B (A x) i) ^ 2)
     <= sumn (dimF E) (fun i => (B b i - B (A (comb m a (fun x => B (A x)) (B b))) i) ^ 2)) -> same (dimF E) (A x) b).
  { intros x H. apply (krylov_minimal (dimF E) A (pre_op P E g om) B (changed_rows E) LA LC HB Off Hi b m x); [lia|exact H]. }
  split.
  - destruct (krylov_exact (dimF E) A (pre_op P E g om) B (changed_rows E) LA LC HB Off Hi b) as [a Ha].
    set (r := List.length (changed_rows E)) in *.
    exists (comb (S r) a (fun x => B (A x)) (B b)). split; [|exact Ha].
    exists (fun i => if Nat.ltb i (S r) then a i else 0). intros l _. unfold comb.
    replace m with (S r + (m - S r))%nat by lia. rewrite (seq_app (S r)), Rsum_app.
    rewrite (Rsum_zero (seq (0 + S r) (m - S r))).
    + rewrite Rplus_0_r. apply sumn_ext. intros i Hi2. destruct (Nat.ltb_spec i (S r)); [reflexivity|lia].
    + intros i Hi2. apply in_seq in Hi2. destruct (Nat.ltb_spec i (S r)); [lia|ring].
  - intros x [_ Hx]. apply Mn. intro a. apply Hx. exists a. intros l _. reflexivity.
Qed.

(** The whole call: if the external program is GMRES in exact arithmetic, run for at least
    krylov_rank + 1 steps without restart, the returned vector solves the delivered system,
    whatever happened to the object before. *)
Theorem C74_gmres : forall P E om S0 S1 F0 F1 g ka,
  construct P = Ok (e_c E) -> 0 < p_T P -> env_ok E -> p_jumps P = false -> get_gammas (p_stab P) = Ok g ->
  computes E S0 F0 -> computes E S1 F1 ->
  regular (e_D E) om -> definite (e_D E) Vp -> definite (e_D E) Vd ->
  0 <= g_data g -> 0 < g_dual g -> 0 < g_primal g -> 0 <= g_jump g ->
  controls_start P (e_D E) (energy_first P g om (e_D E)) ka -> 4 * 1e-20 ^ 2 < ka * g_dual g ->
  exists B : vec -> vec,
  forall ext db b xa maxsteps tol restart printrates reltol c db' s m,
  usable E om S0 S1 s -> exact_solvers E s S0 S1 -> b <> xa ->
  configure db maxsteps tol restart printrates reltol = Ok (c, db') ->
  no_alias (ext c (dimF E) b xa) -> spares b (ext c (dimF E) b xa) ->
  let A := st_op P E g om in
  let out := pure_ksp A B (dimF E) (ext c (dimF E) b xa) (upd xa (fun _ => 0) (s_heap s)) in
  (krylov_rank P (e_D E) < m)%nat ->
  min_residual (dimF E) m A B (s_heap s b) (snd out xa) ->
  exists s', gmres_spacetime E ext db (dimF E) b xa maxsteps tol restart printrates reltol s =
    (if Z.ltb (o_reason (fst out)) 0 then Err PETScError else Ok (xa, o_res (fst out)), s')
    /\ veq (dimF E) (A (s_heap s' xa)) (s_heap s b)
    /\ forall x, veq (dimF E) (A x) (s_heap s b) -> veq (dimF E) x (s_heap s' xa).
Proof.
  intros P E om S0 S1 F0 F1 g ka HC HT HE Hj Hg C0 C1 HR Dp Dd G1 G2 G3 G4 Hc Hk.
  destruct (C63_gmres P E om S0 S1 F0 F1 g HC HT HE Hj Hg C0 C1) as [B [_ [HB HG]]]. exists B.
  intros ext db b xa maxsteps tol restart printrates reltol c db' s m HU HX Hb Hcf Ha Hs A out Hm Hmin.
  destruct (HG ext db b xa maxsteps tol restart printrates reltol c db' s HU Hb Hcf Ha Hs) as [s' [R1 [R2 _]]]. exists s'.
  fold A in R1, R2. fold out in R1, R2. split; [exact R1|].
  pose proof (st_op_lin P E g om HC HT HE Hj) as [LE _].
  assert (Sol : veq (dimF E) (A (s_heap s' xa)) (s_heap s b)).
  { destruct (C74_krylov P E g om B HC HT HE Hj (HB s HU HX) (st_op_inj P E g om HC HT HE Hj ka HR Dp Dd G1 G2 G3 G4 Hc Hk) (s_heap s b) m Hm) as [_ K].
    intros i Hi. rewrite <- (K _ Hmin i Hi). apply LE; [exact R2|exact Hi]. }
  split; [exact Sol|]. intros x Hx. exact (C74_injective P E g om ka HC HT HE Hj HR Dp Dd G1 G2 G3 G4 Hc Hk _ _ _ Hx Sol).
Qed.
(** such an iterate exists, so the external program [write x] meets the hypotheses of
    C74_gmres *)
Theorem C74_attained : forall P E g om (B : vec -> vec), construct P = Ok (e_c E) -> 0 < p_T P -> env_ok E -> p_jumps P = false ->
  (forall v I, (I < dimF E)%nat -> prec_matrix P E g om (B v) I = v I) ->
  (forall x, veq (dimF E) (st_op P E g om x) (fun _ => 0) -> veq (dimF E) x (fun _ => 0)) ->
  forall b m, (krylov_rank P (e_D E) < m)%nat ->
  exists x, min_residual (dimF E) m (st_op P E g om) B b x /\ res2 (dimF E) (st_op P E g om) B b x = 0.
Proof.
  intros P E g om B HC HT HE Hj HB Hi b m Hm.
  destruct (C74_krylov P E g om B HC HT HE Hj HB Hi b m Hm) as [[x [H1 H2]] _]. exists x.
  pose proof (pre_op_lin P E g om HC HE) as LC.
  pose proof (B_lin (dimF E) (pre_op P E g om) B LC HB) as [BE _].
  assert (Z : res2 (dimF E) (st_op P E g om) B b x = 0).
  { unfold res2. apply Rsum_zero. intros i Hi2. apply in_seq in Hi2. rewrite (BE _ _ H2 i) by lia. ring. }
  split; [|exact Z]. split; [exact H1|]. intros y _. rewrite Z. unfold res2. apply Rsum_nonneg. intros i _. apply pow2_ge_0.
Qed.

Example C74_nonvacuous : exists c s S0 S1 F0 F1, let P := exP 0 0 5 false false in let E := exE exI c in
  construct P = Ok (e_c E) /\ 0 < p_T P /\ env_ok E /\ p_jumps P = false /\ get_gammas (p_stab P) = Ok exG /\
  computes E S0 F0 /\ computes E S1 F1 /\ usable E om1 S0 S1 s /\ exact_solvers E s S0 S1 /\
  regular exI om1 /\ definite exI Vp /\ definite exI Vd /\ 0 <= g_data exG /\ 0 < g_dual exG /\ 0 < g_primal exG /\ 0 <= g_jump exG /\
  controls_start P exI (energy_first P exG om1 exI) (1 / 400) /\ 4 * 1e-20 ^ 2 < 1 / 400 * g_dual exG /\
  slab_ends P = [0; 1; 2; 3]%nat /\ krylov_rank P exI = (8 * d_dim exI Vp)%nat.
Proof.
  destruct (solvers_nonvacuous 5 ltac:(lia)) as [c [s [S0 [S1 [F0 [F1 [H1 [H2 [H3 [H4 [H5 [H6 [H7 [H8 [H9 [_ H10]]]]]]]]]]]]]]]].
  exists c, s, S0, S1, F0, F1. cbv zeta.
  assert (HT : 0 < p_T (exP 0 0 5 false false)) by (cbn; lra).
  split; [exact H1|]. split; [exact HT|]. split; [exact H2|]. split; [reflexivity|]. split; [reflexivity|]. split; [exact H6|]. split; [exact H7|].
  split; [split; [exact H3|split; [exact H10|exact H4]]|]. split; [exact H5|]. split; [exact exI_regular|].
  split; [exact (exI_definite Vp)|]. split; [exact (exI_definite Vd)|].
  split; [cbn; lra|]. split; [cbn; lra|]. split; [cbn; lra|]. split; [cbn; lra|]. split.
  - pose proof (C72_full_data (exP 0 0 5 false false) c exG om1 exI 1 H1 HT exI_regular (exI_definite Vp) ltac:(cbn; lra) ltac:(cbn; lra) ltac:(lra)
      ltac:(intros; unfold om1; lra)) as F.
    replace (g_data exG * 1 * t_dt (tgrid (exP 0 0 5 false false)) ^ 2 / 16) with (1 / 400) in F; [exact F|]. cbn. field.
  - split; [cbn [g_dual exG]; decimals; lra|]. split; reflexivity.
Qed.

Print Assumptions C74_rows.
Print Assumptions C74_injective.
Print Assumptions C74_krylov.
Print Assumptions C74_gmres.
Print Assumptions C74_attained.
