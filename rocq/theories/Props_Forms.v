(** Props_Forms.v -- properties C12 to C19: the forms and matrices assembled by
    SpaceTime for every accepted set of parameters.

    [construct P = Ok c] : the constructor accepts the parameters;
    [D] : any mesh / quadrature / pair of finite element spaces;
    [L] : any numbering of the dofs of the mixed space. *)
From Coq Require Import Reals List ZArith Lra Lia Bool String.
From Coquelicot Require Import Coquelicot.
From Verif Require Import Base TimeModel TimeSpec TimeProofs QuadProofs FormModel FormSpec FormProofs
  SpaceTimeForms FormBlocks GuardProofs FormTime FormC12 FormSym FormStruct FormCons FormWf FormExample.
Import ListNotations.
Open Scope R_scope.

(** time discretisation described by the parameters *)
Definition tgrid (P : params) : tdisc :=
  mkTD (Z.to_nat (p_q P)) (Z.to_nat (p_qstar P)) (p_T P / INR (p_N P)).
Lemma tgrid_td P c : construct P = Ok c -> td c = tgrid P.
Proof.
  intro H. apply construct_inv in H. unfold td, tgrid.
  rewrite (bu_cq _ _ H), (bu_cqs _ _ H), (bu_dt _ _ H). reflexivity.
Qed.
Lemma dt_pos P c : construct P = Ok c -> 0 < p_T P -> 0 < c_dt c.
Proof.
  intros H HT. apply construct_inv in H. rewrite (bu_dt _ _ H). apply Rdiv_lt_0_compat; [exact HT|].
  apply lt_0_INR. rewrite <- (bu_NP _ _ H). pose proof (bu_N _ _ H). lia.
Qed.
(** the matrix returned by get_spacetime_matrix *)
Definition st_matrix (D : disc) (L : layout) (c : config) (g : gammas) (om : nat -> R) (precond : bool) : matrix :=
  assemble D L (st_form c g om precond).
Definition dotn (n : nat) (x y : vec) : R := sumn n (fun i => x i * y i).

(** C12.  y . A x is the space-time variational form. *)
Theorem C12_variational_form : forall P c g om D L, construct P = Ok c -> 0 < p_T P ->
  lay_ok D 4 (nc_full c) L ->
  forall precond x y,
  let d := tgrid P in let lam := 5 * INR (p_k P) ^ 2 in
  let X := field_of L x in let Y := field_of L y in
  dotn (lay_dim L) y (mult (lay_dim L) (st_matrix D L c g om precond) x)
  = 1e-20 * L2 D Vp Vd (X 0%nat 0%nat) (Y 2%nat 0%nat)
    + sumn (p_N P) (fun n =>
        wave D d X Y n + wave D d Y X n + g_data g * data D d om X Y n
        - g_dual g * dual D d lam Y X n + g_primal g * primal D d lam X Y n)
    + sumn (p_N P) (fun n => if Nat.ltb 0 n then
        g_jump g * (if precond then jumps_pre D d X Y n else jumps D d X Y n)
        + (if p_jumps P then
             (1 + if Z.eqb (p_qstar P) 0 then 1e-15 else 0) * (fwjumps D d X Y n + fwjumps D d Y X n)
             - g_dual g * dualjumps D d Y X n
           else 0) else 0)
    + (if p_wp P then g_jump g * init D d X Y else 0).
Proof.
  intros P c g om D L HC HT HL precond x y d lam X Y.
  pose proof (construct_inv _ _ HC) as HB. pose proof (dt_pos _ _ HC HT) as Hdt.
  unfold dotn, st_matrix. rewrite (dot_assemble D 4 (nc_full c)) by (auto; apply wf_st; apply (bu_N _ _ HB)).
  fold X Y. rewrite (st_form_spec P c g om D HB Hdt precond X Y), (bu_NP _ _ HB).
  rewrite !Rplus_assoc. f_equal. rewrite Rsum_plus. f_equal.
  - apply Rsum_ext; intro n. unfold slab_spec. rewrite (tgrid_td _ _ HC). unfold d, lam.
    rewrite (bu_lam _ _ HB). ring.
  - assert (E : sumn (p_N P) (fun n => delta 0 n * (if p_wp P then g_jump g * init D d X Y else 0))
      = if p_wp P then g_jump g * init D d X Y else 0).
    { rewrite sumn_delta; [reflexivity|]. pose proof (bu_N _ _ HB). rewrite (bu_NP _ _ HB) in *. lia. }
    rewrite <- E, <- Rsum_plus. apply Rsum_ext; intro n. unfold extra_spec.
    rewrite (tgrid_td _ _ HC). fold d. rewrite (bu_jumps _ _ HB), (bu_wp _ _ HB), (bu_eps _ _ HB). unfold delta.
    destruct n as [|n]; cbn [Nat.ltb Nat.leb Nat.eqb]; [destruct (p_wp P)|destruct (p_jumps P)]; ring.
Qed.
Example C12_nonvacuous : exists c L, construct (exP 2 1 3 false false) = Ok c
  /\ 0 < p_T (exP 2 1 3 false false) /\ lay_ok exI 4 (nc_full c) L /\ (0 < lay_dim L)%nat.
Proof.
  destruct (exP_ok 2 1 3 false false) as [c Hc]; try lia.
  exists c, (std_layout 4 (nc_full c) (fun j => d_dim exI (spc j))).
  split; [exact Hc|]. split; [cbn; lra|]. split; [apply std_layout_ok|].
  pose proof (construct_inv _ _ Hc) as HB. unfold std_layout; cbn [lay_dim base]. unfold nc_full, ntime.
  pose proof (bu_N _ _ HB). cbn. nia.
Qed.

(** C13 *)
Theorem C13_symmetry : forall P c g om D L, construct P = Ok c -> 0 < p_T P ->
  lay_ok D 4 (nc_full c) L ->
  let A := st_matrix D L c g om false in
  (forall x y, dotn (lay_dim L) y (mult (lay_dim L) A x) - dotn (lay_dim L) x (mult (lay_dim L) A y)
    = 1e-20 * (L2 D Vp Vd (field_of L x 0%nat 0%nat) (field_of L y 2%nat 0%nat)
               - L2 D Vp Vd (field_of L y 0%nat 0%nat) (field_of L x 2%nat 0%nat)))
  /\ (forall j i l j' i' l',
      (j < 4)%nat -> (i < nc_full c j)%nat -> (l < d_dim D (spc j))%nat ->
      (j' < 4)%nat -> (i' < nc_full c j')%nat -> (l' < d_dim D (spc j'))%nat ->
      ~ (j = 0 /\ i = 0 /\ j' = 2 /\ i' = 0)%nat -> ~ (j' = 0 /\ i' = 0 /\ j = 2 /\ i = 0)%nat ->
      A (dof L j i l) (dof L j' i' l') = A (dof L j' i' l') (dof L j i l)).
Proof.
  intros P c g om D L HC HT HL A.
  pose proof (construct_inv _ _ HC) as HB. pose proof (dt_pos _ _ HC HT) as Hdt.
  split.
  - intros x y. unfold dotn, A, st_matrix. rewrite !(dot_assemble D 4 (nc_full c)) by (auto; apply wf_st; apply (bu_N _ _ HB)).
    apply (st_sym P c g om D HB Hdt).
  - intros j i l j' i' l' Hj Hi Hl Hj' Hi' Hl' N1 N2.
    assert (E := st_sym P c g om D HB Hdt (field_of L (unitv (dof L j' i' l'))) (field_of L (unitv (dof L j i l)))).
    unfold A, st_matrix, assemble.
    assert (U : forall j i l b, (j < 4)%nat -> (i < nc_full c j)%nat -> (l < d_dim D (spc j))%nat ->
      (b < 4)%nat -> ~ (j = b /\ i = 0)%nat -> forall l0, (l0 < d_dim D (spc b))%nat ->
      field_of L (unitv (dof L j i l)) b 0%nat l0 = 0).
    { intros a e f b Ha He Hf Hb Hne l0 Hl0. unfold field_of, unitv, delta.
      destruct (Nat.eqb_spec (dof L a e f) (dof L b 0 l0)) as [Eq|]; [|reflexivity].
      apply (dof_inj D 4 (nc_full c)) in Eq; auto; [tauto|]. pose proof (bu_N _ _ HB). unfold nc_full, ntime. nia. }
    assert (Z1 : L2 D Vp Vd (field_of L (unitv (dof L j' i' l')) 0%nat 0%nat) (field_of L (unitv (dof L j i l)) 2%nat 0%nat) = 0).
    { unfold L2. destruct (Nat.eq_dec j' 0); [destruct (Nat.eq_dec i' 0); [|]|];
      [apply sp_zero2|apply sp_zero1|apply sp_zero1]; intros; (apply U; auto; try lia). }
    assert (Z2 : L2 D Vp Vd (field_of L (unitv (dof L j i l)) 0%nat 0%nat) (field_of L (unitv (dof L j' i' l')) 2%nat 0%nat) = 0).
    { unfold L2. destruct (Nat.eq_dec j 0); [destruct (Nat.eq_dec i 0); [|]|];
      [apply sp_zero2|apply sp_zero1|apply sp_zero1]; intros; (apply U; auto; try lia). }
    rewrite Z1, Z2 in E. lra.
Qed.
(** the exceptional block is really unsymmetric *)
Example C13_exception : L2 exI Vp Vd (fun l => delta 0 l) (fun l => delta 0 l) = 1 / 4.
Proof. rewrite exI_mass. unfold delta. cbn. lra. Qed.

(** C14 *)
Theorem C14_saddle_point_signs : forall P c g om D L, construct P = Ok c -> 0 < p_T P ->
  lay_ok D 4 (nc_full c) L -> regular D om ->
  0 <= g_data g -> 0 <= g_dual g -> 0 <= g_primal g -> 0 <= g_jump g ->
  let d := tgrid P in let lam := 5 * INR (p_k P) ^ 2 in
  let A := st_matrix D L c g om false in
  forall x x', (forall j i l, (j < 4)%nat -> (i < nc_full c j)%nat -> (l < d_dim D (spc j))%nat ->
     x' (dof L j i l) = if Nat.ltb j 2 then x (dof L j i l) else - x (dof L j i l)) ->
  let X := field_of L x in
  dotn (lay_dim L) x' (mult (lay_dim L) A x) + 1e-20 * L2 D Vp Vd (X 0%nat 0%nat) (X 2%nat 0%nat)
  = sumn (p_N P) (fun n => g_data g * data D d om X X n + g_dual g * dual D d lam X X n + g_primal g * primal D d lam X X n)
    + sumn (p_N P) (fun n => if Nat.ltb 0 n then
        g_jump g * jumps D d X X n + (if p_jumps P then g_dual g * dualjumps D d X X n else 0)
        else if p_wp P then g_jump g * init D d X X else 0)
  /\ (forall n, 0 <= data D d om X X n /\ 0 <= dual D d lam X X n /\ 0 <= primal D d lam X X n
       /\ 0 <= jumps D d X X n /\ 0 <= dualjumps D d X X n /\ 0 <= init D d X X).
Proof.
  intros P c g om D L HC HT HL HR G1 G2 G3 G4 d lam A x x' Hx X.
  pose proof (construct_inv _ _ HC) as HB. pose proof (dt_pos _ _ HC HT) as Hdt.
  split.
  - unfold dotn, A, st_matrix. rewrite (dot_assemble D 4 (nc_full c)) by (auto; apply wf_st; apply (bu_N _ _ HB)).
    fold X.
    rewrite (eval_ext D 4 (nc_full c) _ X X (field_of L x') (flip X)).
    + rewrite (signs P c g om D HB Hdt X).
      match goal with |- - ?a + ?b + ?a = _ => replace (- a + b + a) with b by ring end.
      rewrite <- Rsum_plus, (bu_NP _ _ HB). apply Rsum_ext; intro n.
      unfold quad_spec. rewrite (tgrid_td _ _ HC). fold d. unfold lam.
      rewrite (bu_lam _ _ HB), (bu_jumps _ _ HB), (bu_wp _ _ HB). ring.
    + apply wf_st; apply (bu_N _ _ HB).
    + apply feq_refl.
    + intros j i l Hj Hi Hl. unfold X, field_of, flip. rewrite Hx by assumption. reflexivity.
  - intro n. unfold lam, d. rewrite <- (bu_lam _ _ HB), <- (tgrid_td _ _ HC).
    repeat split.
    + apply (data_pos P c om D HB Hdt HR).
    + apply (dual_pos P c om D HB Hdt HR).
    + apply (primal_pos P c om D HB Hdt HR).
    + apply (energy_pos c om D Hdt HR).
    + apply (dualjumps_pos c om D Hdt HR).
    + apply (energy_pos c om D Hdt HR).
Qed.
Theorem C14_kernel : forall P c g om D L, construct P = Ok c -> 0 < p_T P ->
  lay_ok D 4 (nc_full c) L -> regular D om ->
  0 < g_data g -> 0 < g_dual g -> 0 < g_primal g -> 0 < g_jump g ->
  (forall a, L2 D Vd Vd a a = 0 -> forall l, (l < d_dim D Vd)%nat -> a l = 0) ->
  let d := tgrid P in let lam := 5 * INR (p_k P) ^ 2 in
  let A := st_matrix D L c g om false in
  forall x,
  (forall y, dotn (lay_dim L) y (mult (lay_dim L) A x)
     = 1e-20 * L2 D Vp Vd (field_of L x 0%nat 0%nat) (field_of L y 2%nat 0%nat)) ->
  let X := field_of L x in
  (forall j i l, (2 <= j < 4)%nat -> (i < nc_full c j)%nat -> (l < d_dim D Vd)%nat -> x (dof L j i l) = 0)
  /\ (forall n, (n < p_N P)%nat -> data D d om X X n = 0 /\ primal D d lam X X n = 0
       /\ ((0 < n)%nat -> jumps D d X X n = 0)).
Proof.
  intros P c g om D L HC HT HL HR G1 G2 G3 G4 HD d lam A x HK X.
  pose proof (construct_inv _ _ HC) as HB. pose proof (dt_pos _ _ HC HT) as Hdt.
  assert (HN := bu_N _ _ HB).
  assert (K : forall Y, eval D (st_form c g om false) X Y = 1e-20 * L2 D Vp Vd (X 0%nat 0%nat) (Y 2%nat 0%nat)).
  { intro Y.
    set (y := fun I => Rsum (seq 0 4) (fun j => sumn (nc_full c j) (fun i => sumn (d_dim D (spc j)) (fun l =>
      delta I (dof L j i l) * Y j i l)))).
    assert (F : feq D 4 (nc_full c) Y (field_of L y)).
    { intros j i l Hj Hi Hl. unfold field_of, y.
      rewrite (sumn_ext 4 _ (fun j0 => delta j j0 * Y j i l)).
      - rewrite sumn_delta by exact Hj. reflexivity.
      - intros j0 Hj0. rewrite (sumn_ext _ _ (fun i0 => delta i i0 * (delta j j0 * Y j i l))).
        + destruct (Nat.eq_dec j j0) as [<-|Hne].
          * rewrite sumn_delta by exact Hi. reflexivity.
          * assert (Dz : delta j j0 = 0) by (unfold delta; destruct (Nat.eqb_spec j j0); [contradiction|reflexivity]).
            rewrite Dz. rewrite Rmult_0_l. apply Rsum_zero; intros i0 _. ring.
        + intros i0 Hi0. rewrite (sumn_ext _ _ (fun l0 => delta l l0 * (delta i i0 * (delta j j0 * Y j i l)))).
          * destruct (Nat.eq_dec j j0) as [<-|Hne].
            -- rewrite sumn_delta by exact Hl. reflexivity.
            -- assert (Dz : delta j j0 = 0) by (unfold delta; destruct (Nat.eqb_spec j j0); [contradiction|reflexivity]).
               rewrite Dz. rewrite Rmult_0_l, Rmult_0_r. apply Rsum_zero; intros l0 _. ring.
          * intros l0 Hl0. unfold delta.
            destruct (Nat.eqb_spec (dof L j i l) (dof L j0 i0 l0)) as [E|E].
            -- apply (dof_inj D 4 (nc_full c)) in E; auto. destruct E as [-> [-> ->]]. rewrite !Nat.eqb_refl. ring.
            -- destruct (Nat.eqb_spec l l0) as [->|]; [|ring]. destruct (Nat.eqb_spec i i0) as [->|]; [|ring].
               destruct (Nat.eqb_spec j j0) as [->|]; [contradiction|ring]. }
    rewrite (eval_ext D 4 (nc_full c) _ X X Y (field_of L y)); [|apply wf_st; exact HN|apply feq_refl|exact F].
    specialize (HK y). unfold dotn, A, st_matrix in HK.
    rewrite (dot_assemble D 4 (nc_full c)) in HK by (auto; apply wf_st; exact HN).
    fold X in HK. rewrite HK. f_equal. unfold L2. apply sp_ext; [reflexivity|].
    intros l Hl. symmetry. apply F; [lia| |exact Hl]. unfold nc_full, ntime. nia. }
  split.
  - intros j i l Hj Hi Hl. apply (kernel_dual_zero P c g om D HB Hdt HR G1 G2 G3 G4 X K HD j i l Hj Hi Hl).
  - intros n Hn. rewrite <- (bu_NP _ _ HB) in Hn.
    pose proof (kernel_parts P c g om D HB Hdt HR G1 G2 G3 G4 X K n Hn) as KP.
    unfold d, lam. rewrite <- (tgrid_td _ _ HC), <- (bu_lam _ _ HB).
    decompose [and] KP. repeat split; auto.
Qed.
Example C14_nonvacuous : regular exI om1 /\ 0 < g_data exG /\ 0 < g_dual exG /\ 0 < g_primal exG /\ 0 < g_jump exG
  /\ (forall a, L2 exI Vd Vd a a = 0 -> forall l, (l < d_dim exI Vd)%nat -> a l = 0).
Proof. split; [exact exI_regular|]. cbn. repeat split; try lra. apply exI_definite. Qed.

(** C15 *)
Theorem C15_forms_well_formed : forall P c g om, construct P = Ok c ->
  (forall precond, wf_bform 4 (nc_full c) (st_form c g om precond) = true)
  /\ (forall b, wf_bform 4 (nc_pre c) (slab_form c g om b) = true)
  /\ (forall gj, wf_bform 2 nc_coup (coup_form c gj) = true)
  /\ (forall gj, wf_bform 2 nc_bnd (bnd_form c gj) = true)
  /\ (forall gd gj xs u1v u1g u2v, wf_lform 4 (nc_full c) (rhs_form c om gd gj xs u1v u1g u2v) = true)
  /\ (forall gj u1v u1g u2v n, wf_lform 4 (nc_pre c) (pre_lform c gj u1v u1g u2v n) = true).
Proof.
  intros P c g om HC. pose proof (bu_N _ _ (construct_inv _ _ HC)) as HN.
  split; [|split; [|split; [|split; [|split]]]]; intros.
  - apply wf_st; exact HN.
  - apply wf_slab.
  - apply wf_coup.
  - apply wf_bnd.
  - apply wf_rhs; exact HN.
  - apply wf_pre.
Qed.
(** which forms are accepted when compiled *)
Theorem C15_forms_accepted : forall P c g om, construct P = Ok c -> 0 < p_T P -> (1 <= p_k P)%nat ->
  g_dual g <> 0 -> g_primal g <> 0 ->
  (forall precond, fem_form 4 (nc_full c) (st_form c g om precond) = Ok (st_form c g om precond))
  /\ (forall b, fem_form 4 (nc_pre c) (slab_form c g om b) = Ok (slab_form c g om b))
  /\ (forall gj, fem_form 2 nc_coup (coup_form c gj) = Ok (coup_form c gj))
  /\ (forall gj, gj <> 0 -> fem_form 2 nc_bnd (bnd_form c gj) = Ok (bnd_form c gj)).
Proof.
  intros P c g om HC HT Hk G1 G2. pose proof (construct_inv _ _ HC) as HB. pose proof (dt_pos _ _ HC HT) as Hdt.
  assert (c_dt c <> 0) by lra. split; [|split; [|split]]; intros.
  - apply (st_accepted P); assumption.
  - apply (slab_accepted P); assumption.
  - apply coup_accepted.
  - apply bnd_accepted; assumption.
Qed.
Theorem C15_zero_weights_rejected : forall P c g om, construct P = Ok c ->
  g_dual g = 0 \/ g_primal g = 0 \/ p_T P = 0 ->
  (forall precond, fem_form 4 (nc_full c) (st_form c g om precond) = Err ValueError)
  /\ (forall b, fem_form 4 (nc_pre c) (slab_form c g om b) = Err ValueError)
  /\ fem_form 2 nc_bnd (bnd_form c 0) = Err RuntimeError.
Proof.
  intros P c g om HC HZ. pose proof (construct_inv _ _ HC) as HB.
  assert (Z : g_dual g * c_dt c = 0 \/ g_primal g * c_dt c = 0).
  { destruct HZ as [H|[H|H]]; [left|right|left].
    - rewrite H; ring.
    - rewrite H; ring.
    - rewrite (bu_dt _ _ HB), H. unfold Rdiv. ring. }
  split; [|split]; intros.
  - apply st_rejected; try exact Z; apply (bu_N _ _ HB).
  - apply slab_rejected; try exact Z; apply (bu_N _ _ HB).
  - apply bnd_rejected.
Qed.
(** The penalty weight lam = 5 k^2 vanishes for k = 0: the forms themselves are refused
    then (UFL's Lagrange elements start at order 1 anyway). *)
Theorem C15_order_zero_rejected : forall P c g om, construct P = Ok c -> p_k P = 0%nat ->
  (forall precond, fem_form 4 (nc_full c) (st_form c g om precond) = Err ValueError)
  /\ (forall b, fem_form 4 (nc_pre c) (slab_form c g om b) = Err ValueError).
Proof.
  intros P c g om HC Hk. pose proof (construct_inv _ _ HC) as HB.
  assert (HL : c_lam c = 0) by (rewrite (bu_lam _ _ HB), Hk; cbn; ring).
  assert (HN : (1 <= c_N c)%nat) by apply (bu_N _ _ HB).
  assert (CR : exists t, (In t (st_dual c g 0) \/ In t (st_primal c g 0)) /\ has_domain t = false).
  { eexists. split; [right; apply (in_loop2 _ _ _ 0 0); [lia|lia|cbn [In]; left; reflexivity]|].
    unfold has_domain, plus_; cbn [b_m b_coef b_wt]. rewrite HL. destruct (Req_EM_T 0 0) as [_|n0]; [|contradiction]. apply andb_false_r. }
  destruct CR as [t [Ht Hd]]. split; intro b; unfold fem_form.
  - change (forallb has_domain (st_form c g om b)) with (domF (st_form c g om b)). rewrite (dom_reject _ t); [reflexivity| |exact Hd].
    rewrite st_form_slabs. right. apply in_flat_map. exists 0%nat. split; [apply in_seq; lia|].
    unfold st_slab, cntn. cbn [k_iq k_iqs k_cq k_cqs Nat.mul z Z.of_nat]. rewrite !in_app_iff. tauto.
  - change (forallb has_domain (slab_form c g om b)) with (domF (slab_form c g om b)). rewrite (dom_reject _ t); [reflexivity| |exact Hd].
    unfold slab_form. destruct (sl_as_st c g om) as [-> [-> [-> [-> ->]]]]. rewrite !in_app_iff. tauto.
Qed.
(** Whatever form is accepted: it is used unchanged, both factors of every product have the
    same number of components, and jumps appear on interior facets only. *)
Theorem C15_accepted_terms : forall nb nc f f', fem_form nb nc f = Ok f' ->
  f' = f /\ forall t, In t f ->
    (forall D, ncomp D (b_o1 t) = ncomp D (b_o2 t)) /\
    (b_m t = DS <-> b_o1 t = JumpGrad) /\ (b_m t = DS <-> b_o2 t = JumpGrad) /\ (b_m t = DS <-> b_wt t = WHavg).
Proof.
  intros nb nc f f' H. unfold fem_form in H. destruct (forallb has_domain f); [|discriminate].
  destruct (wf_bform nb nc f) eqn:W; [|discriminate]. destruct (existsb nonzero_t f); [|discriminate].
  injection H as <-. split; [reflexivity|]. intros t Ht. unfold wf_bform in W. rewrite forallb_forall in W. specialize (W t Ht).
  unfold wf_bterm in W. apply andb_prop in W as [W _]. apply andb_prop in W as [W W3]. apply andb_prop in W as [W1 W2].
  destruct (b_m t), (b_o1 t), (b_o2 t), (b_wt t); cbn in *; try discriminate;
    (split; [reflexivity|]); repeat split; intro; first [reflexivity|discriminate].
Qed.
Example C15_nonvacuous : exists c, construct (exP 3 0 5 true true) = Ok c
  /\ 0 < p_T (exP 3 0 5 true true) /\ (1 <= p_k (exP 3 0 5 true true))%nat /\ g_dual exG <> 0 /\ g_primal exG <> 0.
Proof. destruct (exP_ok 3 0 5 true true) as [c Hc]; try lia. exists c. split; [exact Hc|]. cbn. repeat split; auto; lra. Qed.

(** C16.  The forms with the Nitsche terms for every index pair. *)
Definition unguarded_fw (c : config) : bform :=
  loop2 (S (c_q c)) (S (c_qs c)) (fun j k =>
    [ minus_ (c_dt c * mget (M_time_q_qstar (c_el c)) k j) WOne Ds NGrad (at_ U1 (z j)) Val (at_ Y1 (z k)) ]).
Definition guarded_fw (c : config) : bform :=
  loop2 (S (c_q c)) (S (c_qs c)) (fun j k => nitsche_guard (mget (M_time_q_qstar (c_el c)) k j)
    [ minus_ (c_dt c * mget (M_time_q_qstar (c_el c)) k j) WOne Ds NGrad (at_ U1 (z j)) Val (at_ Y1 (z k)) ]).
Theorem C16_guard_harmless :
  (forall q qs e, get_elmat_time q qs = Ok e ->
   forall k j, (k <= Z.to_nat qs)%nat -> (j <= Z.to_nat q)%nat ->
   ~ 1e-10 < Rabs (mget (M_time_q_qstar e) k j) -> mget (M_time_q_qstar e) k j = 0)
  /\ (forall P c D X Y, construct P = Ok c -> eval D (guarded_fw c) X Y = eval D (unguarded_fw c) X Y).
Proof.
  split.
  - intros q qs e H k j Hk Hj Hn. destruct (guard_entries q qs e H k j Hk Hj); [assumption|contradiction].
  - intros P c D X Y HC. pose proof (construct_inv _ _ HC) as HB.
    unfold guarded_fw, unguarded_fw. rewrite !eval_loop2.
    apply sumn_ext; intros j Hj. apply sumn_ext; intros k Hk.
    apply eval_guard.
    + apply (guard_entries _ _ _ (bu_el _ _ HB)); [rewrite <- (bu_cqs _ _ HB)|rewrite <- (bu_cq _ _ HB)]; lia.
    + intro E. rewrite E. rewrite eval_cons, eval_nil, ev_minus, ev_at. ring.
Qed.
(** entries are really skipped *)
Example C16_nonvacuous : exists e, get_elmat_time 2 1 = Ok e /\ mget (M_time_q_qstar e) 1 0 = 0.
Proof.
  assert (H : exists e, get_elmat_time 2 1 = Ok e) by (eexists; reflexivity).
  destruct H as [e H]. exists e. split; [exact H|].
  destruct (get_elmat_inv _ _ _ H) as [phis [chis [Hp [Hc He]]]].
  subst e. unfold elmat_of; cbn [M_time_q_qstar]. rewrite mget_fill by (cbn; lia). clear H.
  cbv [basis_sym] in Hp, Hc; injection Hp; intros <-; injection Hc; intros <-; clear Hp Hc.
  unfold pint; cbn. unfold Q2R; cbn [QArith_base.Qnum QArith_base.Qden]. lra.
Qed.

(** C17: rows of slab m, columns of slab n *)
Theorem C17_slab_coupling : forall P c g om D L, construct P = Ok c -> 0 < p_T P ->
  lay_ok D 4 (nc_full c) L ->
  let slab_of := fun j i => (i / S (ord (tgrid P) j))%nat in
  forall precond j i l j' i' l',
  (j < 4)%nat -> (i < nc_full c j)%nat -> (l < d_dim D (spc j))%nat ->
  (j' < 4)%nat -> (i' < nc_full c j')%nat -> (l' < d_dim D (spc j'))%nat ->
  let m := slab_of j i in let n := slab_of j' i' in
  (n <> m)%nat -> (m <> n + 1)%nat ->
  (n <> m + 1)%nat \/ (precond = true /\ p_jumps P = false) ->
  st_matrix D L c g om precond (dof L j i l) (dof L j' i' l') = 0.
Proof.
  intros P c g om D L HC HT HL slab_of precond j i l j' i' l' Hj Hi Hl Hj' Hi' Hl' m n N1 N2 N3.
  pose proof (construct_inv _ _ HC) as HB. pose proof (dt_pos _ _ HC HT) as Hdt.
  unfold st_matrix, assemble.
  assert (O : forall j i l, (j < 4)%nat -> (i < nc_full c j)%nat -> (l < d_dim D (spc j))%nat ->
    on_slab D (td c) (c_N c) (slab_of j i) (field_of L (unitv (dof L j i l)))).
  { intros a e f Ha He Hf b e' f' Hb He' Hf' Hne. unfold field_of, unitv, delta.
    destruct (Nat.eqb_spec (dof L a e f) (dof L b e' f')) as [E|]; [|reflexivity].
    apply (dof_inj D 4 (nc_full c)) in E; auto.
    destruct E as [-> [-> ->]]. exfalso. apply Hne. unfold slab_of. rewrite (tgrid_td _ _ HC). reflexivity. }
  apply (slab_structure P c g om D HB precond n m).
  - apply O; assumption.
  - apply O; assumption.
  - exact N1.
  - exact N2.
  - rewrite (bu_jumps _ _ HB). exact N3.
Qed.
Example C17_nonvacuous : exists c, construct (exP 1 1 4 false false) = Ok c
  /\ (0 < nc_full c 0)%nat /\ (6 < nc_full c 2)%nat
  /\ (0 / S (ord (tgrid (exP 1 1 4 false false)) 0) = 0)%nat /\ (6 / S (ord (tgrid (exP 1 1 4 false false)) 2) = 3)%nat.
Proof.
  destruct (exP_ok 1 1 4 false false) as [c Hc]; try lia. exists c. split; [exact Hc|].
  pose proof (construct_inv _ _ Hc) as HB. unfold nc_full, ntime, sto.
  rewrite (bu_cq _ _ HB), (bu_cqs _ _ HB), (bu_NP _ _ HB). cbn [p_q p_qstar p_N exP Nat.ltb Nat.leb Z.of_nat].
  repeat split; try reflexivity; cbn; lia.
Qed.

(** C18 *)
Theorem C18_rhs_consistent : forall P c om D L, construct P = Ok c -> 0 < p_T P ->
  lay_ok D 4 (nc_full c) L ->
  forall gd gj xs u1v u1g u2v U y,
  let d := tgrid P in let Y := field_of L y in
  (forall n p t, (n < p_N P)%nat -> In p (d_pts D Dx) ->
     INR n * t_dt d <= t <= INR n * t_dt d + t_dt d ->
     p_v P t (xs p) = fev D Dx Vp Val (at_time d U 0 n t) p 0) ->
  (p_wp P = true -> forall p, In p (d_pts D Dx) ->
     u1v p 0%nat = fev D Dx Vp Val (upper d U 0 0) p 0
     /\ (forall k, (k < d_gd D)%nat -> u1g p k = fev D Dx Vp Grad (upper d U 0 0) p k)
     /\ u2v p 0%nat = fev D Dx Vp Val (upper d U 1 0) p 0) ->
  Rabs (dotn (lay_dim L) y (assemble_vec D L (rhs_form c om gd gj xs u1v u1g u2v))
        - (1e-20 * integ D Dx WOne 1 (fun _ _ => 1) (fev D Dx Vd Val (Y 2%nat 0%nat))
           + sumn (p_N P) (fun n => gd * data D d om U Y n)
           + if p_wp P then gj * init D d U Y else 0))
  <= 3e-7 * Rabs gd * t_dt d * sumn (p_N P) (fun n =>
       sumn (S (t_q d)) (fun a => sumn (S (t_q d)) (fun b =>
         Rabs (L2w D om Vp (U 0%nat (n * S (t_q d) + a)%nat) (Y 0%nat (n * S (t_q d) + b)%nat))))).
Proof.
  intros P c om D L HC HT HL gd gj xs u1v u1g u2v U y d Y HM HI.
  pose proof (construct_inv _ _ HC) as HB. pose proof (dt_pos _ _ HC HT) as Hdt.
  unfold dotn. rewrite (dot_assemble_vec D 4 (nc_full c)) by (auto; apply wf_rhs; apply (bu_N _ _ HB)). fold Y.
  pose proof (rhs_consistent P c om D HB Hdt gd gj xs u1v u1g u2v U Y) as H.
  unfold size, data_matches, init_matches in H.
  rewrite (tgrid_td _ _ HC), (bu_NP _ _ HB), (bu_wp _ _ HB), (bu_v _ _ HB) in H. fold d in H.
  assert (Eq : c_q c = t_q d) by (rewrite (bu_cq _ _ HB); reflexivity).
  assert (Edt : c_dt c = t_dt d) by (rewrite (bu_dt _ _ HB); reflexivity).
  rewrite Eq, Edt in H. apply H; assumption.
Qed.
Example C18_nonvacuous : exists c, construct (exP 1 1 2 false false) = Ok c /\
  forall n p t, (n < 2)%nat -> In p (d_pts exS Dx) -> INR n * c_dt c <= t <= INR n * c_dt c + c_dt c ->
    t = fev exS Dx Vp Val (at_time (tgrid (exP 1 1 2 false false)) (lin_wave (c_dt c)) 0 n t) p 0.
Proof.
  destruct (exP_ok 1 1 2 false false) as [c Hc]; try lia. exists c. split; [exact Hc|].
  pose proof (construct_inv _ _ Hc) as HB.
  assert (Hdt : 0 < c_dt c) by (apply (dt_pos _ _ Hc); cbn; lra).
  rewrite <- (tgrid_td _ _ Hc).
  pose proof (lin_data c Hdt (bu_cq _ _ HB) (bu_v _ _ HB)) as H. unfold data_matches in H.
  intros n p t Hn Hp Ht. rewrite <- H; auto.
  - rewrite (bu_v _ _ HB). reflexivity.
  - rewrite (bu_NP _ _ HB). exact Hn.
Qed.

(** C19 *)
Theorem C19_exact_waves : forall P c g om D, construct P = Ok c -> 0 < p_T P ->
  let d := tgrid P in let lam := 5 * INR (p_k P) ^ 2 in
  forall U,
  (forall n t p, (n < p_N P)%nat -> INR n * t_dt d <= t <= INR n * t_dt d + t_dt d -> In p (d_pts D Dx) ->
     fev D Dx Vp Val (ddt (at_time d U 0 n) t) p 0 = fev D Dx Vp Val (at_time d U 1 n t) p 0) ->
  (forall n t p, (n < p_N P)%nat -> INR n * t_dt d <= t <= INR n * t_dt d + t_dt d -> In p (d_pts D Dx) ->
     fev D Dx Vp Val (ddt (at_time d U 1 n) t) p 0 = fev D Dx Vp Lap (at_time d U 0 n t) p 0) ->
  (forall n t p, (n < p_N P)%nat -> INR n * t_dt d <= t <= INR n * t_dt d + t_dt d -> In p (d_pts D Ds) ->
     fev D Ds Vp Val (at_time d U 0 n t) p 0 = 0) ->
  (forall n t p k, (n < p_N P)%nat -> INR n * t_dt d <= t <= INR n * t_dt d + t_dt d -> In p (d_pts D DS) ->
     (k < d_gd D)%nat -> fev D DS Vp JumpGrad (at_time d U 0 n t) p k = 0) ->
  (forall n j l, (1 <= n < p_N P)%nat -> (j < 2)%nat -> (l < d_dim D Vp)%nat ->
     upper d U j n l = lower d U j n l) ->
  (forall W n, (n < p_N P)%nat -> primal D d lam U W n = 0)
  /\ (forall W n, (1 <= n < p_N P)%nat -> jumps D d U W n = 0 /\ jumps_pre D d U W n = 0 /\ fwjumps D d U W n = 0)
  /\ (forall precond Y,
       eval D (st_form c g om precond) (fun j i l => if Nat.ltb j 2 then U j i l else 0) Y
       = 1e-20 * L2 D Vp Vd (U 0%nat 0%nat) (Y 2%nat 0%nat)
         + sumn (p_N P) (fun n => wave D d U Y n + g_data g * data D d om U Y n)
         + (if p_wp P then g_jump g * init D d U Y else 0)).
Proof.
  intros P c g om D HC HT d lam U A1 A2 A3 A4 A5.
  pose proof (construct_inv _ _ HC) as HB. pose proof (dt_pos _ _ HC HT) as Hdt.
  assert (Edt : c_dt c = t_dt d) by (rewrite (bu_dt _ _ HB); reflexivity).
  assert (EW : exact_wave c D U).
  { constructor; rewrite ?(tgrid_td _ _ HC), ?(bu_NP _ _ HB), ?Edt; assumption. }
  unfold lam, d. rewrite <- (bu_lam _ _ HB), <- (tgrid_td _ _ HC), <- (bu_NP _ _ HB), <- (bu_wp _ _ HB).
  split; [|split].
  - intros W n Hn. eapply wave_no_stab; eassumption.
  - intros W n Hn. eapply wave_no_jumps; eassumption.
  - intros precond Y. apply (wave_form P c g om D HB Hdt precond U Y EW).
Qed.
Example C19_nonvacuous : exists c, construct (exP 1 1 2 false false) = Ok c
  /\ exact_wave c exS (lin_wave (c_dt c)) /\ lin_wave (c_dt c) 0%nat 1%nat 0%nat <> 0.
Proof.
  destruct (exP_ok 1 1 2 false false) as [c Hc]; try lia. exists c. split; [exact Hc|].
  pose proof (construct_inv _ _ Hc) as HB.
  assert (Hdt : 0 < c_dt c) by (apply (dt_pos _ _ Hc); cbn; lra).
  split; [apply lin_exact; [exact Hdt|apply (bu_cq _ _ HB)]|].
  unfold lin_wave. cbn. lra.
Qed.

Print Assumptions C12_variational_form.
Print Assumptions C13_symmetry.
Print Assumptions C14_saddle_point_signs.
Print Assumptions C14_kernel.
Print Assumptions C15_forms_well_formed.
Print Assumptions C15_forms_accepted.
Print Assumptions C15_zero_weights_rejected.
Print Assumptions C15_order_zero_rejected.
Print Assumptions C15_accepted_terms.
Print Assumptions C16_guard_harmless.
Print Assumptions C17_slab_coupling.
Print Assumptions C18_rhs_consistent.
Print Assumptions C19_exact_waves.
