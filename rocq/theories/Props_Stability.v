(** Props_Stability.v -- properties C69 and C70: a priori estimates for the
    space-time problem.  Every vector is bounded by its image under the matrix in
    the energy made of the stabilisation terms, and noise in the measurements
    enters the solution with a fixed factor, whatever the mesh, the number of
    slabs and the stabilisation parameters. *)
From Coq Require Import Reals List ZArith Lra Lia Bool String.
From Coquelicot Require Import Coquelicot.
From Verif Require Import Base TimeModel TimeSpec TimeProofs QuadProofs FormModel FormSpec FormProofs
  SpaceTimeForms FormBlocks GuardProofs FormTime FormC12 FormSym FormStruct FormCons FormWf FormExample Props_Forms
  WellPosed Injective Stability ErrorBound Props_WellPosed.
Import ListNotations.
Open Scope R_scope.

(** stabilisation energy of a discrete function (primal and dual variables) *)
Definition enorm2 (P : params) (g : gammas) (om : nat -> R) (D : disc) (X : field) : R :=
  let d := tgrid P in let lam := 5 * INR (p_k P) ^ 2 in
  sumn (p_N P) (fun n => g_data g * data D d om X X n + g_dual g * dual D d lam X X n + g_primal g * primal D d lam X X n)
  + sumn (p_N P) (fun n => if Nat.ltb 0 n then
      g_jump g * jumps D d X X n + (if p_jumps P then g_dual g * dualjumps D d X X n else 0)
      else if p_wp P then g_jump g * init D d X X else 0).
(** the vector with the signs of the dual variables changed *)
Definition flipped (c : config) (D : disc) (L : layout) (x x' : vec) : Prop :=
  forall j i l, (j < 4)%nat -> (i < nc_full c j)%nat -> (l < d_dim D (spc j))%nat ->
    x' (dof L j i l) = if Nat.ltb j 2 then x (dof L j i l) else - x (dof L j i l).
(** weighted sum of squares of a function of time and quadrature point, at the
    times where the right-hand side samples the measurement *)
Definition noise2 (P : params) (qr : list (R * R)) (om : nat -> R) (D : disc) (dl : R -> nat -> R) : R :=
  let dt := p_T P / INR (p_N P) in
  sumn (p_N P) (fun n => dt * Rsum qr (fun '(tau, w) => w * Rsum (d_pts D Dx) (fun p =>
    d_w D Dx p * om p * dl (INR n * dt + dt * tau) p ^ 2))).
(** parameters that differ only in the measured function *)
Definition same_but_measurement (P P' : params) : Prop :=
  p_q P = p_q P' /\ p_qstar P = p_qstar P' /\ p_k P = p_k P' /\ p_kstar P = p_kstar P' /\ p_N P = p_N P'
  /\ p_T P = p_T P' /\ p_t P = p_t P' /\ p_stab P = p_stab P' /\ p_jumps P = p_jumps P' /\ p_wp P = p_wp P'.

Lemma enorm2_qsum P c g om D X : construct P = Ok c -> enorm2 P g om D X = qsum c g om D X.
Proof.
  intro HC. pose proof (construct_inv _ _ HC) as HB. unfold enorm2, qsum. rewrite <- Rsum_plus, (bu_NP _ _ HB).
  apply Rsum_ext; intro n. unfold quad_spec.
  rewrite (tgrid_td _ _ HC), (bu_lam _ _ HB), (bu_jumps _ _ HB), (bu_wp _ _ HB). ring.
Qed.
Lemma noise2_slabs P c om D dl : construct P = Ok c -> noise2 P (c_qr c) om D dl = sumn (c_N c) (slab_noise c om D dl).
Proof.
  intro HC. pose proof (construct_inv _ _ HC) as HB. unfold noise2, slab_noise. rewrite (bu_NP _ _ HB), (bu_dt _ _ HB).
  cbv zeta. apply Rsum_ext; intro n. f_equal. apply Rsum_ext; intros [tau w]. f_equal. apply Rsum_ext; intro p. ring.
Qed.
(** the solution of the well-posed problem controls the initial value *)
Lemma start_energy P c g om D X : construct P = Ok c -> 0 < p_T P -> regular D om -> p_wp P = true ->
  0 <= g_data g -> 0 <= g_dual g -> 0 <= g_primal g -> 0 <= g_jump g ->
  g_jump g * (1 / c_dt c * L2 D Vp Vp (X 0%nat 0%nat) (X 0%nat 0%nat)) <= qsum c g om D X.
Proof.
  intros HC HT HR Hwp G1 G2 G3 G4. pose proof (construct_inv _ _ HC) as HB. pose proof (dt_pos _ _ HC HT) as Hdt.
  assert (QP := fun n => quad_spec_pos P c g om D HB Hdt HR X n G1 G2 G3 G4).
  unfold qsum. pose proof (bu_N _ _ HB) as HN. destruct (c_N c) as [|N]; [lia|]. cbn [seq]. rewrite Rsum_cons.
  assert (0 <= Rsum (seq 1 N) (quad_spec c g om D X)) by (apply Rsum_nonneg; intros n _; apply QP).
  destruct (QP 0%nat) as [A1 [A2 [A3 [_ [_ [A6 _]]]]]]. 
  set (rest := Rsum _ _) in *. unfold quad_spec. cbn [Nat.ltb Nat.leb]. rewrite (bu_wp _ _ HB), Hwp.
  assert (I : g_jump g * (1 / c_dt c * L2 D Vp Vp (X 0%nat 0%nat) (X 0%nat 0%nat)) <= g_jump g * init D (td c) X X).
  { apply Rmult_le_compat_l; [exact G4|]. unfold init, energy. cbn [t_dt td].
    assert (EU : L2 D Vp Vp (upper (td c) X 0 0) (upper (td c) X 0 0) = L2 D Vp Vp (X 0%nat 0%nat) (X 0%nat 0%nat)).
    { unfold L2. apply sp_ext; intros l _; exact (upper_p P c HB Hdt X 0 0 l ltac:(lia)). }
    rewrite EU.
    pose proof (H1_nonneg om D HR Vp (upper (td c) X 0 0)) as N1. pose proof (L2_nonneg om D HR Vp (upper (td c) X 1 0)) as N2.
    pose proof (Rmult_le_pos _ _ (Rlt_le _ _ Hdt) N1).
    assert (Hi : 0 <= 1 / c_dt c) by (apply Rlt_le, Rdiv_lt_0_compat; lra).
    pose proof (Rmult_le_pos _ _ Hi N2). lra. }
  lra.
Qed.

(** * C69: stability *)
Lemma eval_flipped P c g om D L x x' : construct P = Ok c -> lay_ok D 4 (nc_full c) L -> flipped c D L x x' ->
  dotn (lay_dim L) x' (mult (lay_dim L) (st_matrix D L c g om false) x)
  = eval D (st_form c g om false) (field_of L x) (flip (field_of L x)).
Proof.
  intros HC HL HF. pose proof (construct_inv _ _ HC) as HB.
  unfold dotn, st_matrix. rewrite (dot_assemble D 4 (nc_full c)) by (auto; apply wf_st; apply (bu_N _ _ HB)).
  apply (eval_ext D 4 (nc_full c)); [apply wf_st; apply (bu_N _ _ HB)|apply feq_refl|].
  intros j i l Hj Hi Hl. unfold field_of, flip. rewrite HF by assumption. reflexivity.
Qed.
Theorem C69_stability : forall P c g om D L, construct P = Ok c -> 0 < p_T P ->
  lay_ok D 4 (nc_full c) L -> regular D om ->
  0 <= g_data g -> 0 < g_dual g -> 0 <= g_primal g -> 0 <= g_jump g ->
  forall x x', flipped c D L x x' ->
  let X := field_of L x in
  let test := dotn (lay_dim L) x' (mult (lay_dim L) (st_matrix D L c g om false) x) in
  enorm2 P g om D X <= 2 * test
      + 16 * 1e-20 ^ 2 / (g_dual g * t_dt (tgrid P)) * L2 D Vp Vp (X 0%nat 0%nat) (X 0%nat 0%nat)
  /\ (p_wp P = true -> 32 * 1e-20 ^ 2 <= g_jump g * g_dual g -> enorm2 P g om D X <= 4 * test).
Proof.
  intros P c g om D L HC HT HL HR G1 G2 G3 G4 x x' HF X test.
  pose proof (construct_inv _ _ HC) as HB. pose proof (dt_pos _ _ HC HT) as Hdt.
  unfold test. rewrite (eval_flipped P c g om D L x x' HC HL HF). fold X.
  rewrite (enorm2_qsum P c g om D X HC).
  replace (t_dt (tgrid P)) with (c_dt c) by (rewrite (bu_dt _ _ HB); reflexivity).
  pose proof (inf_sup P c g om D HB Hdt HR G1 G2 G3 G4 X) as I. split; [exact I|].
  intros Hwp Hw. pose proof (start_energy P c g om D X HC HT HR Hwp G1 (Rlt_le _ _ G2) G3 G4) as S.
  pose proof (L2_nonneg om D HR Vp (X 0%nat 0%nat)) as N.
  assert (R : 16 * 1e-20 ^ 2 / (g_dual g * c_dt c) * L2 D Vp Vp (X 0%nat 0%nat) (X 0%nat 0%nat)
     <= / 2 * (g_jump g * (1 / c_dt c * L2 D Vp Vp (X 0%nat 0%nat) (X 0%nat 0%nat)))).
  { replace (16 * 1e-20 ^ 2 / (g_dual g * c_dt c) * L2 D Vp Vp (X 0%nat 0%nat) (X 0%nat 0%nat))
      with (/ 2 * (32 * 1e-20 ^ 2 * (/ (g_dual g * c_dt c) * L2 D Vp Vp (X 0%nat 0%nat) (X 0%nat 0%nat)))) by (field; split; lra).
    replace (/ 2 * (g_jump g * (1 / c_dt c * L2 D Vp Vp (X 0%nat 0%nat) (X 0%nat 0%nat))))
      with (/ 2 * ((g_jump g * g_dual g) * (/ (g_dual g * c_dt c) * L2 D Vp Vp (X 0%nat 0%nat) (X 0%nat 0%nat)))) by (field; split; lra).
    apply Rmult_le_compat_l; [lra|]. apply Rmult_le_compat_r; [|exact Hw].
    apply Rmult_le_pos; [|exact N]. left. apply Rinv_0_lt_compat, Rmult_lt_0_compat; lra. }
  lra.
Qed.

(** * C70: noise in the measurements *)
Lemma construct_measurement P P' c c' : same_but_measurement P P' -> construct P = Ok c -> construct P' = Ok c' ->
  c' = {| c_q := c_q c; c_qs := c_qs c; c_k := c_k c; c_kstar := c_kstar c; c_N := c_N c; c_T := c_T c; c_t := c_t c;
          c_dt := c_dt c; c_lam := c_lam c; c_stab := c_stab c; c_jumps := c_jumps c; c_wp := c_wp c; c_el := c_el c;
          c_qr := c_qr c; c_qr_ho := c_qr_ho c; c_phi := c_phi c; c_dphi := c_dphi c; c_samples := c_samples c;
          c_eps := c_eps c; c_v := p_v P'; c_dv := p_dv P' |}.
Proof.
  intros [E1 [E2 [E3 [E4 [E5 [E6 [E7 [E8 [E9 E10]]]]]]]]] H H'. unfold construct in *.
  rewrite <- E1, <- E2, <- E3, <- E4, <- E5, <- E6, <- E7, <- E8, <- E9, <- E10 in H'.
  destruct (Nat.eqb (p_N P) 0); [discriminate|].
  destruct (get_elmat_time (p_q P) (p_qstar P)) as [el|]; cbn [rbind] in *; [|discriminate].
  destruct (QuadRule "Gauss-Radau" 4) as [q4|]; cbn [rbind] in *; [|discriminate].
  destruct (QuadRule "Gauss-Radau" 5) as [q5|]; cbn [rbind] in *; [|discriminate].
  destruct (basis_in_time (p_q P)) as [[ph dph]|]; cbn [rbind] in *; [|discriminate].
  destruct (zip_rule q4) as [z4|]; cbn [rbind] in *; [|discriminate].
  destruct (zip_rule q5) as [z5|]; cbn [rbind] in *; [|discriminate].
  injection H as <-. injection H' as <-. reflexivity.
Qed.
Lemma diff_scal k a b : k * a + -1 * (k * b) = k * (a + -1 * b).
Proof. ring. Qed.
Theorem C70_measurement_noise : forall P P' c c' g om D L xs u1v u1g u2v,
  construct P = Ok c -> construct P' = Ok c' -> same_but_measurement P P' -> 0 < p_T P ->
  lay_ok D 4 (nc_full c) L -> regular D om ->
  0 <= g_data g -> 0 < g_dual g -> 0 <= g_primal g -> 0 <= g_jump g ->
  forall x x',
  (forall i, (i < lay_dim L)%nat -> mult (lay_dim L) (st_matrix D L c g om false) x i
     = assemble_vec D L (rhs_form c om (g_data g) (g_jump g) xs u1v u1g u2v) i) ->
  (forall i, (i < lay_dim L)%nat -> mult (lay_dim L) (st_matrix D L c' g om false) x' i
     = assemble_vec D L (rhs_form c' om (g_data g) (g_jump g) xs u1v u1g u2v) i) ->
  let E := field_of L (fun i => x i - x' i) in
  let dl t p := p_v P t (xs p) - p_v P' t (xs p) in
  enorm2 P g om D E <= 4 * g_data g * noise2 P (c_qr c) om D dl
      + 32 * 1e-20 ^ 2 / (g_dual g * t_dt (tgrid P)) * L2 D Vp Vp (E 0%nat 0%nat) (E 0%nat 0%nat)
  /\ (p_wp P = true -> 64 * 1e-20 ^ 2 <= g_jump g * g_dual g ->
      enorm2 P g om D E <= 8 * g_data g * noise2 P (c_qr c) om D dl).
Proof.
  intros P P' c c' g om D L xs u1v u1g u2v HC HC' HS HT HL HR G1 G2 G3 G4 x x' Hx Hx' E dl.
  pose proof (construct_inv _ _ HC) as HB. pose proof (dt_pos _ _ HC HT) as Hdt.
  pose proof (construct_measurement P P' c c' HS HC HC') as Ec.
  assert (EA : st_matrix D L c' g om false = st_matrix D L c g om false) by (rewrite Ec; destruct c; reflexivity).
  rewrite EA in Hx'.
  assert (HT' : 0 < p_T P') by (destruct HS as [_ [_ [_ [_ [_ [<- _]]]]]]; exact HT).
  pose proof (construct_inv _ _ HC') as HB'. pose proof (dt_pos _ _ HC' HT') as Hdt'.
  assert (ET : eval D (st_form c g om false) E (flip E)
      = sumn (c_N c) (fun n => g_data g * (c_dt c * Rsum (c_qr c) (fun '(tau, w) => w * sumn (S (c_q c)) (fun k =>
        lagrange (c_q c) k tau
        * integ D Dx (WOm om) 1 (fun p _ => dl (INR n * c_dt c + c_dt c * tau) p)
             (fev D Dx Vp Val (E 0%nat (n * S (c_q c) + k)%nat))))))).
  { destruct (field_onto D 4 (nc_full c) L (flip E) HL) as [y Hy].
    rewrite (eval_ext D 4 (nc_full c) _ E E (flip E) (field_of L y)); [|apply wf_st, (bu_N _ _ HB)|apply feq_refl|exact Hy].
    unfold E at 1. rewrite <- (dot_assemble D 4 (nc_full c)) by (auto; apply wf_st, (bu_N _ _ HB)).
    assert (E1 : sumn (lay_dim L) (fun i => y i * mult (lay_dim L) (assemble D L (st_form c g om false)) (fun i => x i - x' i) i)
      = sumn (lay_dim L) (fun i => y i * assemble_vec D L (rhs_form c om (g_data g) (g_jump g) xs u1v u1g u2v) i)
        + -1 * sumn (lay_dim L) (fun i => y i * assemble_vec D L (rhs_form c' om (g_data g) (g_jump g) xs u1v u1g u2v) i)).
    { rewrite <- Rsum_scal, <- Rsum_plus. apply Rsum_ext_in. intros i Hi. apply in_seq in Hi.
      rewrite <- Hx, <- Hx' by lia. unfold st_matrix, mult.
      rewrite (Rsum_ext (seq 0 (lay_dim L)) _ (fun j => assemble D L (st_form c g om false) i j * x j
         + -1 * (assemble D L (st_form c g om false) i j * x' j))) by (intro; ring).
      rewrite Rsum_plus, Rsum_scal. ring. }
    etransitivity; [exact E1|]. clear E1.
    rewrite !(dot_assemble_vec D 4 (nc_full c)); [|exact HL| |exact HL|apply wf_rhs, (bu_N _ _ HB)].
    2: { replace (nc_full c) with (nc_full c') by (rewrite Ec; reflexivity). apply wf_rhs, (bu_N _ _ HB'). }
    rewrite (rhs_slabs c om D), (rhs_slabs c' om D).
    assert (EN : c_N c' = c_N c) by (rewrite Ec; reflexivity).
    assert (Eq : c_q c' = c_q c) by (rewrite Ec; reflexivity).
    assert (Edt : c_dt c' = c_dt c) by (rewrite Ec; reflexivity).
    assert (Er : c_qr c' = c_qr c) by (rewrite Ec; reflexivity).
    assert (EI : forall n, rhs_init c' (g_jump g) u1v u1g u2v n = rhs_init c (g_jump g) u1v u1g u2v n) by (intro; rewrite Ec; reflexivity).
    rewrite EN, Eq.
    match goal with |- ?r + ?a + -1 * (?r + ?b) = _ => replace (r + a + -1 * (r + b)) with (a + -1 * b) by ring end.
    rewrite <- Rsum_scal, <- Rsum_plus. apply Rsum_ext_in. intros n Hn. apply in_seq in Hn. rewrite EI.
    rewrite (rhs_data_eval P c om D HB).
    pose proof (rhs_data_eval P' c' om D HB' (g_data g) xs n (field_of L y)) as R'. rewrite Eq, Edt, Er in R'. rewrite R'. clear R'.
    match goal with |- ?a + ?i + -1 * (?b + ?i) = _ => replace (a + i + -1 * (b + i)) with (a + -1 * b) by ring end.
    rewrite diff_scal, Rmult_assoc. f_equal. f_equal.
    rewrite <- Rsum_scal, <- Rsum_plus. apply Rsum_ext; intros [tau w].
    rewrite diff_scal. f_equal.
    rewrite <- Rsum_scal, <- Rsum_plus. apply Rsum_ext_in; intros k Hk. apply in_seq in Hk.
    rewrite diff_scal. f_equal.
    unfold integ. rewrite <- Rsum_scal, <- Rsum_plus. apply Rsum_ext; intro p.
    cbn [seq wval]. rewrite !Rsum_cons, !Rsum_nil.
    assert (EF : fev D Dx Vp Val (field_of L y 0%nat (n * S (c_q c) + k)%nat) p 0
               = fev D Dx Vp Val (E 0%nat (n * S (c_q c) + k)%nat) p 0).
    { apply fev_ext. intros l Hl. symmetry.
      assert (Hi : (n * S (c_q c) + k < nc_full c 0)%nat).
      { unfold nc_full. rewrite (ntime_p P c HB 0) by lia. nia. }
      exact (Hy 0%nat (n * S (c_q c) + k)%nat l ltac:(lia) Hi Hl). }
    rewrite EF, (bu_v _ _ HB), (bu_v _ _ HB'). unfold dl. ring. }
  assert (B := noise_bound P c g om D HB Hdt HR G1 G2 G3 G4 E dl ET).
  rewrite Rsum_scal, <- (noise2_slabs P c om D dl HC), <- Rmult_assoc in B.
  rewrite (enorm2_qsum P c g om D E HC).
  replace (t_dt (tgrid P)) with (c_dt c) by (rewrite (bu_dt _ _ HB); reflexivity).
  split; [exact B|].
  intros Hwp Hw. pose proof (start_energy P c g om D E HC HT HR Hwp G1 (Rlt_le _ _ G2) G3 G4) as S.
  pose proof (L2_nonneg om D HR Vp (E 0%nat 0%nat)) as N.
  set (e2 := L2 D Vp Vp (E 0%nat 0%nat) (E 0%nat 0%nat)) in *.
  assert (R : 32 * 1e-20 ^ 2 / (g_dual g * c_dt c) * e2 <= / 2 * (g_jump g * (1 / c_dt c * e2))).
  { replace (32 * 1e-20 ^ 2 / (g_dual g * c_dt c) * e2) with (/ 2 * (64 * 1e-20 ^ 2 * (/ (g_dual g * c_dt c) * e2))) by (field; split; lra).
    replace (/ 2 * (g_jump g * (1 / c_dt c * e2))) with (/ 2 * ((g_jump g * g_dual g) * (/ (g_dual g * c_dt c) * e2))) by (field; split; lra).
    apply Rmult_le_compat_l; [lra|]. apply Rmult_le_compat_r; [|exact Hw].
    apply Rmult_le_pos; [|exact N]. left. apply Rinv_0_lt_compat, Rmult_lt_0_compat; lra. }
  lra.
Qed.

(** the energy separates functions with the same initial values, and all functions
    when initial data are prescribed *)
Theorem C69_energy_definite : forall P c g om D, construct P = Ok c -> 0 < p_T P ->
  regular D om -> definite D Vp -> definite D Vd ->
  0 <= g_data g -> 0 < g_dual g -> 0 < g_primal g -> 0 < g_jump g ->
  forall X, 0 <= enorm2 P g om D X
  /\ (enorm2 P g om D X = 0 ->
      (p_wp P = true \/ forall j l, (j < 2)%nat -> (l < d_dim D Vp)%nat -> X j 0%nat l = 0) ->
      forall j i l, (j < 4)%nat -> (i < nc_full c j)%nat -> (l < d_dim D (spc j))%nat -> X j i l = 0).
Proof.
  intros P c g om D HC HT HR Dp Dd G1 G2 G3 G4 X.
  pose proof (construct_inv _ _ HC) as HB. pose proof (dt_pos _ _ HC HT) as Hdt.
  assert (QP := fun n => quad_spec_pos P c g om D HB Hdt HR X n G1 (Rlt_le _ _ G2) (Rlt_le _ _ G3) (Rlt_le _ _ G4)).
  rewrite (enorm2_qsum P c g om D X HC). unfold qsum.
  split; [apply Rsum_nonneg; intros n _; apply QP|]. intros E0 Hs.
  assert (QZ : forall n, (n < c_N c)%nat -> quad_spec c g om D X n = 0).
  { intros n Hn. apply (Rsum_nonneg_zero (seq 0 (c_N c)) (quad_spec c g om D X)); [intros; apply QP|exact E0|apply in_seq; lia]. }
  apply (feq_full P c D X HB). apply (quad_start_zero P c g om D HB Hdt HR Dp Dd G1 G2 G3 G4 X); [|exact QZ].
  destruct Hs as [Hwp|Hs]; [|exact Hs].
  assert (I0 : init D (td c) X X = 0).
  { pose proof (bu_N _ _ HB) as HN. pose proof (QZ 0%nat ltac:(lia)) as K. unfold quad_spec in K. cbn [Nat.ltb Nat.leb] in K.
    rewrite (bu_wp _ _ HB), Hwp in K. destruct (QP 0%nat) as [A1 [A2 [A3 [_ [_ [A6 _]]]]]].
    apply (zero_of_prod (g_jump g)); lra. }
  unfold init, energy in I0. cbn [t_dt td] in I0.
  pose proof (L2_nonneg om D HR Vp (upper (td c) X 0 0)) as P0. pose proof (L2_nonneg om D HR Vp (upper (td c) X 1 0)) as P1.
  pose proof (H1_nonneg om D HR Vp (upper (td c) X 0 0)) as P2.
  assert (Hi : 0 < 1 / c_dt c) by (apply Rdiv_lt_0_compat; lra).
  pose proof (Rmult_le_pos _ _ (Rlt_le _ _ Hi) P0). pose proof (Rmult_le_pos _ _ (Rlt_le _ _ Hi) P1).
  pose proof (Rmult_le_pos _ _ (Rlt_le _ _ Hdt) P2).
  intros j l Hj Hl. pose proof (upper_p P c HB Hdt X j 0 l Hj) as U. change (0 * S (c_q c))%nat with 0%nat in U. rewrite <- U.
  assert (j = 0 \/ j = 1)%nat as [->| ->] by lia.
  - apply (Dp (upper (td c) X 0 0)); [apply (zero_of_prod (1 / c_dt c)); lra|exact Hl].
  - apply (Dp (upper (td c) X 1 0)); [apply (zero_of_prod (1 / c_dt c)); lra|exact Hl].
Qed.

(** the hypotheses hold for a well-posed problem with two measurement functions: both
    systems have solutions, and the noise is not zero *)
Definition shifted (P : params) (a : R) : params :=
  mkParams (p_q P) (p_qstar P) (p_k P) (p_kstar P) (p_N P) (p_T P) (p_t P) (p_stab P)
    (fun t x => p_v P t x + a) (p_dv P) (p_jumps P) (p_wp P).
Lemma shifted_ok P c a : construct P = Ok c -> same_but_measurement P (shifted P a) /\ exists c', construct (shifted P a) = Ok c'.
Proof.
  intro H. split; [repeat split|]. unfold construct in *. cbn [shifted p_N p_T p_k p_q p_qstar].
  destruct (Nat.eqb (p_N P) 0); [discriminate|].
  destruct (get_elmat_time (p_q P) (p_qstar P)) as [el|]; cbn [rbind] in *; [|discriminate].
  destruct (QuadRule "Gauss-Radau" 4) as [q4|]; cbn [rbind] in *; [|discriminate].
  destruct (QuadRule "Gauss-Radau" 5) as [q5|]; cbn [rbind] in *; [|discriminate].
  destruct (basis_in_time (p_q P)) as [[ph dph]|]; cbn [rbind] in *; [|discriminate].
  destruct (zip_rule q4) as [z4|]; cbn [rbind] in *; [|discriminate].
  destruct (zip_rule q5) as [z5|]; cbn [rbind] in *; [|discriminate].
  eexists; reflexivity.
Qed.
Example C70_nonvacuous : exists c c' L x x', let P := exP 3 2 2 true true in
  construct P = Ok c /\ construct (shifted P 1) = Ok c' /\ same_but_measurement P (shifted P 1)
  /\ lay_ok exI 4 (nc_full c) L
  /\ (forall i, (i < lay_dim L)%nat -> mult (lay_dim L) (st_matrix exI L c exG om1 false) x i
     = assemble_vec exI L (rhs_form c om1 (g_data exG) (g_jump exG) (fun _ => []) (fun _ _ => 0) (fun _ _ => 0) (fun _ _ => 0)) i)
  /\ (forall i, (i < lay_dim L)%nat -> mult (lay_dim L) (st_matrix exI L c' exG om1 false) x' i
     = assemble_vec exI L (rhs_form c' om1 (g_data exG) (g_jump exG) (fun _ => []) (fun _ _ => 0) (fun _ _ => 0) (fun _ _ => 0)) i)
  /\ 64 * 1e-20 ^ 2 <= g_jump exG * g_dual exG
  /\ 0 < noise2 P (c_qr c) om1 exI (fun t p => p_v P t [] - p_v (shifted P 1) t []).
Proof.
  destruct (exP_ok 3 2 2 true true) as [c Hc]; try lia. destruct (shifted_ok _ _ 1 Hc) as [HS [c' Hc']].
  pose proof (construct_inv _ _ Hc) as HB.
  assert (W : forall c, lay_ok exI 4 (nc_full c) (std_layout 4 (nc_full c) (fun j => d_dim exI (spc j)))) by (intro; apply std_layout_ok).
  assert (U : forall P' c0, construct P' = Ok c0 -> p_T P' = 1 -> p_wp P' = true ->
     uniquely_solvable (lay_dim (std_layout 4 (nc_full c0) (fun j => d_dim exI (spc j))))
        (st_matrix exI (std_layout 4 (nc_full c0) (fun j => d_dim exI (spc j))) c0 exG om1 false)).
  { intros P' c0 H0 HT Hw. apply (C68_space_time_problem P');
      [exact H0|rewrite HT; lra|exact Hw|apply W|exact exI_regular|exact (exI_definite Vp)|exact (exI_definite Vd)| | | | | ];
      cbn [g_data g_dual g_primal g_jump exG]; [lra|lra|lra|lra|]. decimals. lra. }
  assert (EN : nc_full c' = nc_full c) by (rewrite (construct_measurement _ _ c c' HS Hc Hc'); reflexivity).
  destruct (U _ c Hc eq_refl eq_refl (assemble_vec exI (std_layout 4 (nc_full c) (fun j => d_dim exI (spc j)))
     (rhs_form c om1 (g_data exG) (g_jump exG) (fun _ => []) (fun _ _ => 0) (fun _ _ => 0) (fun _ _ => 0)))) as [x [Hx _]].
  pose proof (U _ c' Hc' eq_refl eq_refl) as U'. rewrite EN in U'.
  destruct (U' (assemble_vec exI (std_layout 4 (nc_full c) (fun j => d_dim exI (spc j)))
     (rhs_form c' om1 (g_data exG) (g_jump exG) (fun _ => []) (fun _ _ => 0) (fun _ _ => 0) (fun _ _ => 0)))) as [x' [Hx' _]].
  exists c, c', (std_layout 4 (nc_full c) (fun j => d_dim exI (spc j))), x, x'. cbv zeta.
  split; [exact Hc|]. split; [exact Hc'|]. split; [exact HS|]. split; [apply W|]. split; [exact Hx|]. split; [exact Hx'|].
  split; [cbn [g_jump g_dual exG]; decimals; lra|].
  destruct (bu_qr _ _ HB) as [qr [E1 E2]].
  unfold noise2. cbn [p_N p_T p_v exP shifted].
  assert (EM : forall t : R, t - (t + 1) = -1) by (intro; ring).
  rewrite (Rsum_ext (seq 0 2) _ (fun n => 1 / INR 2 * Rsum (c_qr c) (fun x => let '(tau, w) := x in w * 1))).
  2: { intro n. f_equal. apply Rsum_ext. intros [tau w]. f_equal.
       rewrite (Rsum_ext (d_pts exI Dx) _ (fun p => d_w exI Dx p * om1 p)) by (intro p; rewrite EM; ring).
       cbn. unfold om1. rewrite !Rsum_cons, Rsum_nil. lra. }
  cbn in E1. injection E1; intros <-; clear E1. cbn in E2. injection E2; intros <-; clear E2.
  cbn [seq]. rewrite !Rsum_cons, !Rsum_nil. replace (INR 2) with 2 by (cbn; ring). decimals. lra.
Qed.

(** * C71: distance from an arbitrary discrete function *)

(** residuals of a comparison function U (primal part) on slab n: distance from the
    measurements at the sampled times, data norm times the square of the accuracy of
    the quadrature weights, consistency of the wave form, primal stabilisation, jumps,
    initial data *)
Definition residual2 (P : params) (qr : list (R * R)) (g : gammas) (om : nat -> R) (D : disc) (xs : nat -> list R)
  (u1v u1g u2v : nat -> nat -> R) (U : field) (ka : nat -> R) (n : nat) : R :=
  let d := tgrid P in let dt := t_dt d in let lam := 5 * INR (p_k P) ^ 2 in
  let mis t p := p_v P t (xs p) - fev D Dx Vp Val (at_time d U 0 n t) p 0 in
  let sq nc (f : nat -> nat -> R) := integ D Dx WOne nc f f in
  g_data g * (4 * (dt * Rsum qr (fun '(tau, w) => w * Rsum (d_pts D Dx) (fun p => d_w D Dx p * om p * mis (INR n * dt + dt * tau) p ^ 2)))
              + 2e-10 * data D d om U U n)
  + ka n ^ 2 / g_dual g + g_primal g * primal D d lam U U n
  + (if Nat.ltb 0 n then
       (g_jump g + if p_jumps P then (1 + if Z.eqb (p_qstar P) 0 then 1e-15 else 0) ^ 2 / g_dual g else 0) * jumps D d U U n
     else if p_wp P then
       g_jump g * (1 / dt * sq 1%nat (fun p k => u1v p k - fev D Dx Vp Val (upper d U 0 0) p k)
                   + dt * sq (d_gd D) (fun p k => u1g p k - fev D Dx Vp Grad (upper d U 0 0) p k)
                   + 1 / dt * sq 1%nat (fun p k => u2v p k - fev D Dx Vp Val (upper d U 1 0) p k))
     else 0).
Lemma residual2_slab P c g om D xs u1v u1g u2v U ka n : construct P = Ok c ->
  residual2 P (c_qr c) g om D xs u1v u1g u2v U ka n = slab_residual c g om D xs u1v u1g u2v U ka n.
Proof.
  intro HC. pose proof (construct_inv _ _ HC) as HB. unfold residual2, slab_residual, slab_noise, misfit, init_misfit.
  rewrite (tgrid_td _ _ HC), (bu_lam _ _ HB), (bu_jumps _ _ HB), (bu_wp _ _ HB), (bu_eps _ _ HB), (bu_v _ _ HB).
  replace (t_dt (tgrid P)) with (c_dt c) by (rewrite (bu_dt _ _ HB); reflexivity). cbv zeta.
  f_equal. f_equal. f_equal. f_equal. f_equal. f_equal. f_equal. apply Rsum_ext; intros [tau w]. f_equal. apply Rsum_ext; intro p. ring.
Qed.
Theorem C71_error_bound : forall P c g om D L xs u1v u1g u2v, construct P = Ok c -> 0 < p_T P ->
  lay_ok D 4 (nc_full c) L -> regular D om ->
  0 <= g_data g -> 0 < g_dual g -> 0 <= g_primal g -> 0 <= g_jump g ->
  forall x, (forall i, (i < lay_dim L)%nat -> mult (lay_dim L) (st_matrix D L c g om false) x i
     = assemble_vec D L (rhs_form c om (g_data g) (g_jump g) xs u1v u1g u2v) i) ->
  forall U ka, (forall n Z, (n < p_N P)%nat ->
     wave D (tgrid P) U Z n <= ka n * sqrt (dual D (tgrid P) (5 * INR (p_k P) ^ 2) Z Z n)) ->
  let E : field := fun j i l => field_of L x j i l - (if Nat.ltb j 2 then U j i l else 0) in
  let rest := integ D Dx WOne 1 (fun p k => 1 - fev D Dx Vp Val (U 0%nat 0%nat) p k) (fun p k => 1 - fev D Dx Vp Val (U 0%nat 0%nat) p k) in
  let res := sumn (p_N P) (residual2 P (c_qr c) g om D xs u1v u1g u2v U ka) in
  let reg := 64 * 1e-20 ^ 2 / (g_dual g * t_dt (tgrid P)) in
  enorm2 P g om D E <= 2 * res + reg * (rest + L2 D Vp Vp (E 0%nat 0%nat) (E 0%nat 0%nat))
  /\ (p_wp P = true -> 128 * 1e-20 ^ 2 <= g_jump g * g_dual g -> enorm2 P g om D E <= 4 * res + 2 * reg * rest).
Proof.
  intros P c g om D L xs u1v u1g u2v HC HT HL HR G1 G2 G3 G4 x Hx U ka HW E rest res reg.
  pose proof (construct_inv _ _ HC) as HB. pose proof (dt_pos _ _ HC HT) as Hdt.
  assert (HX : forall Y, eval D (st_form c g om false) (field_of L x) Y
      = leval D (rhs_form c om (g_data g) (g_jump g) xs u1v u1g u2v) Y).
  { intro Y. destruct (field_onto D 4 (nc_full c) L Y HL) as [y Hy].
    rewrite (eval_ext D 4 (nc_full c) _ (field_of L x) (field_of L x) Y (field_of L y)); [|apply wf_st, (bu_N _ _ HB)|apply feq_refl|exact Hy].
    rewrite (leval_ext D 4 (nc_full c) _ Y (field_of L y)); [|apply wf_rhs, (bu_N _ _ HB)|exact Hy].
    rewrite <- (dot_assemble D 4 (nc_full c)) by (auto; apply wf_st, (bu_N _ _ HB)).
    rewrite <- (dot_assemble_vec D 4 (nc_full c)) by (auto; apply wf_rhs, (bu_N _ _ HB)).
    apply Rsum_ext_in. intros i Hi. apply in_seq in Hi. f_equal. apply Hx. lia. }
  rewrite (bu_NP _ _ HB) in HW || rewrite <- (bu_NP _ _ HB) in HW.
  rewrite <- (tgrid_td _ _ HC) in HW. rewrite <- (bu_lam _ _ HB) in HW.
  pose proof (error_bound P c g om D HB Hdt HR G2 G1 G3 G4 xs u1v u1g u2v U ka (field_of L x) HX HW) as B.
  cbv zeta in B. change (fun j i l => field_of L x j i l - primal_only U j i l) with E in B.
  rewrite (enorm2_qsum P c g om D E HC).
  assert (ER : res = sumn (c_N c) (slab_residual c g om D xs u1v u1g u2v U ka)).
  { unfold res. rewrite (bu_NP _ _ HB). apply Rsum_ext; intro n. apply residual2_slab, HC. }
  assert (Eg : reg = 64 * 1e-20 ^ 2 / (g_dual g * c_dt c)) by (unfold reg; rewrite (bu_dt _ _ HB); reflexivity).
  rewrite ER, Eg. clear ER. fold rest in B. split; [exact B|].
  intros Hwp Hw. pose proof (start_energy P c g om D E HC HT HR Hwp G1 (Rlt_le _ _ G2) G3 G4) as S.
  pose proof (L2_nonneg om D HR Vp (E 0%nat 0%nat)) as N.
  set (e2 := L2 D Vp Vp (E 0%nat 0%nat) (E 0%nat 0%nat)) in *.
  assert (R : 64 * 1e-20 ^ 2 / (g_dual g * c_dt c) * e2 <= / 2 * (g_jump g * (1 / c_dt c * e2))).
  { replace (64 * 1e-20 ^ 2 / (g_dual g * c_dt c) * e2) with (/ 2 * (128 * 1e-20 ^ 2 * (/ (g_dual g * c_dt c) * e2))) by (field; split; lra).
    replace (/ 2 * (g_jump g * (1 / c_dt c * e2))) with (/ 2 * ((g_jump g * g_dual g) * (/ (g_dual g * c_dt c) * e2))) by (field; split; lra).
    apply Rmult_le_compat_l; [lra|]. apply Rmult_le_compat_r; [|exact Hw].
    apply Rmult_le_pos; [|exact N]. left. apply Rinv_0_lt_compat, Rmult_lt_0_compat; lra. }
  lra.
Qed.

(** data produced by a discrete exact wave, well-posed initialisation: the computed
    solution is that wave up to the accuracy of the quadrature weights (1e-5, squared)
    and the regularisation 1e-20, with zero dual part *)
Theorem C71_exact_recovery : forall P c g om D L xs u1v u1g u2v, construct P = Ok c -> 0 < p_T P ->
  lay_ok D 4 (nc_full c) L -> regular D om -> p_wp P = true ->
  0 <= g_data g -> 0 < g_dual g -> 0 <= g_primal g -> 0 <= g_jump g -> 128 * 1e-20 ^ 2 <= g_jump g * g_dual g ->
  forall x, (forall i, (i < lay_dim L)%nat -> mult (lay_dim L) (st_matrix D L c g om false) x i
     = assemble_vec D L (rhs_form c om (g_data g) (g_jump g) xs u1v u1g u2v) i) ->
  let d := tgrid P in
  forall U,
  (forall n Z, (n < p_N P)%nat -> wave D d U Z n = 0) ->
  (forall n t p, (n < p_N P)%nat -> INR n * t_dt d <= t <= INR n * t_dt d + t_dt d -> In p (d_pts D Dx) ->
     fev D Dx Vp Val (ddt (at_time d U 0 n) t) p 0 = fev D Dx Vp Val (at_time d U 1 n t) p 0) ->
  (forall n t p, (n < p_N P)%nat -> INR n * t_dt d <= t <= INR n * t_dt d + t_dt d -> In p (d_pts D Dx) ->
     fev D Dx Vp Val (ddt (at_time d U 1 n) t) p 0 = fev D Dx Vp Lap (at_time d U 0 n t) p 0) ->
  (forall n t p, (n < p_N P)%nat -> INR n * t_dt d <= t <= INR n * t_dt d + t_dt d -> In p (d_pts D Ds) ->
     fev D Ds Vp Val (at_time d U 0 n t) p 0 = 0) ->
  (forall n t p k, (n < p_N P)%nat -> INR n * t_dt d <= t <= INR n * t_dt d + t_dt d -> In p (d_pts D DS) ->
     (k < d_gd D)%nat -> fev D DS Vp JumpGrad (at_time d U 0 n t) p k = 0) ->
  (forall n j l, (1 <= n < p_N P)%nat -> (j < 2)%nat -> (l < d_dim D Vp)%nat -> upper d U j n l = lower d U j n l) ->
  (forall n p t, (n < p_N P)%nat -> In p (d_pts D Dx) -> INR n * t_dt d <= t <= INR n * t_dt d + t_dt d ->
     p_v P t (xs p) = fev D Dx Vp Val (at_time d U 0 n t) p 0) ->
  (forall p, In p (d_pts D Dx) -> u1v p 0%nat = fev D Dx Vp Val (upper d U 0 0) p 0
     /\ (forall k, (k < d_gd D)%nat -> u1g p k = fev D Dx Vp Grad (upper d U 0 0) p k)
     /\ u2v p 0%nat = fev D Dx Vp Val (upper d U 1 0) p 0) ->
  let E : field := fun j i l => field_of L x j i l - (if Nat.ltb j 2 then U j i l else 0) in
  enorm2 P g om D E <= 8e-10 * g_data g * sumn (p_N P) (fun n => data D d om U U n)
    + 128 * 1e-20 ^ 2 / (g_dual g * t_dt d)
      * integ D Dx WOne 1 (fun p k => 1 - fev D Dx Vp Val (U 0%nat 0%nat) p k) (fun p k => 1 - fev D Dx Vp Val (U 0%nat 0%nat) p k).
Proof.
  intros P c g om D L xs u1v u1g u2v HC HT HL HR Hwp G1 G2 G3 G4 G5 x Hx d U HW A1 A2 A3 A4 A5 HD HI E.
  pose proof (construct_inv _ _ HC) as HB. pose proof (dt_pos _ _ HC HT) as Hdt.
  destruct (C19_exact_waves P c g om D HC HT U A1 A2 A3 A4 A5) as [N1 [N2 _]].
  destruct (C71_error_bound P c g om D L xs u1v u1g u2v HC HT HL HR G1 G2 G3 G4 x Hx U (fun _ => 0)) as [_ B].
  { intros n Z Hn. fold d. rewrite (HW n Z Hn). lra. }
  specialize (B Hwp G5). fold E in B. fold d in B.
  eapply Rle_trans; [exact B|]. apply Req_le.
  replace (sumn (p_N P) (residual2 P (c_qr c) g om D xs u1v u1g u2v U (fun _ => 0)))
    with (sumn (p_N P) (fun n => 2e-10 * g_data g * data D d om U U n)).
  - rewrite Rsum_scal.
    set (S1 := sumn (p_N P) (fun n => data D d om U U n)). set (S2 := integ _ _ _ _ _ _).
    assert (0 < t_dt d) by (replace (t_dt d) with (c_dt c) by (rewrite (bu_dt _ _ HB); reflexivity); exact Hdt).
    decimals. field. split; lra.
  - apply Rsum_ext_in. intros n Hn. apply in_seq in Hn. assert (Hn' : (n < p_N P)%nat) by lia.
    unfold residual2. cbv zeta. fold d. change (primal D d _ U U n) with (primal D (tgrid P) (5 * INR (p_k P) ^ 2) U U n).
    rewrite (N1 U n Hn').
    replace (Rsum (c_qr c) _) with 0.
    2: { symmetry. apply Rsum_zero. intros [tau w] Hin. rewrite Rsum_zero; [ring|].
         intros p Hp. rewrite (HD n p); [ring|exact Hn'|exact Hp|].
         pose proof (qr_range P c HB tau w Hin) as Ht.
         assert (Edt : t_dt d = c_dt c) by (rewrite (bu_dt _ _ HB); reflexivity). rewrite Edt. nra. }
    destruct (Nat.ltb_spec 0 n) as [L0|L0].
    + destruct (N2 U n) as [J _]; [lia|]. fold d in J. rewrite J. decimals. field. lra.
    + rewrite Hwp. replace n with 0%nat by lia.
      rewrite (integ_zero D Dx WOne 1 (fun p k => u1v p k - _)), (integ_zero D Dx WOne (d_gd D)), (integ_zero D Dx WOne 1 (fun p k => u2v p k - _)).
      * decimals. field. split; [|lra]. replace (t_dt d) with (c_dt c) by (rewrite (bu_dt _ _ HB); reflexivity). lra.
      * intros p k Hp Hk. replace k with 0%nat by lia. destruct (HI p Hp) as [_ [_ ->]]. ring.
      * intros p k Hp Hk. destruct (HI p Hp) as [_ [-> _]]; [ring|exact Hk].
      * intros p k Hp Hk. replace k with 0%nat by lia. destruct (HI p Hp) as [-> _]. ring.
Qed.

Lemma exS_definite s a : L2 exS s s a a = 0 -> forall l, (l < d_dim exS s)%nat -> a l = 0.
Proof.
  rewrite exS_mass. intros H l Hl. cbn in Hl.
  pose proof (Rle_0_sqr (a 0%nat)) as A0. pose proof (Rle_0_sqr (a 1%nat)) as A1. pose proof (Rle_0_sqr (a 2%nat)) as A2.
  unfold Rsqr in *. destruct l as [|[|[|l]]]; [| | |lia]; apply Rsqr_0_uniq; unfold Rsqr; lra.
Qed.
Lemma exS_val (a : nat -> R) t p : (forall l, (l < 3)%nat -> a l = t) -> In p (d_pts exS Dx) -> fev exS Dx Vp Val a p 0 = t.
Proof.
  intros H Hp. unfold fev. cbn [d_dim exS]. rewrite (Rsum_ext_in (seq 0 3) _ (fun l => t * delta (exS_dof p) l)).
  2: { intros l Hl. apply in_seq in Hl. rewrite H by lia. reflexivity. }
  unfold Rsum, delta. cbn in Hp |- *. decompose [or] Hp; subst; try contradiction; cbn; ring.
Qed.
Lemma exS_grad (a : nat -> R) t p k s : (forall l, (l < 3)%nat -> a l = t) -> In p (d_pts exS Dx) -> fev exS Dx s Grad a p k = 0.
Proof.
  intros H Hp. unfold fev. cbn [d_dim exS].
  rewrite (Rsum_ext_in (seq 0 3) _ (fun l => t * (3 * (delta (exS_dof (2 * (p / 2) + 1)) l - delta (exS_dof (2 * (p / 2))) l)))).
  2: { intros l Hl. apply in_seq in Hl. rewrite H by lia. reflexivity. }
  unfold Rsum, delta. cbn in Hp |- *. decompose [or] Hp; subst; try contradiction; cbn; ring.
Qed.

(** on a periodic mesh of three cells: u(t, x) = t, measured everywhere *)
Example C71_nonvacuous : exists c L x, let P := exP 1 1 2 false true in let d := tgrid P in let U := lin_wave (t_dt d) in
  construct P = Ok c /\ lay_ok exS 4 (nc_full c) L /\ regular exS om1 /\ 128 * 1e-20 ^ 2 <= g_jump exG * g_dual exG
  /\ (forall i, (i < lay_dim L)%nat -> mult (lay_dim L) (st_matrix exS L c exG om1 false) x i
     = assemble_vec exS L (rhs_form c om1 (g_data exG) (g_jump exG) (fun p => [INR p]) (fun _ _ => 0) (fun _ _ => 0) (fun _ _ => 1)) i)
  /\ (forall n Z, (n < 2)%nat -> wave exS d U Z n = 0)
  /\ exact_wave c exS U /\ data_matches c exS (fun p => [INR p]) U
  /\ (forall p, In p (d_pts exS Dx) -> 0 = fev exS Dx Vp Val (upper d U 0 0) p 0
     /\ (forall k, (k < d_gd exS)%nat -> 0 = fev exS Dx Vp Grad (upper d U 0 0) p k)
     /\ 1 = fev exS Dx Vp Val (upper d U 1 0) p 0)
  /\ enorm2 P exG om1 exS (fun j i l => field_of L x j i l - (if Nat.ltb j 2 then U j i l else 0)) <= 1e-9.
Proof.
  destruct (exP_ok 1 1 2 false true) as [c Hc]; try lia. pose proof (construct_inv _ _ Hc) as HB.
  assert (HT : 0 < p_T (exP 1 1 2 false true)) by (cbn; lra).
  pose proof (dt_pos _ _ Hc HT) as Hdt. pose proof (exS_regular) as HR.
  assert (Ed : td c = tgrid (exP 1 1 2 false true)) by apply (tgrid_td _ _ Hc).
  assert (Edt : t_dt (tgrid (exP 1 1 2 false true)) = c_dt c) by (rewrite (bu_dt _ _ HB); reflexivity).
  assert (Edh : c_dt c = / 2) by (rewrite <- Edt; cbn; lra).
  pose proof (lin_exact c Hdt (bu_cq _ _ HB)) as EW. pose proof (lin_data c Hdt (bu_cq _ _ HB) (bu_v _ _ HB)) as HD.
  pose proof (lin_u1 c Hdt (bu_cq _ _ HB)) as U1. pose proof (lin_u2 c (bu_cq _ _ HB)) as U2.
  pose proof (lin_d1 c Hdt (bu_cq _ _ HB)) as D1. pose proof (lin_d2 c (bu_cq _ _ HB)) as D2.
  rewrite Ed in U1, U2, D1, D2. rewrite <- Edt in EW, HD, U1, U2, D1, D2.
  set (L := std_layout 4 (nc_full c) (fun j => d_dim exS (spc j))).
  assert (HL : lay_ok exS 4 (nc_full c) L) by apply std_layout_ok.
  assert (HG : 128 * 1e-20 ^ 2 <= g_jump exG * g_dual exG) by (cbn [g_jump g_dual exG]; decimals; lra).
  assert (HU : uniquely_solvable (lay_dim L) (st_matrix exS L c exG om1 false)).
  { apply (C68_space_time_problem (exP 1 1 2 false true));
      [exact Hc|exact HT|reflexivity|exact HL|exact HR|exact (exS_definite Vp)|exact (exS_definite Vd)| | | | | ];
      cbn [g_data g_dual g_primal g_jump exG]; try lra; decimals; lra. }
  destruct (HU (assemble_vec exS L (rhs_form c om1 (g_data exG) (g_jump exG) (fun p => [INR p]) (fun _ _ => 0) (fun _ _ => 0) (fun _ _ => 1)))) as [x [Hx _]].
  exists c, L, x. cbv zeta.
  assert (HW : forall n Z, (n < 2)%nat -> wave exS (tgrid (exP 1 1 2 false true)) (lin_wave (t_dt (tgrid (exP 1 1 2 false true)))) Z n = 0).
  { intros n Z Hn. unfold wave. apply over_slab_zero; [rewrite Edt; exact Hdt|]. intros t Ht. cbv zeta.
    replace (flux exS Vp Vd _ _) with 0 by (unfold flux, integ; cbn [d_pts exS]; symmetry; apply Rsum_nil).
    rewrite !exS_mass. unfold vsub. rewrite !D2, !D1, !U2.
    replace (H1 exS Vp Vd _ _) with 0; [field|]. symmetry. unfold H1, sp. apply integ_zero.
    intros p k Hp Hk. apply (exS_grad _ t); [intros l Hl; apply U1|exact Hp]. }
  assert (HI : forall p, In p (d_pts exS Dx) -> let d := tgrid (exP 1 1 2 false true) in let U := lin_wave (t_dt d) in
     0 = fev exS Dx Vp Val (upper d U 0 0) p 0
     /\ (forall k, (k < d_gd exS)%nat -> 0 = fev exS Dx Vp Grad (upper d U 0 0) p k)
     /\ 1 = fev exS Dx Vp Val (upper d U 1 0) p 0).
  { intros p Hp d U. unfold upper.
    split; [|split; [intros k Hk|]].
    - symmetry. apply exS_val; [|exact Hp]. intros l Hl. unfold U. rewrite U1. cbn. ring.
    - symmetry. apply (exS_grad _ 0); [|exact Hp]. intros l Hl. unfold U. rewrite U1. cbn. ring.
    - symmetry. apply exS_val; [|exact Hp]. intros l Hl. unfold U. apply U2. }
  split; [exact Hc|]. split; [exact HL|]. split; [exact HR|]. split; [exact HG|]. split; [exact Hx|].
  split; [exact HW|]. split; [exact EW|]. split; [exact HD|]. split; [exact HI|].
  destruct EW as [A1 A2 A3 A4 A5]. pose proof (eq_sym Edt) as Ed2. rewrite Ed, ?Ed2, (bu_NP _ _ HB) in A1, A2, A3, A4. rewrite Ed, (bu_NP _ _ HB) in A5.
  unfold data_matches in HD. rewrite Ed, ?Ed2, (bu_NP _ _ HB), (bu_v _ _ HB) in HD.
  eapply Rle_trans.
  - apply (C71_exact_recovery (exP 1 1 2 false true) c exG om1 exS L (fun p => [INR p]) (fun _ _ => 0) (fun _ _ => 0) (fun _ _ => 1)
      Hc HT HL HR eq_refl ltac:(cbn; lra) ltac:(cbn; lra) ltac:(cbn; lra) ltac:(cbn; lra) HG x Hx _ HW A1 A2 A3 A4 A5 HD HI).
  - cbn [p_N exP g_data g_dual exG].
    rewrite (Rsum_ext (seq 0 2) _ (fun n => over_slab (tgrid (exP 1 1 2 false true)) n (polyfun [0; 0; 1]))).
    2: { intro n. unfold data, over_slab. apply RInt_ext. intros t _. unfold L2w, sp, integ, om1. cbn [ncomp wval].
         rewrite (Rsum_ext_in (d_pts exS Dx) _ (fun _ => 1 / 6 * (t * t))).
         - unfold polyfun. cbn [d_pts exS List.length seq]. rewrite !Rsum_cons, !Rsum_nil. cbn. lra.
         - intros p Hp. cbn [seq]. rewrite Rsum_cons, Rsum_nil.
           rewrite (exS_val _ t) by (auto; intros l Hl; apply U1). cbn. lra. }
    unfold over_slab. cbn [seq]. rewrite !Rsum_cons, Rsum_nil, !RInt_polyfun. rewrite Edt, Edh.
    rewrite (integ_ext_in exS Dx WOne 1 _ _ (fun _ _ => 1) (fun _ _ => 1)).
    + assert (PA : forall b, peval (panti [0; 0; 1]) b = b ^ 3 / 3) by (intro b; cbn; field). rewrite !PA.
      unfold integ. cbn [d_pts exS seq]. rewrite !Rsum_cons, !Rsum_nil. cbn [wval d_w exS INR]. decimals. lra.
    + intros p k Hp Hk. replace k with 0%nat by lia. rewrite (exS_val _ 0); [ring| |exact Hp]. intros l Hl. unfold lin_wave. cbn. ring.
    + intros p k Hp Hk. replace k with 0%nat by lia. rewrite (exS_val _ 0); [ring| |exact Hp]. intros l Hl. unfold lin_wave. cbn. ring.
Qed.

Print Assumptions C69_stability.
Print Assumptions C69_energy_definite.
Print Assumptions C70_measurement_noise.
Print Assumptions C71_error_bound.
Print Assumptions C71_exact_recovery.
