(** Reported.v -- the solution of the system that the drivers hand to GMRES, compared with
    a given function; and from the energy of the difference to the errors that
    measured_errors samples (C82). *)
From Coq Require Import Reals List ZArith Lra Lia Bool String.
From Coquelicot Require Import Coquelicot.
From Verif Require Import Base TimeModel TimeSpec TimeProofs QuadProofs FormModel FormSpec FormProofs
  SpaceTimeForms FormBlocks GuardProofs FormTime FormC12 FormSym FormStruct FormCons FormWf FormExample Props_Forms
  SpaceTimeModel SlabOps ApplyProofs MarchProofs MarchSum Lifecycle LifeProofs OpsProofs LinAlg WellPosed Injective Props_Ops
  GmresModel Props_Gmres DriverModel DriverConfig Props_Solve Props_WellPosed Stability ErrorBound Props_Stability Observe Props_Observe Delivered
  Props_Krylov Props_Config Space1D NoData Elliptic1D Props_Space1D ErrorsModel ErrorsSpec ErrorsProofs Props_Errors Vanish.
Import ListNotations.
Open Scope R_scope.

Section Rep.
  Variables (P : params) (E : env) (g : gammas) (om : nat -> R) (F : R).
  Notation c := (e_c E).
  Notation D := (e_D E).
  Notation L := (e_Lf E).
  Notation N := (c_N c).
  Notation q1 := (S (c_q c)).
  Notation qs1 := (S (c_qs c)).
  Notation d := (td c).
  Hypotheses (HC : construct P = Ok c) (HT : 0 < p_T P) (HE : env_ok E) (Hj : p_jumps P = false) (Hw : p_wp P = false).
  Hypothesis HR : regular D om.
  Hypotheses (G1 : 0 <= g_data g) (G2 : 0 < g_dual g) (G3 : 0 <= g_primal g) (G4 : 0 <= g_jump g).
  Notation sq a := (L2 D Vp Vp a a).
  (** the energy controls the values of u1 on each slab *)
  Hypothesis HF : 0 <= F.
  Hypothesis Hctl : forall X n, (n < N)%nat -> over_slab d n (fun t => sq (at_time d X 0 n t)) <= F * quad_spec c g om D X n.
  Let HB := construct_inv _ _ HC.
  Let Hdt := dt_pos _ _ HC HT.

  Lemma quad_nn X n : 0 <= quad_spec c g om D X n.
  Proof. apply (quad_spec_pos P c g om D HB Hdt HR X n G1 (Rlt_le _ _ G2) G3 G4). Qed.
  Lemma quad_le X n : (n < N)%nat -> quad_spec c g om D X n <= qsum c g om D X.
  Proof.
    intro Hn. unfold qsum. replace N with (n + S (N - S n))%nat by lia. rewrite seq_app, Rsum_app. cbn [seq]. rewrite Rsum_cons, Nat.add_0_l.
    pose proof (Rsum_nonneg (seq 0 n) (quad_spec c g om D X) (fun m _ => quad_nn X m)).
    pose proof (Rsum_nonneg (seq (S n) (N - S n)) (quad_spec c g om D X) (fun m _ => quad_nn X m)). lra.
  Qed.
  Lemma quad_dual X n : g_dual g * dual D d (c_lam c) X X n <= quad_spec c g om D X n.
  Proof.
    pose proof (quad_spec_pos P c g om D HB Hdt HR X n G1 (Rlt_le _ _ G2) G3 G4) as [A1 [A2 [A3 [A4 [A5 [A6 _]]]]]].
    unfold quad_spec. destruct (Nat.ltb 0 n), (c_jumps c), (c_wp c); lra.
  Qed.
  (** values at the start of a slab *)
  Lemma start_quad X n : (n < N)%nat -> c_dt c / 16 * sq (X 0%nat (n * q1)%nat) <= F * quad_spec c g om D X n.
  Proof.
    intro Hn. pose proof (data_trace P c (fun _ => 1) D HB Hdt (regular_ones D om HR) 1 ltac:(lra) ltac:(intros; lra) X n) as T.
    assert (E1 : data D (td c) (fun _ => 1) X X n = over_slab (td c) n (fun t => sq (at_time (td c) X 0 n t))) by reflexivity.
    rewrite E1 in T. pose proof (Hctl X n Hn). lra.
  Qed.

  (** * Values and derivatives at single times *)
  Lemma ref_time n t : within d n t -> 0 <= (t - INR n * c_dt c) / c_dt c <= 1.
  Proof.
    intros [T1 T2]. cbn [t_dt td] in *. split.
    - apply Rle_div_r; [exact Hdt|]. lra.
    - apply Rle_div_l; [exact Hdt|]. lra.
  Qed.
  Lemma cub_at C s : 0 <= s <= 1 -> sq (vcub C s) <= 16 * ci D Dx WOne 1 (vals D Dx Val C).
  Proof.
    intro Hs. rewrite L2_pts. unfold ci. rewrite <- Rsum_scal. apply Rsum_le_in. intros p Hp. cbn [wval seq]. rewrite Rsum_cons, Rsum_nil.
    rewrite fev_cub. set (a := fun m => fev D Dx Vp Val (C m) p 0). pose proof (cub_sup a s Hs) as CS. pose proof (rg_w _ _ HR Dx p Hp) as W.
    change (cub_sq (fun m => vals D Dx Val C m p 0)) with (cub_sq a).
    replace (16 * (d_w D Dx p * 1 * (cub_sq a + 0))) with (d_w D Dx p * (16 * cub_sq a)) by ring. apply Rmult_le_compat_l; assumption.
  Qed.
  Lemma sq_ext a b : (forall l, a l = b l) -> sq a = sq b.
  Proof. intro H. rewrite !L2_pts. apply Rsum_ext; intro p. rewrite (fev_ext D Dx Vp Val a b) by (intros l _; apply H). reflexivity. Qed.
  Lemma sup_both X n t : within d n t ->
    sq (at_time d X 0 n t) <= 16 / c_dt c * over_slab d n (fun t => sq (at_time d X 0 n t)) /\
    sq (ddt (at_time d X 0 n) t) <= 2880 / c_dt c ^ 3 * over_slab d n (fun t => sq (at_time d X 0 n t)).
  Proof.
    intro Ht. destruct (at_cub P c HB Hdt X 0 n) as [C HCu]. pose proof (val_int c D Hdt C n) as I1.
    assert (E1 : over_slab d n (fun t => sq (at_time d X 0 n t)) = c_dt c * ci D Dx WOne 1 (vals D Dx Val C)).
    { unfold over_slab. cbn [t_dt td]. apply is_RInt_unique. apply is_RInt_ext_R with (2 := I1). intro s. symmetry. apply sq_ext. intro l. apply HCu. }
    rewrite E1. pose proof (ref_time n t Ht) as Hs. split.
    - replace (16 / c_dt c * (c_dt c * ci D Dx WOne 1 (vals D Dx Val C))) with (16 * ci D Dx WOne 1 (vals D Dx Val C)) by (field; lra).
      rewrite (sq_ext _ (vcub C ((t - INR n * c_dt c) / c_dt c))) by (intro l; apply HCu). apply cub_at, Hs.
    - rewrite (sq_ext _ (vcub (TC c C) ((t - INR n * c_dt c) / c_dt c))).
      2: { intro l. rewrite (proj2 (HCu t l)). apply (vdcub_TC c Hdt). }
      eapply Rle_trans; [apply cub_at, Hs|].
      pose proof (ci_TC c D Hdt Dx WOne 1 Val C (reg_one D om Dx HR)) as I2.
      replace (2880 / c_dt c ^ 3 * (c_dt c * ci D Dx WOne 1 (vals D Dx Val C))) with (16 * (180 / c_dt c ^ 2 * ci D Dx WOne 1 (vals D Dx Val C))) by (field; lra).
      apply Rmult_le_compat_l; [lra|exact I2].
  Qed.
  Notation Q := (qsum c g om D).
  Lemma over_Q X n : (n < N)%nat -> over_slab d n (fun t => sq (at_time d X 0 n t)) <= F * Q X.
  Proof. intro Hn. eapply Rle_trans; [apply (Hctl X n Hn)|]. apply Rmult_le_compat_l; [exact HF|apply quad_le, Hn]. Qed.
  Lemma at_Q X n t : (n < N)%nat -> within d n t -> sq (at_time d X 0 n t) <= 16 / c_dt c * (F * Q X).
  Proof.
    intros Hn Ht. eapply Rle_trans; [apply (proj1 (sup_both X n t Ht))|].
    apply Rmult_le_compat_l; [apply Rlt_le, Rdiv_lt_0_compat; lra|apply over_Q, Hn].
  Qed.
  Lemma ddt_Q X n t : (n < N)%nat -> within d n t -> sq (ddt (at_time d X 0 n) t) <= 2880 / c_dt c ^ 3 * (F * Q X).
  Proof.
    intros Hn Ht. eapply Rle_trans; [apply (proj2 (sup_both X n t Ht))|].
    apply Rmult_le_compat_l; [apply Rlt_le, Rdiv_lt_0_compat; [lra|apply pow_lt, Hdt]|apply over_Q, Hn].
  Qed.
  Lemma start_within n : within d n (INR n * t_dt d).
  Proof. unfold within. cbn [t_dt td]. lra. Qed.
  Lemma before_within n : (0 < n)%nat -> within d (n - 1) (INR n * t_dt d).
  Proof.
    intro Hp. unfold within. cbn [t_dt td]. assert (EI : INR n = INR (n - 1) + 1) by (rewrite <- S_INR; f_equal; lia). rewrite EI. lra.
  Qed.
  Lemma three_sq_k K a b e k : 0 <= K -> - K <= k <= K -> (a - k * (b - e)) ^ 2 <= 3 * (a * a + K ^ 2 * (b * b) + K ^ 2 * (e * e)).
  Proof.
    intros HK Hk1. assert (Kk : k * k <= K ^ 2) by (assert (0 <= (K - k) * (K + k)) by (apply Rmult_le_pos; lra); lra).
    pose proof (Rle_0_sqr (a + k * b)). pose proof (Rle_0_sqr (a - k * e)). pose proof (Rle_0_sqr (k * b + k * e)).
    assert (k * k * (b * b) <= K ^ 2 * (b * b)) by (apply Rmult_le_compat_r; [apply Rle_0_sqr|lra]).
    assert (k * k * (e * e) <= K ^ 2 * (e * e)) by (apply Rmult_le_compat_r; [apply Rle_0_sqr|lra]).
    unfold Rsqr in *. lra.
  Qed.
  Lemma sq_comb K a b e k f : 0 <= K -> - K <= k <= K -> (forall l, f l = a l - k * (b l - e l)) ->
    dist2 D (fun p => fev D Dx Vp Val f p 0) <= 3 * (sq a + K ^ 2 * sq b + K ^ 2 * sq e).
  Proof.
    intros HK Hk Hf. rewrite !L2_pts. rewrite <- !Rsum_scal, <- !Rsum_plus, <- Rsum_scal. unfold dist2. apply Rsum_le_in. intros p Hp.
    assert (ER : fev D Dx Vp Val f p 0 = fev D Dx Vp Val a p 0 - k * (fev D Dx Vp Val b p 0 - fev D Dx Vp Val e p 0)).
    { unfold fev. rewrite <- Rsum_minus, <- Rsum_scal, <- Rsum_minus. apply Rsum_ext; intro l. rewrite Hf. ring. }
    rewrite ER. pose proof (three_sq_k K (fev D Dx Vp Val a p 0) (fev D Dx Vp Val b p 0) (fev D Dx Vp Val e p 0) k HK Hk) as T3.
    pose proof (Rmult_le_compat_l _ _ _ (rg_w _ _ HR Dx p Hp) T3). lra.
  Qed.
  Lemma lift_arg n t : within d n t -> -1 <= (2 * t - (2 * INR n + 1) * t_dt d) / t_dt d <= 1.
  Proof. intros [T1 T2]. cbn [t_dt td] in *. split; [apply Rle_div_r|apply Rle_div_l]; lra. Qed.
  Lemma sq_dist a : dist2 D (fun p => fev D Dx Vp Val a p 0) = sq a.
  Proof. rewrite L2_pts. unfold dist2. apply Rsum_ext; intro p. ring. Qed.
  Lemma FQ X n : (n < N)%nat -> 0 <= F * Q X.
  Proof. intro Hn. apply Rmult_le_pos; [exact HF|]. eapply Rle_trans; [apply quad_nn|apply (quad_le X n Hn)]. Qed.
  (** the reconstruction that is sampled, and its derivative *)
  Lemma recon_Q X n t : (n < N)%nat -> within d n t -> dist2 D (fun p => fev D Dx Vp Val (recon d X n t) p 0) <= 144 / c_dt c * (F * Q X).
  Proof.
    intros Hn Ht. pose proof (at_Q X n t Hn Ht) as B1. pose proof (FQ X n Hn) as B0. assert (I0 : 0 < / c_dt c) by (apply Rinv_0_lt_compat, Hdt).
    replace (144 / c_dt c * (F * Q X)) with (9 * (16 / c_dt c * (F * Q X))) by (field; lra).
    assert (B00 : 0 <= 16 / c_dt c * (F * Q X)) by (apply Rmult_le_pos; [apply Rlt_le, Rdiv_lt_0_compat; lra|exact B0]).
    destruct (Nat.ltb 0 n) eqn:En.
    - pose proof (proj1 (Nat.ltb_lt _ _) En) as Hp.
      pose proof (at_Q X n _ Hn (start_within n)) as B2. pose proof (at_Q X (n - 1) _ ltac:(lia) (before_within n Hp)) as B3.
      set (k := lift_pol ((2 * t - (2 * INR n + 1) * t_dt d) / t_dt d)).
      assert (Hk1 : - 1 <= k <= 1).
      { unfold k, lift_pol. pose proof (lift_arg n t Ht) as Hx. set (x := _ / t_dt d) in *.
        assert (0 <= (1 - x) * (1 + x)) by (apply Rmult_le_pos; lra). assert (0 <= (1 - x) * (1 - x)) by apply Rle_0_sqr.
        assert (0 <= (x + 1) * (x + 1)) by apply Rle_0_sqr. split; lra. }
      eapply Rle_trans; [apply (sq_comb 1 (at_time d X 0 n t) (at_time d X 0 n (INR n * t_dt d)) (at_time d X 0 (n - 1) (INR n * t_dt d)) k); [lra|exact Hk1|]|].
      + intro l. unfold recon. rewrite En. fold k. unfold jumpv, vsub, upper, lower. ring.
      + lra.
    - rewrite sq_dist, (sq_ext _ (at_time d X 0 n t)); [lra|]. intro l. unfold recon. rewrite En. ring.
  Qed.
  Lemma drecon_Q X n t : (n < N)%nat -> within d n t -> dist2 D (fun p => fev D Dx Vp Val (ddt (recon d X n) t) p 0) <= 9504 / c_dt c ^ 3 * (F * Q X).
  Proof.
    intros Hn Ht. pose proof (ddt_Q X n t Hn Ht) as B1. pose proof (FQ X n Hn) as B0.
    assert (C3 : 0 < c_dt c ^ 3) by (apply pow_lt, Hdt).
    assert (I3 : 0 < / c_dt c ^ 3) by (apply Rinv_0_lt_compat, C3). assert (B00 : 0 <= / c_dt c ^ 3 * (F * Q X)) by (apply Rmult_le_pos; lra).
    replace (2880 / c_dt c ^ 3 * (F * Q X)) with (2880 * (/ c_dt c ^ 3 * (F * Q X))) in B1 by (unfold Rdiv; ring).
    replace (9504 / c_dt c ^ 3 * (F * Q X)) with (9504 * (/ c_dt c ^ 3 * (F * Q X))) by (unfold Rdiv; ring).
    destruct (Nat.ltb 0 n) eqn:En.
    - pose proof (proj1 (Nat.ltb_lt _ _) En) as Hp.
      pose proof (at_Q X n _ Hn (start_within n)) as B2. pose proof (at_Q X (n - 1) _ ltac:(lia) (before_within n Hp)) as B3.
      set (x := (2 * t - (2 * INR n + 1) * t_dt d) / t_dt d). pose proof (lift_arg n t Ht) as Hx. fold x in Hx.
      set (k := 2 / c_dt c * (x - 1 / 2)).
      assert (I1 : 0 < / c_dt c) by (apply Rinv_0_lt_compat, Hdt).
      assert (Hk1 : - (3 / c_dt c) <= k <= 3 / c_dt c).
      { unfold k. replace (3 / c_dt c) with (/ c_dt c * 3) by (unfold Rdiv; ring). replace (2 / c_dt c * (x - 1 / 2)) with (/ c_dt c * (2 * x - 1)) by (unfold Rdiv; lra).
        rewrite Ropp_mult_distr_r. split; apply Rmult_le_compat_l; lra. }
      eapply Rle_trans; [apply (sq_comb (3 / c_dt c) (ddt (at_time d X 0 n) t) (at_time d X 0 n (INR n * t_dt d)) (at_time d X 0 (n - 1) (INR n * t_dt d)) k); [|exact Hk1|]|].
      + apply Rlt_le, Rdiv_lt_0_compat; lra.
      + intro l. rewrite (rec_ddt P c X HB Hdt), En, d_theta_ref_eq. fold x. unfold k, jumpv, vsub, upper, lower. field. lra.
      + assert (K2 : 0 <= (3 / c_dt c) ^ 2) by apply pow2_ge_0.
        pose proof (Rmult_le_compat_l _ _ _ K2 B2) as B2'. pose proof (Rmult_le_compat_l _ _ _ K2 B3) as B3'.
        replace ((3 / c_dt c) ^ 2 * (16 / c_dt c * (F * Q X))) with (144 * (/ c_dt c ^ 3 * (F * Q X))) in B2', B3' by (field; lra). lra.
    - rewrite sq_dist, (sq_ext _ (ddt (at_time d X 0 n) t)); [lra|]. intro l. rewrite (rec_ddt P c X HB Hdt), En. ring.
  Qed.

  (** * The delivered system *)
  Hypothesis Hk : 32768 * reg ^ 2 * F <= g_dual g * c_dt c ^ 2.
  Definition extra (X Y : field) : R := sumn N (fun n => if Nat.ltb 0 n then reg * L2 D Vp Vd (X 0%nat (n * q1)%nat) (Y 2%nat (n * qs1)%nat)
        + reg * L2 D Vp Vp (X 0%nat (n * q1 - 1)%nat) (Y 0%nat (n * q1 - 1)%nat) else 0).
  Lemma sq_two a b : sq a <= 2 * sq (fun l => a l - b l) + 2 * sq b.
  Proof.
    rewrite !L2_pts, <- !Rsum_scal, <- Rsum_plus. apply Rsum_le_in. intros p Hp. pose proof (rg_w _ _ HR Dx p Hp) as W.
    assert (EM : fev D Dx Vp Val (fun l => a l - b l) p 0 = fev D Dx Vp Val a p 0 - fev D Dx Vp Val b p 0).
    { unfold fev. rewrite <- Rsum_minus. apply Rsum_ext; intro l. ring. }
    rewrite EM. set (x := fev D Dx Vp Val a p 0). set (y := fev D Dx Vp Val b p 0). clearbody x y.
    assert (0 <= (x - 2 * y) * (x - 2 * y)) as T by apply Rle_0_sqr. pose proof (Rmult_le_pos _ _ W T). lra.
  Qed.
  Lemma neg_prod a b : - L2 D Vp Vp a (fun l => a l - b l) <= / 4 * sq b.
  Proof.
    rewrite !L2_pts, <- Rsum_scal. rewrite <- (Rmult_1_l (Rsum _ (fun p => d_w D Dx p * (fev D Dx Vp Val a p 0 * _)))).
    rewrite <- Ropp_mult_distr_l_reverse, <- Rsum_scal. apply Rsum_le_in. intros p Hp. pose proof (rg_w _ _ HR Dx p Hp) as W.
    assert (EM : fev D Dx Vp Val (fun l => a l - b l) p 0 = fev D Dx Vp Val a p 0 - fev D Dx Vp Val b p 0).
    { unfold fev. rewrite <- Rsum_minus. apply Rsum_ext; intro l. ring. }
    rewrite EM. set (x := fev D Dx Vp Val a p 0). set (y := fev D Dx Vp Val b p 0). clearbody x y.
    assert (0 <= (x - / 2 * y) * (x - / 2 * y)) as T by apply Rle_0_sqr. pose proof (Rmult_le_pos _ _ W T). lra.
  Qed.
  Section Compare.
    Variables (X U : field).
    Let Er : field := fun j i l => X j i l - primal_only U j i l.
    (** what the 1e-20 products contribute *)
    Definition leftover (n : nat) : R := if Nat.ltb 0 n then 128 * reg ^ 2 / (g_dual g * c_dt c) * sq (U 0%nat (n * q1)%nat) + reg / 4 * sq (U 0%nat (n * q1 - 1)%nat) else 0.
    Lemma extra_bound : - extra X (flip Er) <= / 8 * Q Er + sumn N leftover.
    Proof.
      unfold qsum, extra. rewrite <- (Rmult_1_l (sumn N _)) at 1. rewrite <- Ropp_mult_distr_l_reverse, <- !Rsum_scal, <- Rsum_plus.
      apply Rsum_le_in. intros n Hn. apply in_seq in Hn. pose proof (quad_nn Er n) as Qn. unfold leftover.
      destruct (Nat.ltb 0 n); [|lra]. pose proof reg_pos as Rp.
      change (flip Er 0%nat (n * q1 - 1)%nat) with (fun l => X 0%nat (n * q1 - 1)%nat l - U 0%nat (n * q1 - 1)%nat l).
      assert (EF : L2 D Vp Vd (X 0%nat (n * q1)%nat) (flip Er 2%nat (n * qs1)%nat) = - L2 D Vp Vd (X 0%nat (n * q1)%nat) (Er 2%nat (n * qs1)%nat)).
      { unfold L2, flip. cbn [Nat.ltb Nat.leb]. rewrite sp_opp2. reflexivity. }
      rewrite EF. assert (Gd : 0 < g_dual g * c_dt c) by (apply Rmult_lt_0_compat; assumption).
      pose proof (young om D HR Vp Vd reg (g_dual g * c_dt c / 256) (X 0%nat (n * q1)%nat) (Er 2%nat (n * qs1)%nat) ltac:(lra)) as Y.
      pose proof (dual_trace P c om D HB Hdt HR Er n) as T. pose proof (quad_dual Er n) as QD.
      pose proof (sq_two (X 0%nat (n * q1)%nat) (U 0%nat (n * q1)%nat)) as S2.
      change (fun l => X 0%nat (n * q1)%nat l - U 0%nat (n * q1)%nat l) with (Er 0%nat (n * q1)%nat) in S2.
      pose proof (start_quad Er n ltac:(lia)) as S1. pose proof (neg_prod (X 0%nat (n * q1 - 1)%nat) (U 0%nat (n * q1 - 1)%nat)) as NP.
      set (qn := quad_spec c g om D Er n) in *. set (B := L2 D Vd Vd (Er 2%nat (n * qs1)%nat) (Er 2%nat (n * qs1)%nat)) in *.
      set (A := sq (X 0%nat (n * q1)%nat)) in *. set (A1 := sq (Er 0%nat (n * q1)%nat)) in *. set (A2 := sq (U 0%nat (n * q1)%nat)) in *.
      set (du := dual D d (c_lam c) Er Er n) in *. set (cr := L2 D Vp Vd (X 0%nat (n * q1)%nat) (Er 2%nat (n * qs1)%nat)) in *.
      set (b2 := sq (U 0%nat (n * q1 - 1)%nat)) in *. set (pr := L2 D Vp Vp (X 0%nat (n * q1 - 1)%nat) _) in *.
      assert (Q1 : g_dual g * c_dt c / 256 * B <= / 16 * qn).
      { replace (g_dual g * c_dt c / 256 * B) with (/ 16 * (g_dual g * (c_dt c / 16 * B))) by field.
        apply Rmult_le_compat_l; [lra|]. eapply Rle_trans; [apply Rmult_le_compat_l; [lra|exact T]|exact QD]. }
      set (k := 64 * reg ^ 2 / (g_dual g * c_dt c)).
      assert (K0 : 0 <= k) by (unfold k; apply Rlt_le, Rdiv_lt_0_compat; [pose proof (pow_lt _ 2 Rp); lra|exact Gd]).
      replace (reg ^ 2 / (4 * (g_dual g * c_dt c / 256))) with k in Y by (unfold k; field; split; lra).
      replace (128 * reg ^ 2 / (g_dual g * c_dt c)) with (2 * k) by (unfold k; field; split; lra).
      assert (Q2 : 2 * k * A1 <= / 16 * qn).
      { replace (2 * k * A1) with (2048 * reg ^ 2 / (g_dual g * c_dt c ^ 2) * (c_dt c / 16 * A1)) by (unfold k; field; split; lra).
        assert (C0 : 0 < g_dual g * c_dt c ^ 2) by (apply Rmult_lt_0_compat; [lra|apply pow_lt, Hdt]).
        apply (Rle_trans _ (2048 * reg ^ 2 / (g_dual g * c_dt c ^ 2) * (F * qn))).
        - apply Rmult_le_compat_l; [|exact S1]. apply Rlt_le, Rdiv_lt_0_compat; [pose proof (pow_lt _ 2 Rp); lra|exact C0].
        - replace (2048 * reg ^ 2 / (g_dual g * c_dt c ^ 2) * (F * qn)) with (/ 16 * ((32768 * reg ^ 2 * F) * / (g_dual g * c_dt c ^ 2) * qn)) by (field; split; lra).
          apply Rmult_le_compat_l; [lra|]. rewrite <- (Rmult_1_l qn) at 2. apply Rmult_le_compat_r; [exact Qn|].
          apply (Rmult_le_reg_r (g_dual g * c_dt c ^ 2)); [exact C0|]. rewrite Rmult_assoc, Rinv_l by lra. lra. }
      assert (Q3 : k * A <= 2 * k * A1 + 2 * k * A2) by (replace (2 * k * A1 + 2 * k * A2) with (k * (2 * A1 + 2 * A2)) by ring; apply Rmult_le_compat_l; assumption).
      assert (Q4 : reg * - pr <= reg / 4 * b2) by (replace (reg / 4 * b2) with (reg * (/ 4 * b2)) by field; apply Rmult_le_compat_l; [lra|exact NP]).
      clearbody k. lra.
    Qed.
    Lemma del_error xs u1v u1g u2v ka :
      (forall Y, eval D (del_form E g om) X Y = leval D (rhs_form c om (g_data g) (g_jump g) xs u1v u1g u2v) Y) ->
      (forall n Z, (n < N)%nat -> wave D d U Z n <= ka n * sqrt (dual D d (c_lam c) Z Z n)) ->
      Q Er <= 4 * sumn N (slab_residual c g om D xs u1v u1g u2v U ka)
        + 128 * reg ^ 2 / (g_dual g * c_dt c) *
          integ D Dx WOne 1 (fun p k => 1 - fev D Dx Vp Val (U 0%nat 0%nat) p k) (fun p k => 1 - fev D Dx Vp Val (U 0%nat 0%nat) p k)
        + 4 * sumn N leftover.
    Proof.
      intros HX HW.
      pose proof (error_bound_rs P c g om D HB Hdt HR G2 G1 G3 G4 xs u1v u1g u2v U ka X (fun Y => - extra X Y)) as B. cbv zeta beta in B. fold Er in B.
      change (fun l => X 0%nat 0%nat l - primal_only U 0%nat 0%nat l) with (Er 0%nat 0%nat) in B.
      specialize (B ltac:(intro Y; rewrite <- (HX Y), (del_vs_st P E g om HC HE Hj Hw X Y); unfold extra; ring) HW).
      change 1e-20 with reg in B. pose proof extra_bound as EB. pose proof (start_quad Er 0 ltac:(pose proof (eo_N _ HE); lia)) as S1. change (0 * q1)%nat with 0%nat in S1.
      pose proof (quad_le Er 0 ltac:(pose proof (eo_N _ HE); lia)) as QL. pose proof (quad_nn Er 0) as Q0.
      assert (Gd : 0 < g_dual g * c_dt c) by (apply Rmult_lt_0_compat; assumption). pose proof reg_pos as Rp.
      set (rest := integ D Dx WOne 1 _ _) in *. set (A1 := sq (Er 0%nat 0%nat)) in *. set (qn := quad_spec c g om D Er 0) in *.
      set (res := sumn N (slab_residual c g om D xs u1v u1g u2v U ka)) in *. set (lf := sumn N leftover) in *. set (ex := extra X (flip Er)) in *.
      set (k := 64 * reg ^ 2 / (g_dual g * c_dt c)) in *.
      replace (128 * reg ^ 2 / (g_dual g * c_dt c)) with (2 * k) by (unfold k; field; split; lra).
      assert (Q2 : k * A1 <= / 32 * qn).
      { replace (k * A1) with (1024 * reg ^ 2 / (g_dual g * c_dt c ^ 2) * (c_dt c / 16 * A1)) by (unfold k; field; split; lra).
        assert (C0 : 0 < g_dual g * c_dt c ^ 2) by (apply Rmult_lt_0_compat; [lra|apply pow_lt, Hdt]).
        apply (Rle_trans _ (1024 * reg ^ 2 / (g_dual g * c_dt c ^ 2) * (F * qn))).
        - apply Rmult_le_compat_l; [|exact S1]. apply Rlt_le, Rdiv_lt_0_compat; [pose proof (pow_lt _ 2 Rp); lra|exact C0].
        - replace (1024 * reg ^ 2 / (g_dual g * c_dt c ^ 2) * (F * qn)) with (/ 32 * ((32768 * reg ^ 2 * F) * / (g_dual g * c_dt c ^ 2) * qn)) by (field; split; lra).
          apply Rmult_le_compat_l; [lra|]. rewrite <- (Rmult_1_l qn) at 2. apply Rmult_le_compat_r; [exact Q0|].
          apply (Rmult_le_reg_r (g_dual g * c_dt c ^ 2)); [exact C0|]. rewrite Rmult_assoc, Rinv_l by lra. lra. }
      assert (R1 : 0 <= rest).
      { unfold rest, integ. apply Rsum_nonneg. intros p Hp. cbn [wval seq]. rewrite Rsum_cons, Rsum_nil. pose proof (rg_w _ _ HR Dx p Hp).
        apply Rmult_le_pos; [lra|]. rewrite Rplus_0_r. apply Rle_0_sqr. }
      clearbody k. rewrite Rmult_plus_distr_l in B. lra.
    Qed.
  End Compare.
End Rep.
