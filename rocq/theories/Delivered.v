(** Delivered.v -- the space-time operator that the GMRES wrapper delivers and the inverse
    of the improved preconditioner, as assembled forms; they differ in the rows of the last
    primal coefficients of the slabs (C74). *)
From Coq Require Import Reals List ZArith Lra Lia Bool String.
From Verif Require Import Base TimeModel TimeSpec TimeProofs QuadProofs FormModel FormSpec FormProofs
  SpaceTimeForms FormBlocks GuardProofs FormTime FormC12 FormSym FormStruct FormWf FormExample Props_Forms
  SpaceTimeModel SlabOps ApplyProofs MarchProofs MarchSum Lifecycle LifeProofs OpsProofs LinAlg WellPosed Injective Props_Ops
  GmresModel Props_Gmres Props_WellPosed Props_Stability Observe Props_Observe Krylov.
Import ListNotations.
Open Scope R_scope.

Section Del.
  Variables (P : params) (E : env) (g : gammas) (om : nat -> R).
  Hypotheses (HC : construct P = Ok (e_c E)) (HT : 0 < p_T P) (HE : env_ok E) (Hj : p_jumps P = false).
  Notation c := (e_c E).
  Notation D := (e_D E).
  Notation L := (e_Lf E).
  Notation N := (c_N c).
  Notation q1 := (S (c_q c)).
  Notation qs1 := (S (c_qs c)).
  Notation dt := (c_dt c).
  Let z := Z.of_nat.
  Let HB : built P c := construct_inv _ _ HC.
  Let Hdt : 0 < dt := dt_pos _ _ HC HT.

  (** 1e-20 terms of the slab matrices 1, 2, .. *)
  Definition carry_form : bform :=
    flat_map (fun n => if Nat.ltb 0 n then [plus_ reg WOne Dx Val (at_ U1 (z (n * q1))) Val (at_ Y1 (z (n * qs1)))] else []) (seq 0 N).
  (** what the delivered operator has in addition *)
  Definition gap_at (n : nat) : bform :=
    let a := z (n * q1) in let b := z (n * q1 - 1) in let gj := g_jump g in
    [ minus_ (gj * (1 / dt)) WOne Dx Val (sub_ U1 a b) Val (at_ W1 b);
      minus_ (gj * dt) WOne Dx Grad (sub_ U1 a b) Grad (at_ W1 b);
      minus_ (gj * (1 / dt)) WOne Dx Val (sub_ U2 a b) Val (at_ W2 b);
      plus_ reg WOne Dx Val (at_ U1 b) Val (at_ W1 b) ].
  Definition gap_init : bform :=
    let gj := g_jump g in
    [ minus_ (gj * (1 / dt)) WOne Dx Val (at_ U1 0) Val (at_ W1 0);
      minus_ (gj * dt) WOne Dx Grad (at_ U1 0) Grad (at_ W1 0);
      minus_ (gj * (1 / dt)) WOne Dx Val (at_ U2 0) Val (at_ W2 0) ].
  Definition gap_form : bform :=
    flat_map (fun n => if Nat.ltb 0 n then gap_at n else if c_wp c then gap_init else []) (seq 0 N).
  Definition pre_form : bform := st_form c g om true ++ carry_form.
  Definition del_form : bform := pre_form ++ gap_form.

  Lemma eval_carry X Y : eval D carry_form X Y = reg * reg_slabs E X Y.
  Proof.
    unfold carry_form, reg_slabs. rewrite eval_flat_map, <- Rsum_scal. apply Rsum_ext; intro n.
    destruct (Nat.ltb 0 n); [|rewrite eval_nil; ring]. rewrite eval_cons, eval_nil, ev_at. unfold z. rewrite !Nat2Z.id.
    cbn [spc blk pick is_trial U1 Y1 Nat.ltb Nat.leb]. unfold L2, ntime, sto. cbn [Nat.ltb Nat.leb]. ring.
  Qed.
  Definition gap_spec (X Y : field) (n : nat) : R :=
    if Nat.ltb 0 n then
      - (g_jump g * en D dt (jmp c X 0 n) (jmp c X 1 n) (Y 0%nat (n * q1 - 1)%nat) (Y 1%nat (n * q1 - 1)%nat))
      + reg * L2 D Vp Vp (X 0%nat (n * q1 - 1)%nat) (Y 0%nat (n * q1 - 1)%nat)
    else if c_wp c then - (g_jump g * en D dt (X 0%nat 0%nat) (X 1%nat 0%nat) (Y 0%nat 0%nat) (Y 1%nat 0%nat)) else 0.
  Lemma eval_gap X Y : eval D gap_form X Y = sumn N (gap_spec X Y).
  Proof.
    unfold gap_form. rewrite eval_flat_map. apply Rsum_ext; intro n. unfold gap_spec.
    destruct (Nat.ltb 0 n) eqn:En.
    - unfold gap_at, en, L2, H1, jmp, lastc. rewrite !eval_cons, eval_nil, !ev_minus, ev_at, !ev_sub_at.
      unfold z. rewrite !Nat2Z.id. cbn [spc blk pick is_trial U1 U2 W1 W2 Nat.ltb Nat.leb]. ring.
    - destruct (c_wp c); [|apply eval_nil]. unfold gap_init, en, L2, H1. rewrite !eval_cons, eval_nil, !ev_minus, !ev_at.
      change (Z.to_nat 0) with 0%nat. cbn [spc blk pick is_trial U1 U2 W1 W2 Nat.ltb Nat.leb]. ring.
  Qed.
  Ltac wft := unfold wf_bterm, plus_, minus_, bneg, at_, sub_, wf_arg, nc_full, ntime, sto, z;
    cbn [b_o1 b_o2 b_m b_wt b_a1 b_a2 same_shape wf_meas forallb List.length is_trial blk U1 U2 W1 W2 Y1 Nat.ltb Nat.leb Nat.eqb negb andb orb Bool.eqb];
    repeat first [reflexivity|apply andb_true_intro; split|apply orb_true_intro; left].
  Lemma wf_carry : wf_bform 4 (nc_full c) carry_form = true.
  Proof.
    assert (B : forall n q, (n < N)%nat -> (n * S q < S q * N)%nat) by (intros n q Hn; rewrite (Nat.mul_comm (S q)); apply Nat.mul_lt_mono_pos_r; lia).
    unfold wf_bform, carry_form. apply forallb_forall. intros t Ht. apply in_flat_map in Ht. destruct Ht as [n [Hn Ht]]. apply in_seq in Hn.
    destruct (Nat.ltb 0 n); [|destruct Ht]. pose proof (B n (c_q c) ltac:(lia)) as B1. pose proof (B n (c_qs c) ltac:(lia)) as B2.
    destruct Ht as [<-|[]]; wft; try (apply Z.leb_le; lia); apply Z.ltb_lt; lia.
  Qed.
  Lemma wf_gap : wf_bform 4 (nc_full c) gap_form = true.
  Proof.
    assert (B : forall n, (0 < n < N)%nat -> (n * q1 < q1 * N)%nat) by (intros n Hn; rewrite (Nat.mul_comm q1); apply Nat.mul_lt_mono_pos_r; lia).
    unfold wf_bform, gap_form. apply forallb_forall. intros t Ht. apply in_flat_map in Ht. destruct Ht as [n [Hn Ht]]. apply in_seq in Hn.
    destruct (Nat.ltb_spec 0 n) as [Hp|Hp].
    - pose proof (B n ltac:(lia)) as Bn. destruct Ht as [<-|[<-|[<-|[<-|[]]]]]; wft; try (apply Z.leb_le; lia); apply Z.ltb_lt; lia.
    - assert (0 < q1 * N)%nat by (apply Nat.mul_pos_pos; lia).
      destruct (c_wp c); [|destruct Ht]. destruct Ht as [<-|[<-|[<-|[]]]]; wft; try (apply Z.leb_le; lia); apply Z.ltb_lt; lia.
  Qed.
  Lemma wf_pre : wf_bform 4 (nc_full c) pre_form = true.
  Proof. unfold pre_form. rewrite wf_app, wf_st, wf_carry by apply (eo_N _ HE). reflexivity. Qed.
  Lemma wf_del : wf_bform 4 (nc_full c) del_form = true.
  Proof. unfold del_form. rewrite wf_app, wf_pre, wf_gap. reflexivity. Qed.

  (** the delivered operator and the inverse of the preconditioner *)
  Definition pre_op (x : vec) : vec := fun I =>
    mult (dimF E) (matF E g om true) x I + 1e-20 * tiny_march P D (fldF E x) (basF E I).
  Lemma tiny_march_reg X Y : tiny_march P D X Y = reg_slabs E X Y.
  Proof. unfold tiny_march, reg_slabs. rewrite (bu_NP _ _ HB), (bu_cq _ _ HB), (bu_cqs _ _ HB). reflexivity. Qed.
  Lemma pre_op_form x I : pre_op x I = mult (lay_dim L) (assemble D L pre_form) x I.
  Proof.
    unfold pre_op, matF, st_matrix, dimF. rewrite !(mult_assemble D 4 (nc_full c) L) by (try apply (eo_f _ HE); try apply wf_pre; apply wf_st, (eo_N _ HE)).
    unfold pre_form. rewrite eval_app, eval_carry, tiny_march_reg. reflexivity.
  Qed.
  Lemma st_op_form x I : st_op P E g om x I = mult (lay_dim L) (assemble D L del_form) x I.
  Proof.
    unfold st_op, matF, st_matrix, dimF. rewrite !(mult_assemble D 4 (nc_full c) L) by (try apply (eo_f _ HE); try apply wf_del; apply wf_st, (eo_N _ HE)).
    unfold del_form, pre_form. rewrite !eval_app, eval_carry, eval_gap. unfold basF, fldF.
    set (X := field_of L x). set (Y := field_of L (unitv I)).
    rewrite <- (missing_left_out P E g X Y HC HT). unfold missing.
    assert (ET : tiny_apply P D X Y = reg_slabs E X Y + sumn N (fun n => if Nat.ltb 0 n then L2 D Vp Vp (X 0%nat (n * q1 - 1)%nat) (Y 0%nat (n * q1 - 1)%nat) else 0)).
    { unfold tiny_apply, reg_slabs. rewrite (bu_NP _ _ HB), (bu_cq _ _ HB), (bu_cqs _ _ HB), <- Rsum_plus. apply Rsum_ext; intro n.
      destruct (Nat.ltb 0 n); ring. }
    rewrite ET, !eval_st. change 1e-20 with reg. set (Q := reg_slabs E X Y).
    transitivity (regterm D X Y + reg * Q + sumn N (fun n => eval D (core c g om) (restr (ntime c) n X) (restr (ntime c) n Y) +
        slab_extra c g D true n X Y + gap_spec X Y n)).
    2: { rewrite Rsum_plus. ring. }
    rewrite Rmult_plus_distr_l, <- Rsum_scal.
    match goal with |- ?r + ?s1 + (?u + ?s2) - ?s3 = _ => transitivity (r + u + (s1 + s2 - s3)); [ring|] end.
    f_equal. rewrite <- Rsum_plus, <- Rsum_minus. apply Rsum_ext; intro n.
    unfold slab_extra, gap_spec. rewrite (bu_jumps _ _ HB), Hj. cbn [andb].
    destruct (Nat.ltb_spec 0 n) as [Hn|Hn].
    - destruct (Nat.eqb_spec n 0); [lia|]. cbn [andb].
      assert (EE : forall a1 a2, en D dt a1 a2 (jmp c Y 0 n) (jmp c Y 1 n)
        = en D dt a1 a2 (Y 0%nat (n * q1)%nat) (Y 1%nat (n * q1)%nat) - en D dt a1 a2 (Y 0%nat (n * q1 - 1)%nat) (Y 1%nat (n * q1 - 1)%nat)).
      { intros. unfold en, L2, H1, jmp, vsub, lastc. rewrite !sp_sub2. ring. }
      rewrite EE. ring.
    - assert (n = 0)%nat as -> by lia. cbn [Nat.eqb andb]. destruct (c_wp c); ring.
  Qed.
  (** ** rows *)
  Definition last_ends : list nat := map (fun n => (n * q1 - 1)%nat) (seq 1 (N - 1)) ++ (if c_wp c then [0%nat] else []).
  Definition changed_rows : list nat :=
    flat_map (fun j => flat_map (fun i => map (dof L j i) (seq 0 (d_dim D Vp))) last_ends) [0; 1]%nat.
  Lemma rows_length : List.length changed_rows = (2 * (N - 1 + (if c_wp c then 1 else 0)) * d_dim D Vp)%nat.
  Proof.
    assert (F : forall j l, List.length (flat_map (fun i => map (dof L j i) (seq 0 (d_dim D Vp))) l) = (List.length l * d_dim D Vp)%nat).
    { intros j l. induction l as [|i l IH]; [reflexivity|]. cbn [flat_map List.length]. rewrite app_length, map_length, seq_length, IH. lia. }
    unfold changed_rows. cbn [flat_map]. rewrite app_nil_r, app_length, !F. unfold last_ends. rewrite app_length, map_length, seq_length.
    destruct (c_wp c); cbn [List.length]; lia.
  Qed.
  Lemma row_in j i l : (j < 2)%nat -> In i last_ends -> (l < d_dim D Vp)%nat -> In (dof L j i l) changed_rows.
  Proof.
    intros Hj2 Hi Hl. unfold changed_rows. apply in_flat_map. exists j. split.
    - assert (j = 0 \/ j = 1)%nat as [->| ->] by lia; cbn; auto.
    - apply in_flat_map. exists i. split; [exact Hi|]. apply in_map, in_seq. lia.
  Qed.
  Lemma gap_zero X I : ~ In I changed_rows -> sumn N (gap_spec X (field_of L (unitv I))) = 0.
  Proof.
    intro HI. apply Rsum_zero. intros n Hn. apply in_seq in Hn. unfold gap_spec.
    assert (Z : forall j i l, (j < 2)%nat -> In i last_ends -> (l < d_dim D Vp)%nat -> field_of L (unitv I) j i l = 0).
    { intros j i l H1 H2 H3. unfold field_of, unitv. apply delta_diff. intros ->. apply HI, row_in; assumption. }
    assert (S2 : forall o a b, (forall l, (l < d_dim D Vp)%nat -> b l = 0) -> sp D Dx WOne o Vp o Vp a b = 0) by (intros; apply sp_zero2; assumption).
    destruct (Nat.ltb_spec 0 n) as [Hp|Hp].
    - assert (In (n * q1 - 1)%nat last_ends).
      { unfold last_ends. apply in_or_app. left. apply in_map_iff. exists n. split; [reflexivity|]. apply in_seq. lia. }
      unfold en, L2, H1. rewrite !S2 by (intros; apply Z; auto with arith). ring.
    - destruct (c_wp c) eqn:Ew; [|reflexivity].
      assert (In 0%nat last_ends) by (unfold last_ends; rewrite Ew; apply in_or_app; right; left; reflexivity).
      unfold en, L2, H1. rewrite !S2 by (intros; apply Z; auto with arith). ring.
  Qed.
  Lemma off_rows x I : ~ In I changed_rows -> st_op P E g om x I = pre_op x I.
  Proof.
    intro HI. rewrite st_op_form, pre_op_form. rewrite !(mult_assemble D 4 (nc_full c) L) by (try apply (eo_f _ HE); apply wf_del || apply wf_pre).
    unfold del_form. rewrite eval_app, eval_gap, gap_zero by exact HI. ring.
  Qed.
  (** linearity *)
  Lemma mult_linop (M : matrix) n : linop n (mult n M).
  Proof.
    split.
    - intros v w H i Hi. unfold mult. apply sumn_ext. intros j Hj1. rewrite H by exact Hj1. reflexivity.
    - intros k1 v1 k2 v2 i Hi. unfold mult. rewrite <- !Rsum_scal, <- Rsum_plus. apply Rsum_ext; intro. ring.
  Qed.
  Lemma linop_eq n F G : (forall v i, F v i = G v i) -> linop n G -> linop n F.
  Proof. intros H [H1 H2]. split; [intros v w Hv i Hi|intros k1 v1 k2 v2 i Hi]; rewrite !H; [apply H1|apply H2]; assumption. Qed.
  Lemma st_op_lin : linop (dimF E) (st_op P E g om).
  Proof. apply (linop_eq _ _ _ st_op_form), mult_linop. Qed.
  Lemma pre_op_lin : linop (dimF E) pre_op.
  Proof. apply (linop_eq _ _ _ pre_op_form), mult_linop. Qed.

  (** ** the delivered operator is injective if the measurements control the start of a slab *)
  Lemma eval_del X Y : eval D del_form X Y = sumn N (fun n =>
      eval D (core c g om) (restr (ntime c) n X) (restr (ntime c) n Y) + reg * L2 D Vp Vd (X 0%nat (n * q1)%nat) (Y 2%nat (n * qs1)%nat)
      + (if Nat.ltb 0 n then g_jump g * en D dt (jmp c X 0 n) (jmp c X 1 n) (jmp c Y 0 n) (jmp c Y 1 n)
          + reg * L2 D Vp Vp (X 0%nat (n * q1 - 1)%nat) (Y 0%nat (n * q1 - 1)%nat) else 0)).
  Proof.
    unfold del_form, pre_form. rewrite !eval_app, eval_carry, eval_gap, eval_st.
    assert (G : regterm D X Y + reg * reg_slabs E X Y = sumn N (fun n => reg * L2 D Vp Vd (X 0%nat (n * q1)%nat) (Y 2%nat (n * qs1)%nat))).
    { unfold reg_slabs. rewrite <- Rsum_scal. pose proof (eo_N _ HE) as HN. destruct N as [|m]; [lia|]. cbn [seq]. rewrite !Rsum_cons.
      change (Nat.ltb 0 0) with false. cbv iota. rewrite Rmult_0_r, Rplus_0_l. unfold regterm. rewrite !Nat.mul_0_l. f_equal.
      apply Rsum_ext_in. intros n Hn. apply in_seq in Hn. destruct (Nat.ltb_spec 0 n); [reflexivity|lia]. }
    match goal with |- ?a + ?s + ?b + ?t = _ => transitivity (a + b + (s + t)); [ring|] end.
    rewrite G, <- !Rsum_plus. apply Rsum_ext; intro n.
    unfold slab_extra, gap_spec. rewrite (bu_jumps _ _ HB), Hj. cbn [andb].
    destruct (Nat.ltb_spec 0 n) as [Hn|Hn].
    - destruct (Nat.eqb_spec n 0); [lia|]. cbn [andb].
      assert (EE : forall a1 a2, en D dt a1 a2 (jmp c Y 0 n) (jmp c Y 1 n)
        = en D dt a1 a2 (Y 0%nat (n * q1)%nat) (Y 1%nat (n * q1)%nat) - en D dt a1 a2 (Y 0%nat (n * q1 - 1)%nat) (Y 1%nat (n * q1 - 1)%nat)).
      { intros. unfold en, L2, H1, jmp, vsub, lastc. rewrite !sp_sub2. ring. }
      rewrite EE. ring.
    - assert (n = 0)%nat as -> by lia. cbn [Nat.eqb andb]. destruct (c_wp c); ring.
  Qed.
  Section Inj.
    Variable ka : R.
    Hypotheses (HR : regular D om) (Dp : definite D Vp) (Dd : definite D Vd)
      (G1 : 0 <= g_data g) (G2 : 0 < g_dual g) (G3 : 0 < g_primal g) (G4 : 0 <= g_jump g)
      (Hc : controls_start P D (energy_first P g om D) ka) (Hk : 4 * 1e-20 ^ 2 < ka * g_dual g).
    Lemma del_inj X : eval D del_form X (flip X) = 0 -> feq D 4 (nc_full c) X fzero.
    Proof.
      rewrite eval_del. intro H.
      assert (Rp : 0 < reg) by (unfold reg; decimals; lra).
      assert (Ha : forall X, ka * L2 D Vp Vp (X 0%nat 0%nat) (X 0%nat 0%nat) <= dt * first_energy c g om D X).
      { intro Z. rewrite <- (energy_first_eq P c g om D Z HC), <- (tgrid_dt P c HC). apply (proj1 Hc). }
      assert (Hb : forall X, first_energy c g om D X = 0 -> L2 D Vp Vp (X 1%nat 0%nat) (X 1%nat 0%nat) = 0).
      { intro Z. rewrite <- (energy_first_eq P c g om D Z HC). apply (proj2 Hc). }
      assert (T : forall n, (eval D (core c g om) (restr (ntime c) n X) (restr (ntime c) n (flip X))
          + reg * L2 D Vp Vd (X 0%nat (n * q1)%nat) (flip X 2%nat (n * qs1)%nat)) = slab_quad c g om D reg (restr (ntime c) n X)).
      { intro n. rewrite <- (slab_quad_core P c g om D HB Hdt reg).
        change (restr (ntime c) n (flip X)) with (fun j i l => flip X j (n * ntime c j + i)%nat l).
        change (flip (restr (ntime c) n X)) with (fun j i l => flip X j (n * ntime c j + i)%nat l).
        unfold restr, ntime, sto. cbn [Nat.ltb Nat.leb]. rewrite !Nat.add_0_r.
        unfold flip at 2. cbn [Nat.ltb Nat.leb]. unfold L2. rewrite sp_opp2.
        change (fun l => X 0%nat (n * q1)%nat l) with (X 0%nat (n * q1)%nat). change (fun l => X 2%nat (n * qs1)%nat l) with (X 2%nat (n * qs1)%nat). ring. }
      assert (J : forall n, 0 <= if Nat.ltb 0 n then g_jump g * en D dt (jmp c X 0 n) (jmp c X 1 n) (jmp c (flip X) 0 n) (jmp c (flip X) 1 n)
          + reg * L2 D Vp Vp (X 0%nat (n * q1 - 1)%nat) (flip X 0%nat (n * q1 - 1)%nat) else 0).
      { intro n. destruct (Nat.ltb 0 n); [|lra].
        assert (E1 : forall a1 a2, 0 <= en D dt a1 a2 a1 a2) by (intros; apply (energy_pos c om D Hdt HR)).
        change (jmp c (flip X) 0 n) with (jmp c X 0 n). change (jmp c (flip X) 1 n) with (jmp c X 1 n).
        change (flip X 0%nat (n * q1 - 1)%nat) with (X 0%nat (n * q1 - 1)%nat).
        pose proof (Rmult_le_pos _ _ G4 (E1 (jmp c X 0 n) (jmp c X 1 n))).
        pose proof (Rmult_le_pos _ _ (Rlt_le _ _ Rp) (L2_nonneg om D HR Vp (X 0%nat (n * q1 - 1)%nat))). lra. }
      assert (Hk' : 4 * reg ^ 2 < ka * g_dual g) by exact Hk.
      pose proof (slab_quad_pos P c g om D HB Hdt HR G2 reg ka Hk' Ha) as SP.
      apply (feq_full P c D X HB). intros n Hn.
      assert (Q0 : slab_quad c g om D reg (restr (ntime c) n X) = 0).
      { assert (S0 : eval D (core c g om) (restr (ntime c) n X) (restr (ntime c) n (flip X))
          + reg * L2 D Vp Vd (X 0%nat (n * q1)%nat) (flip X 2%nat (n * qs1)%nat)
          + (if Nat.ltb 0 n then g_jump g * en D dt (jmp c X 0 n) (jmp c X 1 n) (jmp c (flip X) 0 n) (jmp c (flip X) 1 n)
          + reg * L2 D Vp Vp (X 0%nat (n * q1 - 1)%nat) (flip X 0%nat (n * q1 - 1)%nat) else 0) = 0).
        { refine (Rsum_nonneg_zero (seq 0 N) _ _ H n _); [|apply in_seq; lia].
          intros m _. cbv beta. rewrite T. pose proof (J m). pose proof (SP (restr (ntime c) m X)). lra. }
        rewrite T in S0. pose proof (J n). pose proof (SP (restr (ntime c) n X)). lra. }
      pose proof (slab_quad_zero P c g om D HB Hdt HR Dp Dd G1 G2 G3 reg ka Hk' Ha Hb _ Q0) as [A B].
      split.
      - intros j i l Hj2 Hi Hl. pose proof (A j i l Hj2 Hi Hl) as Z. cbn [Nat.mul Nat.add] in Z. unfold restr, ntime, sto in Z.
        destruct (Nat.ltb_spec j 2); [exact Z|lia].
      - intros j i l Hj2 Hi Hl. pose proof (B j i l Hj2 Hi Hl) as Z. cbn [Nat.mul Nat.add] in Z. unfold restr, ntime, sto in Z.
        destruct (Nat.ltb_spec j 2); [lia|exact Z].
    Qed.
    Lemma st_op_inj x : same (dimF E) (st_op P E g om x) (fun _ => 0) -> same (dimF E) x (fun _ => 0).
    Proof.
      intros Hx. destruct (flip_exists D L c x (eo_f _ HE)) as [x' HF].
      assert (Z : eval D del_form (field_of L x) (flip (field_of L x)) = 0).
      { rewrite (eval_ext D 4 (nc_full c) del_form _ (field_of L x) _ (field_of L x') wf_del (feq_refl _ _ _ _)).
        - rewrite <- (dot_assemble D 4 (nc_full c) L) by (try apply (eo_f _ HE); apply wf_del).
          apply Rsum_zero. intros I HI. apply in_seq in HI. rewrite <- st_op_form. rewrite (Hx I) by (unfold dimF; lia). ring.
        - intros j i l H1 H2 H3. unfold flip, field_of. rewrite (HF j i l H1 H2 H3). reflexivity. }
      pose proof (del_inj _ Z) as F. intros I HI. destruct (dof_surj D 4 (nc_full c) L I (eo_f _ HE) HI) as [j [i [l [Hj1 [Hi [Hl ->]]]]]].
      apply (F j i l Hj1 Hi Hl).
    Qed.
  End Inj.
End Del.
