(** FormStruct.v -- consequences for the space-time form: symmetry, kernel,
    slab structure, consistency (C13, C14, C17, C18, C19). *)
From Coq Require Import Reals List ZArith Lra Lia Bool String.
From Coquelicot Require Import Coquelicot.
From Verif Require Import Base TimeModel TimeSpec TimeProofs QuadProofs FormModel FormSpec FormProofs
  SpaceTimeForms FormBlocks GuardProofs FormTime FormC12 FormSym RhsProofs.
Import ListNotations.
Open Scope R_scope.

(** the coefficients of X outside slab n vanish *)
Definition on_slab (D : disc) (d : tdisc) (N n : nat) (X : field) : Prop :=
  forall j i l : nat, (j < 4)%nat -> (i < S (ord d j) * N)%nat -> (l < d_dim D (spc j))%nat ->
  (i / S (ord d j))%nat <> n -> X j i l = 0.

Lemma sp_zero1 D m w o1 s1 o2 s2 a b : (forall l, (l < d_dim D s1)%nat -> a l = 0) ->
  sp D m w o1 s1 o2 s2 a b = 0.
Proof.
  intro H. rewrite (sp_ext D m w o1 s1 o2 s2 a b (fun l => 0 * a l) b).
  - rewrite sp_scal1. ring.
  - intros l Hl. rewrite H by exact Hl. ring.
  - reflexivity.
Qed.
Lemma sp_zero2 D m w o1 s1 o2 s2 a b : (forall l, (l < d_dim D s2)%nat -> b l = 0) ->
  sp D m w o1 s1 o2 s2 a b = 0.
Proof.
  intro H. rewrite (sp_ext D m w o1 s1 o2 s2 a b a (fun l => 0 * b l)).
  - rewrite sp_scal2. ring.
  - reflexivity.
  - intros l Hl. rewrite H by exact Hl. ring.
Qed.
Definition fzero : field := fun _ _ _ => 0.
Lemma eval_zero1 D f Y : properF f -> eval D f fzero Y = 0.
Proof. intro H. apply (eval_linX D f ([] : list unit) (fun _ => 0) (fun _ => fzero) Y H). Qed.
Lemma eval_zero2 D f X : properF f -> eval D f X fzero = 0.
Proof. intro H. apply (eval_linY D f ([] : list unit) (fun _ => 0) (fun _ => fzero) X H). Qed.

Lemma node_range q a : (a <= q)%nat -> 0 <= node q a <= 1.
Proof.
  intro Ha. unfold node. destruct q as [|q'].
  - cbn. unfold Rdiv. rewrite Rinv_0. lra.
  - assert (0 < INR (S q')) by (apply lt_0_INR; lia).
    assert (0 <= INR a) by apply pos_INR.
    assert (INR a <= INR (S q')) by (apply le_INR; lia).
    split; [apply Rmult_le_pos; [lra|left; apply Rinv_0_lt_compat; lra]|].
    apply Rmult_le_reg_r with (INR (S q')); [lra|]. unfold Rdiv. rewrite Rmult_assoc, Rinv_l by lra. lra.
Qed.
Lemma lag_node q i a : (q <= 3)%nat -> (i <= q)%nat -> (a <= q)%nat ->
  lagrange q i (node q a) = delta a i.
Proof.
  intros Hq Hi Ha. destruct (lag_basis q Hq) as [p [dp E]].
  destruct (Nat.eq_dec q 0) as [->|E0].
  - assert (a = 0 /\ i = 0)%nat as [-> ->] by lia. reflexivity.
  - pose proof (basis_nodal _ _ _ E ltac:(lia) i a ltac:(lia) ltac:(lia)) as B.
    rewrite (basis_lagrange _ _ _ E) in B by lia. rewrite Nat2Z.id in B. rewrite B.
    unfold delta. rewrite Nat.eqb_sym. reflexivity.
Qed.

Section Struct.
  Variables (P : params) (c : config) (g : gammas) (om : nat -> R) (D : disc).
  Hypothesis HB : built P c.
  Hypothesis Hdt : 0 < c_dt c.
  Let d := td c.
  Let Hq := q_le P c HB.
  Let Hqs := qs_le P c HB.
  Notation r n X := (restr (ntime c) n X).

  (** ** symmetry *)
  Lemma st_sym X Y :
    eval D (st_form c g om false) X Y - eval D (st_form c g om false) Y X
    = 1e-20 * (L2 D Vp Vd (X 0%nat 0%nat) (Y 2%nat 0%nat) - L2 D Vp Vd (Y 0%nat 0%nat) (X 2%nat 0%nat)).
  Proof.
    rewrite !(st_form_spec P c g om D HB Hdt).
    assert (E : forall n, slab_spec c g om D X Y n + extra_spec c g D false X Y n
      = slab_spec c g om D Y X n + extra_spec c g D false Y X n).
    { intro n. unfold slab_spec, extra_spec.
      rewrite (data_comm D (td c) om X Y), (dual_comm D (td c) (c_lam c) Y X), (primal_comm D (td c) (c_lam c) X Y),
        (dualjumps_comm D (td c) Y X). unfold jumps, init.
      rewrite (energy_comm D (td c) (jumpv (td c) X 0 n)), (energy_comm D (td c) (upper (td c) X 0 0)).
      destruct (Nat.ltb 0 n), (c_jumps c), (c_wp c); ring. }
    rewrite (Rsum_ext _ _ (fun n => slab_spec c g om D Y X n + extra_spec c g D false Y X n)) by exact E.
    ring.
  Qed.

  (** ** kernel of the unperturbed operator *)
  Section Kernel.
    Hypothesis HR : regular D om.
    Hypothesis Gd : 0 < g_data g.
    Hypothesis Gz : 0 < g_dual g.
    Hypothesis Gp : 0 < g_primal g.
    Hypothesis Gj : 0 < g_jump g.
    Variable X : field.
    Hypothesis HK : forall Y, eval D (st_form c g om false) X Y
                              = 1e-20 * L2 D Vp Vd (X 0%nat 0%nat) (Y 2%nat 0%nat).
    Lemma kernel_quad n : (n < c_N c)%nat -> quad_spec c g om D X n = 0.
    Proof.
      intro Hn. pose proof (signs P c g om D HB Hdt X) as S. rewrite HK in S.
      assert (E : 1e-20 * L2 D Vp Vd (X 0%nat 0%nat) (flip X 2%nat 0%nat)
         = - (1e-20 * L2 D Vp Vd (X 0%nat 0%nat) (X 2%nat 0%nat))).
      { unfold L2, flip; cbn [Nat.ltb Nat.leb]. rewrite sp_opp2. ring. }
      rewrite E in S.
      apply (Rsum_nonneg_zero (seq 0 (c_N c)) (quad_spec c g om D X)); [|lra|apply in_seq; lia].
      intros m _. apply (quad_spec_pos P c g om D HB Hdt HR X m); lra.
    Qed.
    Lemma zero_of_prod a b : 0 < a -> a * b = 0 -> b = 0.
    Proof. intros Ha H. apply Rmult_integral in H. destruct H; lra. Qed.
    Lemma kernel_parts n : (n < c_N c)%nat ->
      data D d om X X n = 0 /\ dual D d (c_lam c) X X n = 0 /\ primal D d (c_lam c) X X n = 0
      /\ ((0 < n)%nat -> jumps D d X X n = 0).
    Proof.
      intro Hn. pose proof (kernel_quad n Hn) as K. unfold quad_spec in K.
      pose proof (quad_spec_pos P c g om D HB Hdt HR X n ltac:(lra) ltac:(lra) ltac:(lra) ltac:(lra))
        as [A1 [A2 [A3 [A4 [A5 [A6 _]]]]]].
      fold d in K, A1, A2, A3, A4, A5, A6.
      destruct (Nat.ltb_spec 0 n) as [h|h].
      - destruct (c_jumps c); repeat split; try intros _;
        first [apply (zero_of_prod (g_data g)); lra | apply (zero_of_prod (g_dual g)); lra
              |apply (zero_of_prod (g_primal g)); lra | apply (zero_of_prod (g_jump g)); lra].
      - destruct (c_wp c); repeat split; try lia;
        first [apply (zero_of_prod (g_data g)); lra | apply (zero_of_prod (g_dual g)); lra
              |apply (zero_of_prod (g_primal g)); lra].
    Qed.
    Lemma kernel_at n t : (n < c_N c)%nat -> INR n * c_dt c <= t <= INR n * c_dt c + c_dt c ->
      L2w D om Vp (at_time d X 0 n t) (at_time d X 0 n t) = 0
      /\ L2 D Vd Vd (at_time d X 2 n t) (at_time d X 2 n t) = 0
      /\ L2 D Vd Vd (at_time d X 3 n t) (at_time d X 3 n t) = 0
      /\ L2 D Vp Vp (vsub (ddt (at_time d X 0 n) t) (at_time d X 1 n t))
                    (vsub (ddt (at_time d X 0 n) t) (at_time d X 1 n t)) = 0
      /\ integ D Dx WH2 1 (fun p _ => res2 D d X n t p) (fun p _ => res2 D d X n t p) = 0
      /\ bndw D (c_lam c) Vp (at_time d X 0 n t) (at_time d X 0 n t) = 0
      /\ facet D Vp (at_time d X 0 n t) (at_time d X 0 n t) = 0.
    Proof.
      intros Hn Ht. destruct (kernel_parts n Hn) as [K1 [K2 [K3 _]]].
      assert (P1 : data_at c om D X X n t = 0).
      { apply (slab_zero c Hdt (data_at c om D X X n) n); auto.
        - intro x; apply (data_cont P); assumption.
        - intro x; apply data_at_pos; exact HR. }
      assert (P2 : dual_at c D X X n t = 0).
      { apply (slab_zero c Hdt (dual_at c D X X n) n); auto.
        - intro x; apply (dual_cont P); assumption.
        - intro x; pose proof (dual_at_pos P c om D HB HR X n x); unfold dual_at; lra. }
      assert (P3 : primal_at c D X X n t = 0).
      { apply (slab_zero c Hdt (primal_at c D X X n) n); auto.
        - intro x; apply (primal_cont P); assumption.
        - intro x; pose proof (primal_at_pos P c om D HB HR X n x); unfold primal_at; lra. }
      pose proof (dual_at_pos P c om D HB HR X n t) as Q2. pose proof (primal_at_pos P c om D HB HR X n t) as Q3.
      unfold data_at in P1. unfold dual_at in P2. unfold primal_at in P3. fold d in P1, P2, P3, Q2, Q3.
      repeat split; lra.
    Qed.
    (** with a definite mass form the dual coefficients vanish *)
    Lemma kernel_dual_zero :
      (forall a, L2 D Vd Vd a a = 0 -> forall l, (l < d_dim D Vd)%nat -> a l = 0) ->
      forall j i l, (2 <= j < 4)%nat -> (i < nc_full c j)%nat -> (l < d_dim D Vd)%nat -> X j i l = 0.
    Proof.
      intros HD j i l Hj Hi Hl.
      set (nt := S (c_qs c)).
      assert (Ent : ntime c j = nt) by (unfold ntime, sto; destruct (Nat.ltb_spec j 2); [lia|reflexivity]).
      unfold nc_full in Hi. rewrite Ent in Hi.
      set (n := (i / nt)%nat). set (a := (i mod nt)%nat).
      assert (Hn : (n < c_N c)%nat) by (apply Nat.div_lt_upper_bound; unfold nt; lia).
      assert (Ha : (a < nt)%nat) by (apply Nat.mod_upper_bound; unfold nt; lia).
      assert (Ei : i = (n * nt + a)%nat) by (unfold n, a; rewrite (Nat.div_mod i nt) at 1 by (unfold nt; lia); lia).
      set (t := INR n * c_dt c + node (c_qs c) a * c_dt c).
      assert (Hnode := node_range (c_qs c) a ltac:(unfold nt in Ha; lia)).
      assert (Ht : INR n * c_dt c <= t <= INR n * c_dt c + c_dt c).
      { unfold t. pose proof (Rmult_le_compat_r (c_dt c) _ _ ltac:(lra) (proj2 Hnode)).
        pose proof (Rmult_le_pos _ _ (proj1 Hnode) (Rlt_le _ _ Hdt)). lra. }
      destruct (kernel_at n t Hn Ht) as [_ [K2 [K3 _]]].
      assert (Z : at_time d X j n t l = 0).
      { assert (j = 2 \/ j = 3)%nat as [->| ->] by lia; apply HD; assumption. }
      unfold at_time in Z.
      assert (Eo : ord d j = c_qs c) by (unfold ord; destruct (Nat.ltb_spec j 2); [lia|reflexivity]).
      rewrite Eo in Z. cbn [t_dt td d] in Z.
      replace ((t - INR n * c_dt c) / c_dt c) with (node (c_qs c) a) in Z by (unfold t; field; lra).
      rewrite (sumn_ext _ _ (fun i0 => delta a i0 * X j (n * nt + i0)%nat l)) in Z.
      - rewrite sumn_delta in Z by exact Ha. rewrite Ei. exact Z.
      - intros i0 Hi0. f_equal. apply lag_node; unfold nt in *; lia.
    Qed.
  End Kernel.

  (** ** slab structure *)
  Lemma on_slab_restr N n m X : on_slab D d N n X -> (m < N)%nat -> m <> n ->
    feq D 4 (nc_pre c) (r m X) fzero.
  Proof.
    intros H Hm Hne j i l Hj Hi Hl. unfold restr, fzero. unfold nc_pre in Hi.
    rewrite <- (ord_ntime c j) in Hi |- *. fold d in Hi |- *. apply H; auto.
    - nia.
    - rewrite Nat.div_add_l by lia. rewrite (Nat.div_small i) by lia. lia.
  Qed.
  Lemma core_zero N n m k X Y : on_slab D d N n X -> on_slab D d N m Y -> (k < N)%nat -> n <> m ->
    eval D (core c g om) (r k X) (r k Y) = 0.
  Proof.
    intros HX HY Hk Hne. pose proof (wf_core c g om) as W. pose proof (wf_bform_proper _ _ _ W) as Pr.
    destruct (Nat.eq_dec k n) as [->|Hkn].
    - rewrite (eval_ext D 4 (nc_pre c) _ (r n X) (r n X) (r n Y) fzero W (feq_refl _ _ _ _)).
      + apply eval_zero2; exact Pr.
      + apply (on_slab_restr N m); auto.
    - rewrite (eval_ext D 4 (nc_pre c) _ (r k X) fzero (r k Y) (r k Y) W).
      + apply eval_zero1; exact Pr.
      + apply (on_slab_restr N n); auto.
      + apply feq_refl.
  Qed.
  (** the first coefficient of slab k, and the jump there *)
  Lemma first_zero N n k j X : on_slab D d N n X -> (k < N)%nat -> k <> n -> (j < 4)%nat ->
    forall l, (l < d_dim D (spc j))%nat -> X j (k * S (ord d j))%nat l = 0.
  Proof.
    intros H Hk Hne Hj l Hl. apply H; auto; [nia|]. rewrite Nat.div_mul by lia. lia.
  Qed.
  Lemma jmp_zero N n k j X : on_slab D d N n X -> (1 <= k < N)%nat -> k <> n -> (k <> n + 1)%nat -> (j < 2)%nat ->
    forall l, (l < d_dim D Vp)%nat -> jmp c X j k l = 0.
  Proof.
    intros H Hk H1 H2 Hj l Hl.
    assert (Es : spc j = Vp) by (unfold spc; destruct (Nat.ltb_spec j 2); [reflexivity|lia]).
    assert (Eo : ord d j = c_q c) by (unfold ord; destruct (Nat.ltb_spec j 2); [reflexivity|lia]).
    unfold jmp, vsub. pose proof (first_zero N n k j X H ltac:(lia) H1 ltac:(lia) l) as F.
    rewrite Es, Eo in F. rewrite F by exact Hl.
    assert (G : X j (lastc c k) l = 0); [|rewrite G; ring].
    unfold lastc. apply H; [lia|rewrite Eo; nia|rewrite Es; exact Hl|rewrite Eo].
    replace (k * S (c_q c) - 1)%nat with ((k - 1) * S (c_q c) + c_q c)%nat by nia.
    rewrite Nat.div_add_l by lia. rewrite (Nat.div_small (c_q c)) by lia. lia.
  Qed.
  Ltac spz := first [apply sp_zero1; assumption | apply sp_zero2; assumption].
  Lemma en_zero1 a1 a2 b1 b2 : (forall l, (l < d_dim D Vp)%nat -> a1 l = 0) ->
    (forall l, (l < d_dim D Vp)%nat -> a2 l = 0) -> en D (c_dt c) a1 a2 b1 b2 = 0.
  Proof. intros A1 A2. unfold en, L2, H1. rewrite !sp_zero1 by assumption. ring. Qed.
  Lemma en_zero2 a1 a2 b1 b2 : (forall l, (l < d_dim D Vp)%nat -> b1 l = 0) ->
    (forall l, (l < d_dim D Vp)%nat -> b2 l = 0) -> en D (c_dt c) a1 a2 b1 b2 = 0.
  Proof. intros A1 A2. unfold en, L2, H1. rewrite !sp_zero2 by assumption. ring. Qed.

  Lemma slab_structure precond n m X Y :
    on_slab D d (c_N c) n X -> on_slab D d (c_N c) m Y -> n <> m ->
    (m <> n + 1)%nat -> (n <> m + 1)%nat \/ (precond = true /\ c_jumps c = false) ->
    eval D (st_form c g om precond) X Y = 0.
  Proof.
    intros HX HY Hne Hnm Hmn. rewrite eval_st.
    assert (R0 : regterm D X Y = 0).
    { unfold regterm, L2. destruct (Nat.eq_dec n 0) as [->|Hn].
      - rewrite sp_zero2; [ring|]. intros l Hl. pose proof (bu_N _ _ HB).
        apply (first_zero (c_N c) m 0 2 Y HY); auto; lia.
      - rewrite sp_zero1; [ring|]. intros l Hl. pose proof (bu_N _ _ HB).
        apply (first_zero (c_N c) n 0 0 X HX); auto; lia. }
    rewrite R0, Rplus_0_l. apply Rsum_zero; intros k Hk. apply in_seq in Hk. assert (k < c_N c)%nat by lia.
    rewrite (core_zero (c_N c) n m) by assumption. rewrite Rplus_0_l.
    unfold slab_extra.
    (* facts about slab k *)
    assert (FX : k <> n -> forall l, (l < d_dim D Vp)%nat ->
       X 0%nat (k * S (c_q c))%nat l = 0 /\ X 1%nat (k * S (c_q c))%nat l = 0).
    { intros h l Hl. split; [apply (first_zero (c_N c) n k 0 X HX)|apply (first_zero (c_N c) n k 1 X HX)]; auto; lia. }
    assert (FY : k <> m -> forall l, (l < d_dim D Vp)%nat ->
       Y 0%nat (k * S (c_q c))%nat l = 0 /\ Y 1%nat (k * S (c_q c))%nat l = 0).
    { intros h l Hl. split; [apply (first_zero (c_N c) m k 0 Y HY)|apply (first_zero (c_N c) m k 1 Y HY)]; auto; lia. }
    assert (GX : k <> n -> forall l, (l < d_dim D Vd)%nat ->
       X 2%nat (k * S (c_qs c))%nat l = 0 /\ X 3%nat (k * S (c_qs c))%nat l = 0).
    { intros h l Hl. split; [apply (first_zero (c_N c) n k 2 X HX)|apply (first_zero (c_N c) n k 3 X HX)]; auto; lia. }
    assert (GY : k <> m -> forall l, (l < d_dim D Vd)%nat ->
       Y 2%nat (k * S (c_qs c))%nat l = 0 /\ Y 3%nat (k * S (c_qs c))%nat l = 0).
    { intros h l Hl. split; [apply (first_zero (c_N c) m k 2 Y HY)|apply (first_zero (c_N c) m k 3 Y HY)]; auto; lia. }
    assert (JX : (1 <= k)%nat -> k <> n -> (k <> n + 1)%nat -> forall l, (l < d_dim D Vp)%nat ->
       jmp c X 0 k l = 0 /\ jmp c X 1 k l = 0).
    { intros h1 h2 h3 l Hl. split; apply (jmp_zero (c_N c) n k _ X HX); auto; lia. }
    assert (JY : (1 <= k)%nat -> k <> m -> (k <> m + 1)%nat -> forall l, (l < d_dim D Vp)%nat ->
       jmp c Y 0 k l = 0 /\ jmp c Y 1 k l = 0).
    { intros h1 h2 h3 l Hl. split; apply (jmp_zero (c_N c) m k _ Y HY); auto; lia. }
    (* initial data *)
    assert (I0 : k = 0%nat -> en D (c_dt c) (X 0%nat 0%nat) (X 1%nat 0%nat) (Y 0%nat 0%nat) (Y 1%nat 0%nat) = 0).
    { intros ->. destruct (Nat.eq_dec 0 n) as [En|En].
      - apply en_zero2; intros l Hl; apply (FY ltac:(lia) l Hl).
      - apply en_zero1; intros l Hl; apply (FX En l Hl). }
    destruct (Nat.ltb_spec 0 k) as [h|h].
    2: { assert (k = 0%nat) as -> by lia. rewrite andb_false_r. cbn [Nat.eqb andb].
         destruct (c_wp c); [rewrite I0 by reflexivity|]; ring. }
    destruct (Nat.eqb_spec k 0); [lia|]. cbn [andb]. rewrite andb_true_r.
    (* primal jumps *)
    assert (J0 : (if precond then en D (c_dt c) (jmp c X 0 k) (jmp c X 1 k) (Y 0%nat (k * S (c_q c))%nat) (Y 1%nat (k * S (c_q c))%nat)
          else en D (c_dt c) (jmp c X 0 k) (jmp c X 1 k) (jmp c Y 0 k) (jmp c Y 1 k)) = 0).
    { destruct (Nat.eq_dec k n) as [En|En].
      - (* trial slab k *)
        destruct precond; apply en_zero2; intros l Hl; first [apply (FY ltac:(lia) l Hl)|idtac];
        (apply (JY ltac:(lia) ltac:(lia)); [|exact Hl]; destruct Hmn as [Hmn|[Hp _]]; [lia|discriminate]).
      - destruct (Nat.eq_dec k (n + 1)) as [En1|En1].
        + destruct (Nat.eq_dec k m); [lia|].
          destruct precond; apply en_zero2; intros l Hl; first [apply (FY ltac:(lia) l Hl)|apply (JY ltac:(lia) ltac:(lia) ltac:(lia) l Hl)].
        + destruct precond; apply en_zero1; intros l Hl; apply (JX ltac:(lia) En En1 l Hl). }
    rewrite J0, Rmult_0_r, !Rplus_0_r.
    destruct (c_jumps c) eqn:EJ; [|reflexivity].
    destruct Hmn as [Hmn|[_ Hmn]]; [|discriminate].
    unfold L2.
    assert (Z1 : sp D Dx WOne Val Vd Val Vd (Y 3%nat (k * S (c_qs c))%nat) (X 3%nat (k * S (c_qs c))%nat) = 0
      /\ sp D Dx WOne Val Vd Val Vd (Y 2%nat (k * S (c_qs c))%nat) (X 2%nat (k * S (c_qs c))%nat) = 0).
    { destruct (Nat.eq_dec k n) as [En|En].
      - split; apply sp_zero1; intros l Hl; apply (GY ltac:(lia) l Hl).
      - split; apply sp_zero2; intros l Hl; apply (GX En l Hl). }
    assert (Z2 : sp D Dx WOne Val Vp Val Vd (jmp c Y 1 k) (X 2%nat (k * S (c_qs c))%nat) = 0
      /\ sp D Dx WOne Val Vp Val Vd (jmp c Y 0 k) (X 3%nat (k * S (c_qs c))%nat) = 0).
    { destruct (Nat.eq_dec k n) as [En|En].
      - split; apply sp_zero1; intros l Hl; apply (JY ltac:(lia) ltac:(lia) ltac:(lia) l Hl).
      - split; apply sp_zero2; intros l Hl; apply (GX En l Hl). }
    assert (Z3 : sp D Dx WOne Val Vp Val Vd (jmp c X 1 k) (Y 2%nat (k * S (c_qs c))%nat) = 0
      /\ sp D Dx WOne Val Vp Val Vd (jmp c X 0 k) (Y 3%nat (k * S (c_qs c))%nat) = 0).
    { destruct (Nat.eq_dec k m) as [En|En].
      - split; apply sp_zero1; intros l Hl; apply (JX ltac:(lia) ltac:(lia) ltac:(lia) l Hl).
      - split; apply sp_zero2; intros l Hl; apply (GY En l Hl). }
    destruct Z1 as [-> ->], Z2 as [-> ->], Z3 as [-> ->]. ring.
  Qed.
End Struct.
