(** FormBlocks.v -- the forms of SpaceTimeForms.v are well formed, and the
    space-time form splits into contributions of the time slabs. *)
From Coq Require Import Reals List ZArith Lra Lia Bool.
From Verif Require Import Base TimeModel TimeSpec FormModel FormSpec FormProofs SpaceTimeForms.
Import ListNotations.
Open Scope R_scope.

(** * Well-formedness (C15) *)

Lemma wf_app nb nc f g : wf_bform nb nc (f ++ g) = wf_bform nb nc f && wf_bform nb nc g.
Proof. unfold wf_bform. apply forallb_app. Qed.
Lemma forallb_loop2 {A} (P : A -> bool) n m f :
  (forall j k, (j < n)%nat -> (k < m)%nat -> forallb P (f j k) = true) ->
  forallb P (loop2 n m f) = true.
Proof.
  intro H. unfold loop2. apply forallb_forall. intros t Ht.
  apply in_flat_map in Ht; destruct Ht as [j [Hj Ht]].
  apply in_flat_map in Ht; destruct Ht as [k [Hk Ht]].
  apply in_seq in Hj. apply in_seq in Hk.
  specialize (H j k ltac:(lia) ltac:(lia)). rewrite forallb_forall in H. auto.
Qed.
Lemma wf_loop2 nb nc n m f :
  (forall j k, (j < n)%nat -> (k < m)%nat -> wf_bform nb nc (f j k) = true) ->
  wf_bform nb nc (loop2 n m f) = true.
Proof. apply forallb_loop2. Qed.
Lemma wf_guard nb nc m f : wf_bform nb nc f = true -> wf_bform nb nc (nitsche_guard m f) = true.
Proof. unfold nitsche_guard. destruct (Rlt_dec _ _); auto. Qed.

Ltac splits := repeat match goal with |- _ /\ _ => split end.
(** index conditions of one term *)
Ltac wf_terms :=
  unfold wf_bform, wf_lform, forallb, wf_bterm, wf_lterm, wf_arg, at_, sub_, plus_, minus_, bneg, U1, U2, Z1, Z2, W1, W2, Y1, Y2;
  cbn -[Z.leb Z.ltb Z.add Z.of_nat Nat.mul nc_full nc_pre nc_coup nc_bnd];
  repeat rewrite ?andb_true_iff, ?andb_true_r, ?orb_false_r, ?andb_false_r; cbn [orb];
  repeat match goal with |- _ /\ _ => split end; try reflexivity;
  try (apply Z.leb_le); try (apply Z.ltb_lt);
  unfold nc_full, nc_pre, nc_coup, nc_bnd, ntime, sto, z in *; cbn [Nat.ltb Nat.leb]; try nia.

Definition cntn (c : config) (n : nat) : counters :=
  mkCnt (z (n * S (c_q c))) (z (n * S (c_q c)) - 1) (z (n * S (c_qs c))) (z (n * S (c_qs c)) - 1).
Lemma cnt_next_n c n : cnt_next c (cntn c n) = cntn c (S n).
Proof. unfold cnt_next, cntn, z; cbn [k_iq k_cq k_iqs k_cqs]. f_equal; lia. Qed.

Lemma fold_slabs {A} c (f : nat -> counters -> list A) l0 N :
  fold_left (fun '(s, a) n => (cnt_next c s, a ++ f n s)) (seq 0 N) (cnt0, l0)
  = (cntn c N, l0 ++ flat_map (fun n => f n (cntn c n)) (seq 0 N)).
Proof.
  induction N as [|N IH].
  - cbn. rewrite app_nil_r. reflexivity.
  - rewrite seq_S, fold_left_app, IH. cbn [fold_left].
    rewrite cnt_next_n, flat_map_app, app_assoc. cbn [flat_map]. rewrite app_nil_r. reflexivity.
Qed.

Section Blocks.
  Variables (c : config) (g : gammas) (om : nat -> R).
  Let nq := S (c_q c).
  Let nqs := S (c_qs c).

  Lemma st_form_slabs precond : st_form c g om precond
    = plus_ reg WOne Dx Val (at_ U1 0) Val (at_ Y1 0)
      :: flat_map (fun n => st_slab c g om precond n (cntn c n)) (seq 0 (c_N c)).
  Proof. unfold st_form. rewrite fold_slabs. reflexivity. Qed.

  (** ** slab forms *)
  Lemma wf_slab b : wf_bform 4 (nc_pre c) (slab_form c g om b) = true.
  Proof.
    unfold slab_form. rewrite !wf_app. rewrite !andb_true_iff; splits.
    - wf_terms.
    - apply wf_loop2; intros j k Hj Hk. rewrite wf_app; apply andb_true_iff; split; [wf_terms|].
      apply wf_guard; wf_terms.
    - apply wf_loop2; intros j k Hj Hk. wf_terms.
    - apply wf_loop2; intros j k Hj Hk. rewrite wf_app; apply andb_true_iff; split; [wf_terms|].
      apply wf_guard; wf_terms.
    - apply wf_loop2; intros j k Hj Hk. wf_terms.
    - unfold sl_dual_jump. destruct (c_jumps c && b); [wf_terms|reflexivity].
    - apply wf_loop2; intros j k Hj Hk. wf_terms.
    - unfold sl_jump. destruct b; [|reflexivity]. rewrite wf_app; apply andb_true_iff; split; [wf_terms|].
      destruct (c_jumps c); [wf_terms|reflexivity].
  Qed.
  Lemma wf_coup gj : wf_bform 2 nc_coup (coup_form c gj) = true.
  Proof. unfold coup_form. wf_terms. Qed.
  Lemma wf_bnd gj : wf_bform 2 nc_bnd (bnd_form c gj) = true.
  Proof. unfold bnd_form. wf_terms. Qed.

  Lemma wf_st_slab precond n : (n < c_N c)%nat ->
    wf_bform 4 (nc_full c) (st_slab c g om precond n (cntn c n)) = true.
  Proof.
    intro Hn. unfold st_slab, cntn; cbn [k_iq k_cq k_iqs k_cqs].
    rewrite !wf_app. rewrite !andb_true_iff; splits.
    - apply wf_loop2; intros j k Hj Hk. rewrite wf_app; apply andb_true_iff; split; [wf_terms|].
      apply wf_guard; wf_terms.
    - apply wf_loop2; intros j k Hj Hk. wf_terms.
    - apply wf_loop2; intros j k Hj Hk. rewrite wf_app; apply andb_true_iff; split; [wf_terms|].
      apply wf_guard; wf_terms.
    - apply wf_loop2; intros j k Hj Hk. wf_terms.
    - unfold st_dual_jump. destruct (c_jumps c && Nat.ltb 0 n); [wf_terms|reflexivity].
    - apply wf_loop2; intros j k Hj Hk. wf_terms.
    - unfold st_init. destruct (Nat.eqb n 0 && c_wp c); [wf_terms|reflexivity].
    - unfold st_fw_jump. destruct (c_jumps c); [|reflexivity].
      destruct (Nat.ltb_spec 0 n); [cbn [andb]; wf_terms|reflexivity].
    - unfold st_jump. destruct (Nat.ltb_spec 0 n); [|reflexivity].
      destruct precond; wf_terms.
  Qed.
  Lemma wf_st precond : (1 <= c_N c)%nat -> wf_bform 4 (nc_full c) (st_form c g om precond) = true.
  Proof.
    intro HN. rewrite st_form_slabs. unfold wf_bform. cbn [forallb]. apply andb_true_iff; split.
    - wf_terms.
    - apply forallb_forall; intros t Ht. apply in_flat_map in Ht; destruct Ht as [n [Hn Ht]].
      apply in_seq in Hn. pose proof (wf_st_slab precond n ltac:(lia)) as H.
      unfold wf_bform in H; rewrite forallb_forall in H. auto.
  Qed.
  Lemma wf_rhs gd gj xs u1v u1g u2v : (1 <= c_N c)%nat ->
    wf_lform 4 (nc_full c) (rhs_form c om gd gj xs u1v u1g u2v) = true.
  Proof.
    intro HN. unfold rhs_form.
    rewrite (fold_slabs c (fun n s => rhs_data c om gd xs n (k_iq s) ++ rhs_init c gj u1v u1g u2v n)).
    cbn [snd]. unfold wf_lform. rewrite forallb_app. apply andb_true_iff; split; [wf_terms|].
    apply forallb_forall; intros t Ht. apply in_flat_map in Ht; destruct Ht as [n [Hn Ht]].
    apply in_seq in Hn. apply in_app_or in Ht; destruct Ht as [Ht|Ht].
    - unfold rhs_data in Ht. apply in_map_iff in Ht; destruct Ht as [[tau o] [<- _]].
      unfold wf_lterm; cbn [l_m l_o l_wt l_a wf_meas andb]. unfold wf_arg.
      apply andb_true_iff; split; [rewrite map_length, seq_length; reflexivity|].
      apply forallb_forall; intros [r [v i]] Hi. apply in_map_iff in Hi; destruct Hi as [k [Ek Hk]].
      apply in_seq in Hk. injection Ek; intros; subst.
      unfold cntn; cbn [k_iq]. unfold W1. cbn [is_trial blk eqb andb Nat.ltb Nat.leb].
      apply andb_true_iff; split; [apply Z.leb_le|apply Z.ltb_lt];
      unfold nc_full, ntime, sto, z in *; cbn [Nat.ltb Nat.leb]; nia.
    - unfold rhs_init in Ht. destruct (Nat.eqb n 0 && c_wp c); [|destruct Ht].
      destruct Ht as [<-|[<-|[<-|[]]]]; wf_terms.
  Qed.
  Lemma wf_pre gj u1v u1g u2v n : wf_lform 4 (nc_pre c) (pre_lform c gj u1v u1g u2v n) = true.
  Proof.
    unfold pre_lform, wf_lform. rewrite forallb_app. apply andb_true_iff; split; [wf_terms|].
    destruct (Nat.ltb 0 n); [|reflexivity]. rewrite forallb_app. apply andb_true_iff; split; [wf_terms|].
    destruct (c_jumps c); [wf_terms|reflexivity].
  Qed.

  (** * Evaluation of single terms *)
  Variable D : disc.
  Notation sv v := (spc (blk v)).
  Lemma ev_at k w m o1 v1 i1 o2 v2 i2 X Y :
    eval_t D X Y (plus_ k w m o1 (at_ v1 i1) o2 (at_ v2 i2))
    = k * sp D m w o1 (sv v1) o2 (sv v2)
        (pick X Y v1 (blk v1) (Z.to_nat i1)) (pick X Y v2 (blk v2) (Z.to_nat i2)).
  Proof. rewrite eval_t_sum. cbn. unfold at_, Rsum; cbn. ring. Qed.
  Lemma ev_minus k w m o1 a1 o2 a2 X Y :
    eval_t D X Y (minus_ k w m o1 a1 o2 a2) = - eval_t D X Y (plus_ k w m o1 a1 o2 a2).
  Proof. unfold eval_t, minus_, bneg, plus_; cbn. ring. Qed.
  Lemma ev_sub_at k w m o1 v1 i1 i1' o2 v2 i2 X Y :
    eval_t D X Y (plus_ k w m o1 (sub_ v1 i1 i1') o2 (at_ v2 i2))
    = k * sp D m w o1 (sv v1) o2 (sv v2)
        (vsub (pick X Y v1 (blk v1) (Z.to_nat i1)) (pick X Y v1 (blk v1) (Z.to_nat i1')))
        (pick X Y v2 (blk v2) (Z.to_nat i2)).
  Proof. rewrite eval_t_sum. cbn. unfold at_, sub_, Rsum, vsub; cbn. rewrite sp_sub1. ring. Qed.
  Lemma ev_sub_sub k w m o1 v1 i1 i1' o2 v2 i2 i2' X Y :
    eval_t D X Y (plus_ k w m o1 (sub_ v1 i1 i1') o2 (sub_ v2 i2 i2'))
    = k * sp D m w o1 (sv v1) o2 (sv v2)
        (vsub (pick X Y v1 (blk v1) (Z.to_nat i1)) (pick X Y v1 (blk v1) (Z.to_nat i1')))
        (vsub (pick X Y v2 (blk v2) (Z.to_nat i2)) (pick X Y v2 (blk v2) (Z.to_nat i2'))).
  Proof. rewrite eval_t_sum. cbn. unfold at_, sub_, Rsum, vsub; cbn. rewrite sp_sub1, !sp_sub2. ring. Qed.

  (** * The part of the form on one slab *)

  Lemma sh_loop2 nt n a b f : sh nt n (loop2 a b f) = loop2 a b (fun j k => sh nt n (f j k)).
  Proof.
    unfold sh, loop2. rewrite !flat_map_concat_map, concat_map, map_map. f_equal.
    apply map_ext; intro j. rewrite !flat_map_concat_map, concat_map, map_map. reflexivity.
  Qed.
  Lemma loop2_ext {A} a b (f f' : nat -> nat -> list A) :
    (forall j k, f j k = f' j k) -> loop2 a b f = loop2 a b f'.
  Proof.
    intro H. unfold loop2. rewrite !flat_map_concat_map. f_equal. apply map_ext; intro j.
    rewrite !flat_map_concat_map. f_equal. apply map_ext; intro k. apply H.
  Qed.
  Lemma sh_app nt n f h : sh nt n (f ++ h) = sh nt n f ++ sh nt n h.
  Proof. apply map_app. Qed.
  Lemma sh_guard nt n m f : sh nt n (nitsche_guard m f) = nitsche_guard m (sh nt n f).
  Proof. unfold nitsche_guard. destruct (Rlt_dec _ _); reflexivity. Qed.

  Ltac sh_terms :=
    unfold sh, sh_t, sh_arg, plus_, minus_, bneg, at_, U1, U2, Z1, Z2, W1, W2, Y1, Y2;
    cbn -[Z.add Z.of_nat Nat.mul ntime c_el];
    unfold ntime, sto, z; cbn [Nat.ltb Nat.leb];
    repeat (f_equal; try lia).

  Lemma st_fw_sh n : st_fw c (z (n * nq)) (z (n * nqs)) = sh (ntime c) n (sl_fw c).
  Proof.
    unfold st_fw, sl_fw. rewrite sh_loop2. apply loop2_ext; intros j k.
    rewrite sh_app, sh_guard. f_equal; [|f_equal]; sh_terms.
  Qed.
  Lemma st_data_sh n : st_data c g om (z (n * nq)) = sh (ntime c) n (sl_data c g om).
  Proof. unfold st_data, sl_data. rewrite sh_loop2. apply loop2_ext; intros j k. sh_terms. Qed.
  Lemma st_adj_sh n : st_adj c (z (n * nq)) (z (n * nqs)) = sh (ntime c) n (sl_adj c).
  Proof.
    unfold st_adj, sl_adj. rewrite sh_loop2. apply loop2_ext; intros j k.
    rewrite sh_app, sh_guard. f_equal; [|f_equal]; sh_terms.
  Qed.
  Lemma st_dual_sh n : st_dual c g (z (n * nqs)) = sh (ntime c) n (sl_dual c g).
  Proof. unfold st_dual, sl_dual. rewrite sh_loop2. apply loop2_ext; intros j k. sh_terms. Qed.
  Lemma st_primal_sh n : st_primal c g (z (n * nq)) = sh (ntime c) n (sl_primal c g).
  Proof. unfold st_primal, sl_primal. rewrite sh_loop2. apply loop2_ext; intros j k. sh_terms. Qed.

  (** the common part of the slab forms *)
  Definition core : bform :=
    sl_fw c ++ sl_data c g om ++ sl_adj c ++ sl_dual c g ++ sl_primal c g.

  Lemma wf_nonneg nb nc f : wf_bform nb nc f = true -> Forall nonneg_t f.
  Proof.
    unfold wf_bform. rewrite forallb_forall. intro H. apply Forall_forall; intros t Ht.
    specialize (H t Ht). unfold wf_bterm in H. apply andb_true_iff in H; destruct H as [_ H].
    apply orb_true_iff in H. destruct H as [H|H]; apply andb_true_iff in H; destruct H as [H1 H2];
    split; intros r v i Hin;
    first [apply (wf_arg_all _ _ _ _ H1 _ _ _ Hin) | apply (wf_arg_all _ _ _ _ H2 _ _ _ Hin)].
  Qed.
  Lemma wf_core : wf_bform 4 (nc_pre c) core = true.
  Proof.
    pose proof (wf_slab false) as H. unfold slab_form in H. rewrite !wf_app in H.
    rewrite !andb_true_iff in H. decompose [and] H.
    unfold core. rewrite !wf_app. rewrite !andb_true_iff; splits; assumption.
  Qed.

  (** jump terms, at coefficient level: X j i and X j i' are the first
      component on a slab and the last component on the slab before *)
  Definition lastc (n : nat) : nat := (n * nq - 1)%nat.
  Definition en (dt : R) (a1 a2 b1 b2 : vec) : R :=
    1 / dt * L2 D Vp Vp a1 b1 + dt * H1 D Vp Vp a1 b1 + 1 / dt * L2 D Vp Vp a2 b2.
  Definition jmp (X : field) (j n : nat) : vec := vsub (X j (n * nq)%nat) (X j (lastc n)).

  Definition slab_extra (precond : bool) (n : nat) (X Y : field) : R :=
    (if c_jumps c && Nat.ltb 0 n then
       - (g_dual g * (c_dt c * (L2 D Vd Vd (Y 3%nat (n * nqs)%nat) (X 3%nat (n * nqs)%nat)
                               + L2 D Vd Vd (Y 2%nat (n * nqs)%nat) (X 2%nat (n * nqs)%nat))))
       + (1 + c_eps c) * (L2 D Vp Vd (jmp Y 1 n) (X 2%nat (n * nqs)%nat) + L2 D Vp Vd (jmp Y 0 n) (X 3%nat (n * nqs)%nat))
       + (1 + c_eps c) * (L2 D Vp Vd (jmp X 1 n) (Y 2%nat (n * nqs)%nat) + L2 D Vp Vd (jmp X 0 n) (Y 3%nat (n * nqs)%nat))
     else 0)
    + (if Nat.eqb n 0 && c_wp c then g_jump g * en (c_dt c) (X 0%nat 0%nat) (X 1%nat 0%nat) (Y 0%nat 0%nat) (Y 1%nat 0%nat) else 0)
    + (if Nat.ltb 0 n then
        g_jump g * (if precond then en (c_dt c) (jmp X 0 n) (jmp X 1 n) (Y 0%nat (n * nq)%nat) (Y 1%nat (n * nq)%nat)
          else en (c_dt c) (jmp X 0 n) (jmp X 1 n) (jmp Y 0 n) (jmp Y 1 n)) else 0).

  Lemma to_nat_z a : Z.to_nat (z a) = a.
  Proof. apply Nat2Z.id. Qed.
  Ltac idx :=
    unfold cntn; cbn [k_iq k_cq k_iqs k_cqs];
    repeat match goal with
    | |- context [(z ?a - 1 + 1)%Z] => replace (z a - 1 + 1)%Z with (z a) by lia
    | |- context [Z.to_nat (z ?a - 1)] => replace (Z.to_nat (z a - 1)) with (a - 1)%nat by (unfold z; lia)
    | |- context [Z.to_nat (z ?a)] => rewrite (to_nat_z a)
    end; change (Z.to_nat 0) with 0%nat; change (Z.to_nat 1) with 1%nat.

  Lemma eval_st_slab precond n X Y :
    eval D (st_slab c g om precond n (cntn c n)) X Y
    = eval D core (restr (ntime c) n X) (restr (ntime c) n Y) + slab_extra precond n X Y.
  Proof.
    unfold st_slab. rewrite !eval_app.
    rewrite <- (eval_sh (ntime c)) by (apply (wf_nonneg 4 (nc_pre c)); apply wf_core).
    unfold core. rewrite !sh_app, !eval_app.
    unfold cntn; cbn [k_iq k_cq k_iqs k_cqs].
    fold nq nqs. rewrite st_fw_sh, st_data_sh, st_adj_sh, st_dual_sh, st_primal_sh.
    match goal with |- ?a + (?b + (?cc + (?d + (?e + (?f + (?g1 + (?h + ?i))))))) = ?a + (?b + (?cc + (?d + ?f))) + ?rhs =>
      assert (G : e + g1 + h + i = rhs); [|lra] end.
    unfold slab_extra, st_dual_jump, st_init, st_fw_jump, st_jump, lastc, jmp, en.
    unfold L2, H1.
    destruct (c_jumps c), (Nat.ltb_spec 0 n), (c_wp c), precond;
      (destruct (Nat.eqb_spec n 0); [try lia|try lia]); cbn [andb];
      rewrite ?eval_cons, ?eval_nil, ?ev_minus, ?ev_at, ?ev_sub_at, ?ev_sub_sub;
      unfold lastc; idx; cbn [spc blk pick is_trial U1 U2 Z1 Z2 W1 W2 Y1 Y2 Nat.ltb Nat.leb];
      try lra; try ring.
  Qed.

  (** the space-time form as a sum over slabs *)
  Definition regterm (X Y : field) : R := reg * L2 D Vp Vd (X 0%nat 0%nat) (Y 2%nat 0%nat).
  Lemma eval_st precond X Y :
    eval D (st_form c g om precond) X Y
    = regterm X Y + sumn (c_N c) (fun n =>
        eval D core (restr (ntime c) n X) (restr (ntime c) n Y) + slab_extra precond n X Y).
  Proof.
    rewrite st_form_slabs, eval_cons, eval_flat_map, ev_at. f_equal.
    apply Rsum_ext; intro n. apply eval_st_slab.
  Qed.
  (** the slab matrices *)
  Definition slab_extra_pre (b : bool) (X Y : field) : R :=
    if b then
      g_jump g * en (c_dt c) (X 0%nat 0%nat) (X 1%nat 0%nat) (Y 0%nat 0%nat) (Y 1%nat 0%nat)
      + (if c_jumps c then
         - (g_dual g * (c_dt c * (L2 D Vd Vd (Y 3%nat 0%nat) (X 3%nat 0%nat) + L2 D Vd Vd (Y 2%nat 0%nat) (X 2%nat 0%nat))))
         + (1 + c_eps c) * (L2 D Vd Vp (Y 2%nat 0%nat) (X 1%nat 0%nat) + L2 D Vd Vp (Y 3%nat 0%nat) (X 0%nat 0%nat))
         else 0)
    else 0.
  Lemma eval_slab b X Y :
    eval D (slab_form c g om b) X Y = regterm X Y + eval D core X Y + slab_extra_pre b X Y.
  Proof.
    unfold slab_form, core. rewrite !eval_app, eval_cons, eval_nil, ev_at.
    match goal with |- ?r + 0 + (?a + (?b0 + (?cc + (?d + (?e + (?f + ?i)))))) = ?r' + ?core0 + ?rhs =>
      assert (G : e + i = rhs); [|rewrite <- G] end.
    2: { unfold regterm, L2. unfold U1, Y1. cbn. ring. }
    unfold slab_extra_pre, sl_dual_jump, sl_jump, en, L2, H1.
    destruct b, (c_jumps c); cbn [andb app];
      rewrite ?eval_cons, ?eval_nil, ?ev_minus, ?ev_at, ?ev_sub_at, ?ev_sub_sub;
      idx; cbn [spc blk pick is_trial U1 U2 Z1 Z2 W1 W2 Y1 Y2 Nat.ltb Nat.leb]; ring.
  Qed.
  Lemma eval_coup gj X Y :
    eval D (coup_form c gj) X Y
    = reg * L2 D Vp Vp (X 0%nat 0%nat) (Y 0%nat 0%nat)
      + gj * en (c_dt c) (vsub (X 0%nat 1%nat) (X 0%nat 0%nat)) (vsub (X 1%nat 1%nat) (X 1%nat 0%nat))
             (vsub (Y 0%nat 1%nat) (Y 0%nat 0%nat)) (vsub (Y 1%nat 1%nat) (Y 1%nat 0%nat)).
  Proof.
    unfold coup_form, en, L2, H1.
    rewrite ?eval_cons, ?eval_nil, ?ev_minus, ?ev_at, ?ev_sub_at, ?ev_sub_sub;
      idx; cbn [spc blk pick is_trial U1 U2 Z1 Z2 W1 W2 Y1 Y2 Nat.ltb Nat.leb]; ring.
  Qed.
  Lemma eval_bnd gj X Y :
    eval D (bnd_form c gj) X Y
    = gj * en (c_dt c) (X 0%nat 0%nat) (X 1%nat 0%nat) (Y 0%nat 0%nat) (Y 1%nat 0%nat).
  Proof.
    unfold bnd_form, en, L2, H1.
    rewrite ?eval_cons, ?eval_nil, ?ev_minus, ?ev_at, ?ev_sub_at, ?ev_sub_sub;
      idx; cbn [spc blk pick is_trial U1 U2 Z1 Z2 W1 W2 Y1 Y2 Nat.ltb Nat.leb]; ring.
  Qed.
End Blocks.
