(** FormC12.v -- every part of the forms equals its specification as a
    space-time integral. *)
From Coq Require Import Reals List ZArith Lra Lia Bool String.
From Coquelicot Require Import Coquelicot.
From Verif Require Import Base TimeModel TimeSpec TimeProofs QuadProofs FormModel FormSpec FormProofs
  SpaceTimeForms FormBlocks GuardProofs FormTime.
Import ListNotations.
Open Scope R_scope.

Lemma eval_guard D m f X Y : (m = 0 \/ 1e-10 < Rabs m) -> (m = 0 -> eval D f X Y = 0) ->
  eval D (nitsche_guard m f) X Y = eval D f X Y.
Proof.
  intros H H0. unfold nitsche_guard. destruct (Rlt_dec _ _) as [h|h]; [reflexivity|].
  destruct H as [H|H]; [|contradiction]. rewrite (H0 H). reflexivity.
Qed.

  Lemma integ_one D0 m w o1 s1 o2 s2 a b : ncomp D0 o1 = 1%nat ->
    integ D0 m w 1 (fun p _ => fev D0 m s1 o1 a p 0) (fun p _ => fev D0 m s2 o2 b p 0)
    = sp D0 m w o1 s1 o2 s2 a b.
  Proof.
    intro H. unfold sp. rewrite H. apply integ_ext; intros p k Hk; replace k with 0%nat by lia; reflexivity.
  Qed.
  Lemma integ_sub_l D0 m w nc f f' h :
    integ D0 m w nc (fun p k => f p k - f' p k) h = integ D0 m w nc f h - integ D0 m w nc f' h.
  Proof.
    unfold integ. rewrite <- Rsum_minus. apply Rsum_ext; intro p.
    rewrite (Rsum_ext _ _ (fun k => f p k * h p k - f' p k * h p k)) by (intro; ring).
    rewrite Rsum_minus. ring.
  Qed.
  Lemma integ_sub_r D0 m w nc f h h' :
    integ D0 m w nc f (fun p k => h p k - h' p k) = integ D0 m w nc f h - integ D0 m w nc f h'.
  Proof. rewrite integ_comm, integ_sub_l, integ_comm, (integ_comm _ _ _ _ h'). reflexivity. Qed.

  (** ** traces and jumps *)
  Lemma en_ext D dt a1 a2 b1 b2 a1' a2' b1' b2' :
    (forall l, a1 l = a1' l) -> (forall l, a2 l = a2' l) -> (forall l, b1 l = b1' l) -> (forall l, b2 l = b2' l) ->
    en D dt a1 a2 b1 b2 = en D dt a1' a2' b1' b2'.
  Proof.
    intros E1 E2 E3 E4. unfold en, L2, H1.
    rewrite (sp_ext D Dx WOne Val Vp Val Vp a1 b1 a1' b1'), (sp_ext D Dx WOne Grad Vp Grad Vp a1 b1 a1' b1'),
      (sp_ext D Dx WOne Val Vp Val Vp a2 b2 a2' b2') by auto. reflexivity.
  Qed.
  Lemma L2_ext D s s' a b a' b' : (forall l, a l = a' l) -> (forall l, b l = b' l) ->
    L2 D s s' a b = L2 D s s' a' b'.
  Proof. intros; apply sp_ext; auto. Qed.
Section C12.
  Variables (P : params) (c : config) (g : gammas) (om : nat -> R) (D : disc).
  Hypothesis HB : built P c.
  Hypothesis Hdt : 0 < c_dt c.
  Let d := td c.
  Let Hq := q_le P c HB.
  Let Hqs := qs_le P c HB.
  Notation r n X := (restr (ntime c) n X).

  Ltac terms :=
    rewrite ?eval_app, ?eval_cons, ?eval_nil, ?ev_minus, ?ev_at, ?to_nat_z;
    cbn [spc blk pick is_trial U1 U2 Z1 Z2 W1 W2 Y1 Y2 Nat.ltb Nat.leb].

  Lemma eval_fw X Y : eval D (sl_fw c) X Y
    = sumn (S (c_q c)) (fun j => sumn (S (c_qs c)) (fun k =>
        let M := mget (M_time_q_qstar (c_el c)) k j in let DM := mget (DM_time_q_qstar (c_el c)) k j in
        DM * sp D Dx WOne Val Vp Val Vd (X 1%nat j) (Y 2%nat k)
        + c_dt c * M * sp D Dx WOne Grad Vp Grad Vd (X 0%nat j) (Y 2%nat k)
        + DM * sp D Dx WOne Val Vp Val Vd (X 0%nat j) (Y 3%nat k)
        - c_dt c * M * sp D Dx WOne Val Vp Val Vd (X 1%nat j) (Y 3%nat k)
        - c_dt c * M * sp D Ds WOne NGrad Vp Val Vd (X 0%nat j) (Y 2%nat k))).
  Proof.
    unfold sl_fw. rewrite eval_loop2. apply dsum_ext; intros j k Hj Hk. cbn zeta.
    rewrite eval_app, eval_guard.
    - terms. ring.
    - apply (guard_entries _ _ _ (bu_el _ _ HB)); rewrite <- ?(bu_cq _ _ HB), <- ?(bu_cqs _ _ HB); lia.
    - intro E. terms. rewrite E. ring.
  Qed.
  Lemma eval_adj X Y : eval D (sl_adj c) X Y = eval D (sl_fw c) Y X.
  Proof.
    unfold sl_adj, sl_fw. rewrite !eval_loop2. apply dsum_ext; intros j k Hj Hk.
    rewrite !eval_app. unfold nitsche_guard. destruct (Rlt_dec _ _); terms; ring.
  Qed.

  Ltac to_sums := repeat first [rewrite dsum_plus | rewrite dsum_minus].
  (** solves is_RInt goals whose integrand is a combination of sp's *)
  Ltac ints :=
    lazymatch goal with
    | |- is_RInt (fun t => _ + _) _ _ _ => eapply is_RInt_plus_R; ints
    | |- is_RInt (fun t => _ - _) _ _ _ => eapply is_RInt_minus_R; ints
    | |- is_RInt (fun t => sp _ _ _ _ _ _ _ (ddt _ _) (ddt _ _)) _ _ _ => eapply (int_dd c D Hdt Hq Hqs)
    | |- is_RInt (fun t => sp _ _ _ _ _ _ _ (ddt _ _) _) _ _ _ => eapply (int_dv c D Hdt Hq Hqs)
    | |- is_RInt (fun t => sp _ _ _ _ _ _ _ _ (ddt _ _)) _ _ _ => eapply (int_vd c D Hdt Hq Hqs)
    | |- is_RInt (fun t => sp _ _ _ _ _ _ _ _ _) _ _ _ => eapply (int_vv c D Hdt Hq Hqs)
    end.

  Lemma wave_slab U Y n : wave D d U Y n = eval D (sl_fw c) (r n U) (r n Y).
  Proof.
    unfold wave, over_slab. apply is_RInt_unique_R.
    eapply is_RInt_eq.
    - eapply (is_RInt_ext_R (fun t =>
        sp D Dx WOne Val Vp Val Vd (ddt (at_time d U 1 n) t) (at_time d Y 2 n t)
        + sp D Dx WOne Grad Vp Grad Vd (at_time d U 0 n t) (at_time d Y 2 n t)
        - sp D Ds WOne NGrad Vp Val Vd (at_time d U 0 n t) (at_time d Y 2 n t)
        + (sp D Dx WOne Val Vp Val Vd (ddt (at_time d U 0 n) t) (at_time d Y 3 n t)
           - sp D Dx WOne Val Vp Val Vd (at_time d U 1 n t) (at_time d Y 3 n t)))).
      + intro t. cbn zeta. unfold L2, H1, flux, vsub. rewrite sp_sub1. reflexivity.
      + ints.
    - rewrite eval_fw. cbn [ord Nat.ltb Nat.leb t_q t_qs td d]. to_sums.
      apply dsum_ext; intros j k Hj Hk.
      destruct (el_entries P c HB) as [E _]. destruct (E k j Hk Hj) as [EM ED].
      cbn zeta. rewrite EM, ED. ring.
  Qed.
  Lemma adj_slab X Y n : wave D d Y X n = eval D (sl_adj c) (r n X) (r n Y).
  Proof. rewrite eval_adj. apply wave_slab. Qed.

  Lemma data_slab U W n : g_data g * data D d om U W n = eval D (sl_data c g om) (r n U) (r n W).
  Proof.
    unfold sl_data. rewrite eval_loop2. unfold data, over_slab.
    erewrite is_RInt_unique_R; [|unfold L2w; ints].
    cbn [ord Nat.ltb Nat.leb t_q t_qs td d]. rewrite dsum_scal.
    apply dsum_ext; intros j k Hj Hk. terms.
    destruct (el_entries P c HB) as [_ [E _]]. destruct (E k j Hk Hj) as [EM _].
    rewrite EM. ring.
  Qed.
  Lemma dual_slab Y Z n : - (g_dual g * dual D d (c_lam c) Y Z n) = eval D (sl_dual c g) (r n Z) (r n Y).
  Proof.
    unfold sl_dual. rewrite eval_loop2. unfold dual, over_slab.
    erewrite is_RInt_unique_R; [|unfold L2, H1, bndw; ints].
    cbn [ord Nat.ltb Nat.leb t_q t_qs td d]. to_sums.
    rewrite Ropp_mult_distr_l, dsum_scal.
    apply dsum_ext; intros j k Hj Hk. terms.
    destruct (el_entries P c HB) as [_ [_ E]]. rewrite (E k j Hk Hj). ring.
  Qed.

  Lemma primal_slab U W n :
    g_primal g * primal D d (c_lam c) U W n = eval D (sl_primal c g) (r n U) (r n W).
  Proof.
    unfold sl_primal. rewrite eval_loop2. unfold primal, over_slab.
    erewrite is_RInt_unique_R.
    2: { eapply (is_RInt_ext_R (fun t =>
         let u1 := at_time d U 0 n in let u2 := at_time d U 1 n in
         let w1 := at_time d W 0 n in let w2 := at_time d W 1 n in
         sp D Dx WOne Val Vp Val Vp (ddt u1 t) (ddt w1 t)
         - sp D Dx WOne Val Vp Val Vp (ddt u1 t) (w2 t)
         - sp D Dx WOne Val Vp Val Vp (u2 t) (ddt w1 t)
         + sp D Dx WOne Val Vp Val Vp (u2 t) (w2 t)
         + sp D Dx WH2 Val Vp Val Vp (ddt u2 t) (ddt w2 t)
         - sp D Dx WH2 Val Vp Lap Vp (ddt u2 t) (w1 t)
         - sp D Dx WH2 Lap Vp Val Vp (u1 t) (ddt w2 t)
         + sp D Dx WH2 Lap Vp Lap Vp (u1 t) (w1 t)
         + sp D Ds (WLamH (c_lam c)) Val Vp Val Vp (u1 t) (w1 t)
         + sp D DS WHavg JumpGrad Vp JumpGrad Vp (u1 t) (w1 t))).
       - intro t. cbn zeta. unfold L2, vsub, bndw, facet, res2.
         rewrite sp_sub1, !sp_sub2, integ_sub_l, !integ_sub_r, !integ_one by reflexivity. ring.
       - cbn zeta. ints. }
    cbn [ord Nat.ltb Nat.leb t_q t_qs td d]. to_sums. rewrite dsum_scal.
    apply dsum_ext; intros j k Hj Hk. terms.
    destruct (el_entries P c HB) as [_ [E _]].
    destruct (E k j Hk Hj) as [EM [ED EDD]]. destruct (E j k Hj Hk) as [_ [ED' _]].
    rewrite EM, ED, EDD, ED'. ring.
  Qed.

  Lemma energy_en a1 a2 b1 b2 : energy D d a1 a2 b1 b2 = en D (c_dt c) a1 a2 b1 b2.
  Proof. reflexivity. Qed.
  Lemma jumpv_jmp X j n l : (1 <= n)%nat -> (j < 2)%nat -> jumpv d X j n l = jmp c X j n l.
  Proof.
    intros Hn Hj. unfold jumpv, jmp, vsub, lastc.
    rewrite (upper_coef c Hdt Hq Hqs), (lower_coef c Hdt Hq Hqs) by exact Hn.
    unfold ntime, sto. destruct (Nat.ltb_spec j 2); [reflexivity|lia].
  Qed.
  Lemma upper_p X j n l : (j < 2)%nat -> upper d X j n l = X j (n * S (c_q c))%nat l.
  Proof.
    intros Hj. rewrite (upper_coef c Hdt Hq Hqs). unfold ntime, sto. destruct (Nat.ltb_spec j 2); [reflexivity|lia].
  Qed.
  Lemma upper_d X j n l : (2 <= j)%nat -> upper d X j n l = X j (n * S (c_qs c))%nat l.
  Proof.
    intros Hj. rewrite (upper_coef c Hdt Hq Hqs). unfold ntime, sto. destruct (Nat.ltb_spec j 2); [lia|reflexivity].
  Qed.

  (** the slab part of the form *)
  Definition slab_spec (X Y : field) (n : nat) : R :=
    wave D d X Y n + wave D d Y X n + g_data g * data D d om X Y n
    - g_dual g * dual D d (c_lam c) Y X n + g_primal g * primal D d (c_lam c) X Y n.
  Lemma core_slab X Y n : eval D (core c g om) (r n X) (r n Y) = slab_spec X Y n.
  Proof.
    unfold core, slab_spec. rewrite !eval_app, <- wave_slab, <- data_slab, <- adj_slab, <- dual_slab, <- primal_slab.
    ring.
  Qed.
  Definition extra_spec (precond : bool) (X Y : field) (n : nat) : R :=
    (if Nat.ltb 0 n then
       g_jump g * (if precond then jumps_pre D d X Y n else jumps D d X Y n)
       + (if c_jumps c then
            (1 + c_eps c) * (fwjumps D d X Y n + fwjumps D d Y X n) - g_dual g * dualjumps D d Y X n
          else 0)
     else if c_wp c then g_jump g * init D d X Y else 0).
  Lemma extra_slab precond X Y n : slab_extra c g D precond n X Y = extra_spec precond X Y n.
  Proof.
    unfold slab_extra, extra_spec.
    destruct (Nat.ltb_spec 0 n) as [Hn|Hn].
    - destruct (Nat.eqb_spec n 0); [lia|]. cbn [andb].
      assert (EJ : g_jump g * (if precond then en D (c_dt c) (jmp c X 0 n) (jmp c X 1 n) (Y 0%nat (n * S (c_q c))%nat) (Y 1%nat (n * S (c_q c))%nat)
          else en D (c_dt c) (jmp c X 0 n) (jmp c X 1 n) (jmp c Y 0 n) (jmp c Y 1 n))
          = g_jump g * (if precond then jumps_pre D d X Y n else jumps D d X Y n)).
      { f_equal. destruct precond; [unfold jumps_pre|unfold jumps]; rewrite energy_en;
        symmetry; apply en_ext; intro l; first [apply jumpv_jmp; lia | apply upper_p; lia]. }
      rewrite EJ, andb_true_r. destruct (c_jumps c); [|ring].
      unfold fwjumps, dualjumps.
      rewrite (L2_ext D _ _ (jumpv d X 1 n) (upper d Y 2 n) (jmp c X 1 n) (Y 2%nat (n * S (c_qs c))%nat)),
        (L2_ext D _ _ (jumpv d X 0 n) (upper d Y 3 n) (jmp c X 0 n) (Y 3%nat (n * S (c_qs c))%nat)),
        (L2_ext D _ _ (jumpv d Y 1 n) (upper d X 2 n) (jmp c Y 1 n) (X 2%nat (n * S (c_qs c))%nat)),
        (L2_ext D _ _ (jumpv d Y 0 n) (upper d X 3 n) (jmp c Y 0 n) (X 3%nat (n * S (c_qs c))%nat)),
        (L2_ext D _ _ (upper d Y 3 n) (upper d X 3 n) (Y 3%nat (n * S (c_qs c))%nat) (X 3%nat (n * S (c_qs c))%nat)),
        (L2_ext D _ _ (upper d Y 2 n) (upper d X 2 n) (Y 2%nat (n * S (c_qs c))%nat) (X 2%nat (n * S (c_qs c))%nat))
        by (intro l; first [apply jumpv_jmp; lia | apply upper_d; lia]).
      cbn [t_dt td d]. ring.
    - replace n with 0%nat by lia. rewrite andb_false_r. cbn [Nat.eqb andb].
      destruct (c_wp c); [|ring]. unfold init. rewrite energy_en.
      rewrite (en_ext D (c_dt c) (upper d X 0 0) (upper d X 1 0) (upper d Y 0 0) (upper d Y 1 0)
        (X 0%nat 0%nat) (X 1%nat 0%nat) (Y 0%nat 0%nat) (Y 1%nat 0%nat)); [ring| | | |];
      intro l; rewrite upper_p by lia; reflexivity.
  Qed.
  Lemma st_form_spec precond X Y :
    eval D (st_form c g om precond) X Y
    = 1e-20 * L2 D Vp Vd (X 0%nat 0%nat) (Y 2%nat 0%nat)
      + sumn (c_N c) (fun n => slab_spec X Y n + extra_spec precond X Y n).
  Proof.
    rewrite eval_st. f_equal. apply Rsum_ext; intro n. rewrite core_slab, extra_slab. reflexivity.
  Qed.
End C12.
