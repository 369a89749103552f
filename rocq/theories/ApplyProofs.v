(** ApplyProofs.v -- apply_spacetime_matrix computes the product with the
    assembled space-time matrix, up to the 1e-20 terms that every slab and
    coupling form carries, in the default mode (C20-C23). *)
From Coq Require Import Reals List ZArith Lra Lia Bool.
From Verif Require Import Base TimeModel FormModel FormSpec FormProofs SpaceTimeForms SpaceTimeModel FormBlocks SlabOps.
Import ListNotations.
Open Scope R_scope.

(** dof numberings of the four spaces are well formed *)
Record env_ok (E : env) : Prop := {
  eo_N : (1 <= c_N (e_c E))%nat;
  eo_f : lay_ok (e_D E) 4 (nc_full (e_c E)) (e_Lf E);
  eo_p : lay_ok (e_D E) 4 (nc_pre (e_c E)) (e_Lp E);
  eo_c : lay_ok (e_D E) 2 nc_coup (e_Lc E);
  eo_b : lay_ok (e_D E) 2 nc_bnd (e_Lb E) }.

Lemma slabs_ok c body (P : nat -> state -> Prop) m :
  forall a s,
  (forall n s, (a <= n < a + m)%nat -> P n s -> exists s', body n (cntn c n) s = (Ok tt, s') /\ P (S n) s') ->
  P a s ->
  exists s', slabs c body (seq a m) (cntn c a) s = (Ok tt, s') /\ P (a + m)%nat s'.
Proof.
  induction m as [|m IH]; intros a s Hb Ha; cbn [seq slabs].
  - exists s. rewrite Nat.add_0_r. split; [reflexivity|exact Ha].
  - destruct (Hb a s ltac:(lia) Ha) as [s1 [E1 H1]].
    unfold bind at 1. rewrite E1. rewrite cnt_next_n.
    destruct (IH (S a) s1) as [s2 [E2 H2]]; [|exact H1|].
    + intros n s0 Hn. apply Hb. lia.
    + exists s2. split; [exact E2|]. replace (a + S m)%nat with (S a + m)%nat by lia. exact H2.
Qed.
Lemma cnt0_n c : cnt0 = cntn c 0.
Proof. reflexivity. Qed.

(** the scratch vectors of apply_spacetime_matrix, and caller vectors, are all that changed *)
Definition scr (s s' : state) : Prop :=
  exists h a b d e, s' = w_heap h (w_vs1 a (w_vs2 b (w_vc1 d (w_vc2 e s)))).
Lemma scr_refl s : scr s s.
Proof. exists (s_heap s), (s_vs1 s), (s_vs2 s), (s_vc1 s), (s_vc2 s). destruct s; reflexivity. Qed.
Lemma scr_trans s1 s2 s3 : scr s1 s2 -> scr s2 s3 -> scr s1 s3.
Proof.
  intros [h1 [a1 [b1 [d1 [e1 E1]]]]] [h2 [a2 [b2 [d2 [e2 E2]]]]].
  exists h2, a2, b2, d2, e2. subst. destruct s1; reflexivity.
Qed.

Lemma scr_put i v s : scr s (put i v s).
Proof. eexists _, (s_vs1 s), (s_vs2 s), (s_vc1 s), (s_vc2 s). destruct s; reflexivity. Qed.
Lemma scr_vs1 a s : scr s (w_vs1 a s).
Proof. exists (s_heap s), a, (s_vs2 s), (s_vc1 s), (s_vc2 s). destruct s; reflexivity. Qed.
Lemma scr_vs2 a s : scr s (w_vs2 a s).
Proof. exists (s_heap s), (s_vs1 s), a, (s_vc1 s), (s_vc2 s). destruct s; reflexivity. Qed.
Lemma scr_vc1 a s : scr s (w_vc1 a s).
Proof. exists (s_heap s), (s_vs1 s), (s_vs2 s), a, (s_vc2 s). destruct s; reflexivity. Qed.
Lemma scr_vc2 a s : scr s (w_vc2 a s).
Proof. exists (s_heap s), (s_vs1 s), (s_vs2 s), (s_vc1 s), a. destruct s; reflexivity. Qed.
Ltac solve_scr := repeat (eapply scr_trans; [|first [apply scr_put|apply scr_vs1|apply scr_vs2|apply scr_vc1|apply scr_vc2]]); apply scr_refl.

Section Apply.
  Variable E : env.
  Notation c := (e_c E).
  Notation D := (e_D E).
  Hypothesis HE : env_ok E.
  Variables (g : gammas) (gj : R) (om : nat -> R).

  (** the matrices and scratch vectors needed are there *)
  Definition ready (s : state) : Prop :=
    s_fes s = true /\ s_vs1 s <> None /\ s_njm s = Some (assemble D (e_Lp E) (slab_form c g om false))
    /\ ((1 < c_N c)%nat -> s_vc1 s <> None /\ s_com s = Some (assemble D (e_Lc E) (coup_form c gj))).

  Definition aS (n : nat) (X Y : field) : R :=
    eval D (slab_form c g om false) (restr (ntime c) n X) (restr (ntime c) n Y).
  Definition aC (n : nat) (X Y : field) : R :=
    if Nat.ltb 0 n then eval D (coup_form c gj) (pull (up_coup c n) X) (pull (up_coup c n) Y) else 0.

  Lemma slab_mult n x w out I :
    (n < c_N c)%nat -> (I < lay_dim (e_Lf E))%nat ->
    move true (e_Lf E) (e_Lp E) (flip_pairs (slab_pairs c (cntn c n)))
      (mult (lay_dim (e_Lp E)) (assemble D (e_Lp E) (slab_form c g om false))
         (move false (e_Lp E) (e_Lf E) (slab_pairs c (cntn c n)) x w)) out I
    = out I + aS n (field_of (e_Lf E) x) (field_of (e_Lf E) (unitv I)).
  Proof.
    intros Hn HI. rewrite slab_pairs_emb.
    apply (mult_slab_spec D 4 4 (nc_full c) (nc_pre c) _ _ (eo_f _ HE) (eo_p _ HE) (up_slab c n) (slab_idx c)).
    - intros j i H. apply in_slab_idx in H. exact H.
    - apply nodup_slab_idx.
    - lia.
    - intros j i H. apply up_slab_lt; auto.
    - intros j i i' _ _ H. unfold up_slab in H. lia.
    - intros j i H1 H2. apply in_slab_idx. auto.
    - apply wf_slab.
    - exact HI.
  Qed.
  Lemma coup_mult n x w out I :
    (0 < n)%nat -> (n < c_N c)%nat -> (I < lay_dim (e_Lf E))%nat ->
    move true (e_Lf E) (e_Lc E) (flip_pairs (coup_pairs (cntn c n)))
      (mult (lay_dim (e_Lc E)) (assemble D (e_Lc E) (coup_form c gj))
         (move false (e_Lc E) (e_Lf E) (coup_pairs (cntn c n)) x w)) out I
    = out I + eval D (coup_form c gj) (pull (up_coup c n) (field_of (e_Lf E) x)) (pull (up_coup c n) (field_of (e_Lf E) (unitv I))).
  Proof.
    intros H0 Hn HI. rewrite coup_pairs_emb by exact H0.
    apply (mult_slab_spec D 4 2 (nc_full c) nc_coup _ _ (eo_f _ HE) (eo_c _ HE) (up_coup c n) coup_idx).
    - intros j i H. apply in_coup_idx in H. exact H.
    - apply nodup_coup_idx.
    - lia.
    - intros j i H. apply up_coup_lt; auto.
    - intros j i i' _ _ H. unfold up_coup in H. lia.
    - intros j i H1 H2. apply in_coup_idx. auto.
    - apply wf_coup.
    - exact HI.
  Qed.

  Lemma put_same i v s : s_heap (put i v s) i = v.
  Proof. cbn. rewrite Nat.eqb_refl. reflexivity. Qed.
  Lemma put_other i v s k : k <> i -> s_heap (put i v s) k = s_heap s k.
  Proof. intro H. cbn. apply Nat.eqb_neq in H. rewrite H. reflexivity. Qed.

  Lemma apply_slab_ok vi vo n s :
    vi <> vo -> (n < c_N c)%nat -> ready s ->
    exists s', apply_slab E vi vo n (cntn c n) s = (Ok tt, s') /\ scr s s' /\ ready s'
      /\ (forall k, k <> vo -> s_heap s' k = s_heap s k)
      /\ forall I, (I < lay_dim (e_Lf E))%nat ->
         s_heap s' vo I = s_heap s vo I
           + (aS n (field_of (e_Lf E) (s_heap s vi)) (field_of (e_Lf E) (unitv I))
              + aC n (field_of (e_Lf E) (s_heap s vi)) (field_of (e_Lf E) (unitv I))).
  Proof.
    intros Hv Hn [Hf [H1 [Hm Hc2]]].
    destruct (s_vs1 s) as [v1|] eqn:E1; [|congruence].
    unfold apply_slab, need_fes, err_if, bind, get, need, modify, ret, raise.
    rewrite Hf. cbn [negb]. cbv beta iota zeta. rewrite E1. cbv beta iota zeta.
    cbn [s_njm w_vs1 w_vs2 put w_heap s_heap]. rewrite Hm. cbv beta iota zeta.
    set (v1' := move false (e_Lp E) (e_Lf E) (slab_pairs c (cntn c n)) (s_heap s vi) v1).
    set (v2 := mult (lay_dim (e_Lp E)) (assemble D (e_Lp E) (slab_form c g om false)) v1').
    cbn [s_heap w_vs1 w_vs2 s_vc1 w_heap put].
    set (o1 := move true (e_Lf E) (e_Lp E) (flip_pairs (slab_pairs c (cntn c n))) v2 (s_heap s vo)).
    unfold aC.
    destruct (Nat.ltb_spec 0 n) as [H0|H0].
    - destruct (Hc2 ltac:(lia)) as [H2 Hc].
      destruct (s_vc1 s) as [w1|] eqn:E2; [|congruence].
      change (s_vc1 (put vo o1 (w_vs2 (Some v2) (w_vs1 (Some v1') s)))) with (s_vc1 s).
      rewrite E2. cbv beta iota zeta.
      match goal with |- context [s_com ?t] => change (s_com t) with (s_com s) end.
      rewrite Hc. cbv beta iota zeta.
      match goal with |- context [s_heap (w_vc2 ?a (w_vc1 ?b ?t))] =>
        change (s_heap (w_vc2 a (w_vc1 b t))) with (s_heap t) end.
      rewrite put_same. rewrite put_other by exact Hv.
      eexists. split; [reflexivity|].
      split; [solve_scr|].
      split; [split; [exact Hf|]; split; [discriminate|]; split; [exact Hm|]; intros _; split; [discriminate|exact Hc]|].
      split.
      + intros k Hk. apply Nat.eqb_neq in Hk. cbn. rewrite !Hk. reflexivity.
      + intros I HI. cbn [put s_heap w_heap w_vc1 w_vc2 w_vs1 w_vs2]. rewrite Nat.eqb_refl.
        rewrite coup_mult by assumption. unfold o1, v2, v1'. rewrite slab_mult by assumption. ring.
    - eexists. split; [reflexivity|].
      split; [solve_scr|].
      split; [split; [exact Hf|]; split; [discriminate|]; split; [exact Hm|]; exact Hc2|].
      split.
      + intros k Hk. apply Nat.eqb_neq in Hk. cbn. rewrite !Hk. reflexivity.
      + intros I HI. cbn [put s_heap w_heap w_vc1 w_vc2 w_vs1 w_vs2]. rewrite Nat.eqb_refl.
        unfold o1, v2, v1'. rewrite slab_mult by assumption. ring.
  Qed.

  Definition applyF (X Y : field) : R := sumn (c_N c) (fun n => aS n X Y + aC n X Y).
  Lemma apply_run vi vo s :
    vi <> vo -> ready s ->
    exists s', apply_spacetime_matrix E vi vo s = (Ok tt, s') /\ scr s s' /\ ready s'
      /\ (forall k, k <> vo -> s_heap s' k = s_heap s k)
      /\ forall I, (I < lay_dim (e_Lf E))%nat ->
         s_heap s' vo I = applyF (field_of (e_Lf E) (s_heap s vi)) (field_of (e_Lf E) (unitv I)).
  Proof.
    intros Hv Hr. unfold apply_spacetime_matrix. unfold bind at 1, modify.
    set (s0 := put vo vzero s).
    destruct (slabs_ok c (apply_slab E vi vo)
      (fun n s' => scr s s' /\ ready s' /\ (forall k, k <> vo -> s_heap s' k = s_heap s k)
        /\ forall I, (I < lay_dim (e_Lf E))%nat ->
           s_heap s' vo I = sumn n (fun n => aS n (field_of (e_Lf E) (s_heap s vi)) (field_of (e_Lf E) (unitv I))
              + aC n (field_of (e_Lf E) (s_heap s vi)) (field_of (e_Lf E) (unitv I)))) (c_N c) 0%nat s0)
      as [s' [E' [H1 [H2 [H3 H4]]]]].
    - intros n s1 Hn [A [B [C F]]].
      destruct (apply_slab_ok vi vo n s1 Hv ltac:(lia) B) as [s2 [E2 [A2 [B2 [C2 F2]]]]].
      exists s2. split; [exact E2|]. split; [eapply scr_trans; eassumption|]. split; [exact B2|]. split.
      + intros k Hk. rewrite C2, C by exact Hk. reflexivity.
      + intros I HI. rewrite F2, F by exact HI. rewrite (C vi Hv).
        rewrite seq_S, Rsum_app, Rsum_cons, Rsum_nil. cbn [plus]. ring.
    - unfold s0. split; [solve_scr|].
      split; [exact Hr|].
      split; [intros k Hk; apply put_other; exact Hk|].
      intros I HI. rewrite put_same. reflexivity.
    - exists s'. rewrite (cnt0_n c). split; [exact E'|]. auto.
  Qed.

  (** the value computed, against the assembled form *)
  Definition reg_rest (X Y : field) : R :=
    sumn (c_N c) (fun n => if Nat.ltb 0 n then
      L2 D Vp Vd (X 0%nat (n * S (c_q c))%nat) (Y 2%nat (n * S (c_qs c))%nat)
      + L2 D Vp Vp (X 0%nat (n * S (c_q c) - 1)%nat) (Y 0%nat (n * S (c_q c) - 1)%nat) else 0).
  (** the terms of the assembled form that apply_spacetime_matrix leaves out:
      jump terms of the forward and the dual problem, initial data terms *)
  Definition missing (X Y : field) : R :=
    sumn (c_N c) (fun n => slab_extra c g D false n X Y
      - (if Nat.ltb 0 n then g_jump g * en D (c_dt c) (jmp c X 0 n) (jmp c X 1 n) (jmp c Y 0 n) (jmp c Y 1 n) else 0)).
  Lemma missing_default X Y : c_jumps c = false -> c_wp c = false -> missing X Y = 0.
  Proof.
    intros Hj Hw. unfold missing. apply Rsum_zero; intros n _. unfold slab_extra. rewrite Hj, Hw.
    rewrite andb_false_r. cbn [andb]. ring.
  Qed.

  Lemma applyF_spec X Y : g_jump g = gj ->
    applyF X Y = eval D (st_form c g om false) X Y + reg * reg_rest X Y - missing X Y.
  Proof.
    intro Hg. rewrite eval_st. unfold applyF, reg_rest, missing.
    rewrite <- Rsum_scal.
    assert (G : regterm D X Y = sumn (c_N c) (fun n => if Nat.eqb n 0 then regterm D X Y else 0)).
    { pose proof (eo_N _ HE) as HN. destruct (c_N c) as [|m]; [lia|]. cbn [seq]. rewrite Rsum_cons. cbn.
      rewrite (Rsum_zero (seq 1 m)); [ring|]. intros n Hn. apply in_seq in Hn.
      destruct (Nat.eqb_spec n 0); [lia|reflexivity]. }
    rewrite G, <- !Rsum_plus, <- Rsum_minus. apply Rsum_ext; intro n.
    unfold aS, aC. rewrite eval_slab. unfold slab_extra_pre.
    destruct (Nat.ltb_spec 0 n) as [H0|H0].
    - rewrite eval_coup. destruct (Nat.eqb_spec n 0); [lia|].
      unfold regterm, restr, pull, up_coup, jmp, lastc. rewrite Hg.
      change (ntime c 0) with (S (c_q c)). change (ntime c 2) with (S (c_qs c)).
      rewrite !Nat.add_0_r.
      replace (n * S (c_q c) - 1 + 1)%nat with (n * S (c_q c))%nat by nia.
      change (L2 D Vp Vd (fun l : nat => X 0%nat (n * S (c_q c))%nat l) (fun l : nat => Y 2%nat (n * S (c_qs c))%nat l))
        with (L2 D Vp Vd (X 0%nat (n * S (c_q c))%nat) (Y 2%nat (n * S (c_qs c))%nat)).
      ring.
    - replace n with 0%nat by lia. cbn [Nat.eqb]. unfold regterm, restr. rewrite !Nat.mul_0_l, !Nat.add_0_l.
      change (L2 D Vp Vd (fun l : nat => X 0%nat 0%nat l) (fun l : nat => Y 2%nat 0%nat l))
        with (L2 D Vp Vd (X 0%nat 0%nat) (Y 2%nat 0%nat)). ring.
  Qed.
End Apply.
