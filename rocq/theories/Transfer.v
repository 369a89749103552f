(** Transfer.v -- prolongation and restriction, component by component. *)
From Coq Require Import Reals List ZArith Lra Lia Bool String.
From Verif Require Import Base TimeModel FormModel FormSpec FormProofs SpaceTimeForms SpaceTimeModel FormBlocks SlabOps ApplyProofs.
Import ListNotations.
Open Scope R_scope.
Open Scope monad_scope.

Section Transfer.
  Variables (E : env) (D1 D2 : disc) (L1 L2 : layout) (interp : vec -> vec) (src : vec).
  Notation c := (e_c E).
  Hypothesis H1 : lay_ok D1 4 (nc_full c) L1.
  Hypothesis H2 : lay_ok D2 4 (nc_full c) L2.
  Notation body := (fun '(j, i) => trans_comp interp (d_dim D1 Vp) (d_dim D2 Vp) src (lay_sub L1 j i) (lay_sub L2 j i)).

  (** what one component becomes *)
  Definition moved (j i l : nat) : R := interp (comp_of L1 src j i) l.
  (** the function space of the components of j has as many dofs as that of u1 *)
  Definition same_dim (D : disc) (j : nat) : Prop := d_dim D (spc j) = d_dim D Vp.

  Lemma comp_run j i dst : (j < 4)%nat -> (i < nc_full c j)%nat -> same_dim D1 j -> same_dim D2 j ->
    exists dst', trans_comp interp (d_dim D1 Vp) (d_dim D2 Vp) src (lay_sub L1 j i) (lay_sub L2 j i) dst = (Ok tt, dst')
    /\ (forall l, (l < d_dim D2 Vp)%nat -> field_of L2 dst' j i l = moved j i l)
    /\ (forall j' i' l, (j' < 4)%nat -> (i' < nc_full c j')%nat -> (l < d_dim D2 (spc j'))%nat -> (j', i') <> (j, i) ->
          field_of L2 dst' j' i' l = field_of L2 dst j' i' l)
    /\ (forall I, (lay_dim L2 <= I)%nat -> dst' I = dst I).
  Proof.
    intros Hj Hi S1 S2. unfold same_dim in *.
    assert (N1 : List.length (lay_sub L1 j i) = d_dim D1 Vp) by (rewrite (wl_len _ _ _ _ H1) by assumption; exact S1).
    assert (N2 : List.length (lay_sub L2 j i) = d_dim D2 Vp) by (rewrite (wl_len _ _ _ _ H2) by assumption; exact S2).
    unfold trans_comp, np_assign. rewrite length_gather, N1, Nat.eqb_refl. unfold bind at 1. cbn [lift].
    rewrite map_length, seq_length, N2, Nat.eqb_refl. unfold bind at 1. cbn [lift].
    fold (comp_of L1 src j i).
    exists (scatter dst (lay_sub L2 j i) (map (interp (comp_of L1 src j i)) (seq 0 (d_dim D2 Vp)))).
    split; [reflexivity|]. split; [|split].
    - intros l Hl. pose proof (set1_hit D2 4 (nc_full c) L2 H2 false dst j i
        (map (interp (comp_of L1 src j i)) (seq 0 (d_dim D2 Vp))) l Hj Hi) as A. cbn [setter] in A. rewrite A.
      + unfold moved. rewrite (nth_indep _ 0 (interp (comp_of L1 src j i) 0%nat)) by (rewrite map_length, seq_length; exact Hl).
        rewrite map_nth, seq_nth by exact Hl. cbn [Nat.add]. ring.
      + rewrite S2. exact Hl.
      + rewrite map_length, seq_length. symmetry. exact S2.
    - intros j' i' l Hj' Hi' Hl Hne. exact (set1_miss D2 4 (nc_full c) L2 H2 false dst j i j' i' _ l Hj Hi Hj' Hi' Hl Hne).
    - intros I HI. apply scatter_out. intro Hin. assert (I < lay_dim L2)%nat; [|lia].
      apply (wl_range _ _ _ _ H2). unfold all_dofs. apply in_flat_map. exists j. split; [apply in_seq; lia|].
      apply in_flat_map. exists i. split; [apply in_seq; lia|exact Hin].
  Qed.

  (** the components handled so far *)
  Definition moved_on (S : list (nat * nat)) (dst dst' : vec) : Prop :=
    (forall j i l, (j < 4)%nat -> (i < nc_full c j)%nat -> (l < d_dim D2 (spc j))%nat ->
       In (j, i) S -> field_of L2 dst' j i l = moved j i l)
    /\ (forall j i l, (j < 4)%nat -> (i < nc_full c j)%nat -> (l < d_dim D2 (spc j))%nat ->
       ~ In (j, i) S -> field_of L2 dst' j i l = field_of L2 dst j i l)
    /\ (forall I, (lay_dim L2 <= I)%nat -> dst' I = dst I).

  Hypothesis S1 : d_dim D1 Vd = d_dim D1 Vp.
  Hypothesis S2 : d_dim D2 Vd = d_dim D2 Vp.
  Lemma same1 j : same_dim D1 j.
  Proof. unfold same_dim, spc. destruct (Nat.ltb j 2); auto. Qed.
  Lemma same2 j : same_dim D2 j.
  Proof. unfold same_dim, spc. destruct (Nat.ltb j 2); auto. Qed.
  Lemma each_run prs : forall done dst0 dst, (forall j i, In (j, i) prs -> (j < 4)%nat /\ (i < nc_full c j)%nat) ->
    moved_on done dst0 dst -> exists dst', for_each prs body dst = (Ok tt, dst') /\ moved_on (done ++ prs) dst0 dst'.
  Proof.
    induction prs as [|[j i] prs IH]; intros done dst0 dst Hp HM; [exists dst; rewrite app_nil_r; split; [reflexivity|exact HM]|].
    destruct (Hp j i (or_introl eq_refl)) as [Hj Hi].
    destruct (comp_run j i dst Hj Hi (same1 j) (same2 j)) as [d1 [E1 [A1 [A2 A3]]]].
    cbn [for_each]. unfold bind. rewrite E1.
    destruct (IH (done ++ [(j, i)]) dst0 d1) as [d2 [E2 M2]].
    - intros j' i' H. apply Hp. right. exact H.
    - destruct HM as [B1 [B2 B3]]. split; [|split].
      + intros j' i' l Hj' Hi' Hl Hin. destruct (pair_eqb_spec (j', i') (j, i)) as [X|X].
        * injection X; intros; subst. apply A1. pose proof (same2 j) as T. unfold same_dim in T. rewrite <- T. exact Hl.
        * rewrite A2 by assumption. apply B1; auto. apply in_app_or in Hin. destruct Hin as [|[|[]]]; congruence.
      + intros j' i' l Hj' Hi' Hl Hin. rewrite A2; auto.
        * apply B2; auto. intro X. apply Hin, in_or_app. left. exact X.
        * intro X. apply Hin, in_or_app. right. left. congruence.
      + intros I HI. rewrite A3 by exact HI. apply B3, HI.
    - exists d2. split; [exact E2|]. rewrite <- app_assoc in M2. exact M2.
  Qed.
  Definition slab_comps (n : nat) : list (nat * nat) :=
    flat_map (fun j => map (fun ell => (j, n * ntime c j + ell)%nat) (seq 0 (ntime c j))) (seq 0 4).
  Lemma trans_pairs_n n : trans_pairs E (cntn c n) = slab_comps n.
  Proof using Type.
    clear S1 S2 H1 H2.
    unfold trans_pairs, slab_comps. apply flat_map_ext. intro j. apply map_ext. intro ell. f_equal.
    unfold shift_idx, cntn, ntime, sto, z. destruct (Nat.ltb j 2); cbn [k_iq k_iqs]; nia.
  Qed.
  Lemma in_slab_comps n j i : In (j, i) (slab_comps n) <-> (j < 4)%nat /\ (n * ntime c j <= i < n * ntime c j + ntime c j)%nat.
  Proof using Type.
    clear S1 S2 H1 H2.
    unfold slab_comps. rewrite in_flat_map. split.
    - intros [j' [Hj Hin]]. apply in_seq in Hj. apply in_map_iff in Hin. destruct Hin as [l [El Hl]]. apply in_seq in Hl.
      injection El; intros; subst. lia.
    - intros [Hj Hi]. exists j. split; [apply in_seq; lia|]. apply in_map_iff. exists (i - n * ntime c j)%nat.
      split; [f_equal; lia|apply in_seq; lia].
  Qed.
  Lemma loop_run m : forall a done dst0 dst, (a + m = c_N c)%nat -> moved_on done dst0 dst ->
    exists dst', trans_loop E body (seq a m) (cntn c a) dst = (Ok tt, dst')
      /\ moved_on (done ++ flat_map slab_comps (seq a m)) dst0 dst'.
  Proof.
    induction m as [|m IH]; intros a done dst0 dst Hm HM.
    - exists dst. cbn [seq flat_map]. rewrite app_nil_r. split; [reflexivity|exact HM].
    - cbn [seq trans_loop flat_map]. rewrite trans_pairs_n.
      destruct (each_run (slab_comps a) done dst0 dst) as [d1 [E1 M1]]; [|exact HM|].
      + intros j i H. apply in_slab_comps in H. unfold nc_full. split; [tauto|]. nia.
      + unfold bind. rewrite E1. rewrite cnt_next_n. destruct (IH (S a) (done ++ slab_comps a) dst0 d1) as [d2 [E2 M2]]; [lia|exact M1|].
        exists d2. split; [exact E2|]. rewrite <- app_assoc in M2. exact M2.
  Qed.
  Theorem trans_run dst : exists dst', trans_loop E body (seq 0 (c_N c)) cnt0 dst = (Ok tt, dst')
    /\ (forall j i l, (j < 4)%nat -> (i < nc_full c j)%nat -> (l < d_dim D2 (spc j))%nat -> field_of L2 dst' j i l = moved j i l)
    /\ (forall I, (lay_dim L2 <= I)%nat -> dst' I = dst I).
  Proof.
    destruct (loop_run (c_N c) 0 [] dst dst eq_refl) as [d [E1 [M1 [_ M3]]]].
    { split; [intros j i l _ _ _ []|]. split; auto. }
    exists d. rewrite (cnt0_n c). split; [exact E1|]. split; [|exact M3].
    intros j i l Hj Hi Hl. apply M1; auto. cbn [app]. apply in_flat_map. unfold nc_full in Hi.
    assert (T : (0 < ntime c j)%nat) by (unfold ntime; lia).
    exists (i / ntime c j)%nat. split.
    - apply in_seq. split; [lia|]. apply Nat.div_lt_upper_bound; nia.
    - apply in_slab_comps. split; [exact Hj|]. pose proof (Nat.div_mod i (ntime c j) ltac:(lia)).
      pose proof (Nat.mod_upper_bound i (ntime c j) ltac:(lia)). nia.
  Qed.
End Transfer.

(** with different dimensions the first dual component does not fit *)
Section Misfit.
  Variables (E : env) (D1 D2 : disc) (L1 L2 : layout) (interp : vec -> vec) (src : vec).
  Notation c := (e_c E).
  Hypothesis H1 : lay_ok D1 4 (nc_full c) L1.
  Hypothesis H2 : lay_ok D2 4 (nc_full c) L2.
  Notation body := (fun '(j, i) => trans_comp interp (d_dim D1 Vp) (d_dim D2 Vp) src (lay_sub L1 j i) (lay_sub L2 j i)).
  Lemma each_primal prs : forall dst, (forall j i, In (j, i) prs -> (j < 2)%nat /\ (i < nc_full c j)%nat) ->
    exists dst', for_each prs body dst = (Ok tt, dst').
  Proof.
    induction prs as [|[j i] prs IH]; intros dst Hp; [exists dst; reflexivity|].
    destruct (Hp j i (or_introl eq_refl)) as [Hj Hi].
    assert (S : forall D, same_dim D j) by (intro D; unfold same_dim, spc; destruct (Nat.ltb_spec j 2); [reflexivity|lia]).
    destruct (comp_run E D1 D2 L1 L2 interp src H1 H2 j i dst ltac:(lia) Hi (S _) (S _)) as [d1 [E1 _]].
    cbn [for_each]. unfold bind. rewrite E1. apply IH. intros j' i' H. apply Hp. right. exact H.
  Qed.
  Lemma for_each_app {A S} (l1 l2 : list A) (f : A -> M S unit) s s1 :
    for_each l1 f s = (Ok tt, s1) -> for_each (l1 ++ l2) f s = for_each l2 f s1.
  Proof.
    revert s. induction l1 as [|a l1 IH]; intros s H; cbn [for_each app] in *; [injection H as <-; reflexivity|].
    unfold bind in *. destruct (f a s) as [[[]|e] s2]; [|discriminate]. apply IH, H.
  Qed.
  Lemma misfit dst : (1 <= c_N c)%nat ->
    (d_dim D1 Vd <> d_dim D1 Vp /\ d_dim D1 Vd <> 1%nat) \/ (d_dim D1 Vd = d_dim D1 Vp /\ d_dim D2 Vd <> d_dim D2 Vp /\ d_dim D2 Vp <> 1%nat) ->
    exists dst', trans_loop E body (seq 0 (c_N c)) cnt0 dst = (Err ValueError, dst').
  Proof.
    intros HN Hd. destruct (c_N c) as [|m] eqn:EN; [lia|]. cbn [seq trans_loop]. rewrite (cnt0_n c), trans_pairs_n.
    unfold slab_comps. change (seq 0 4) with (seq 0 2 ++ seq (0 + 2) 2). rewrite flat_map_app.
    match goal with |- context [for_each (?a ++ ?b) body] => destruct (each_primal a dst) as [d1 E1] end.
    { intros j i Hin. apply in_flat_map in Hin. destruct Hin as [j' [Hj Hin]]. apply in_seq in Hj. apply in_map_iff in Hin.
      destruct Hin as [l [El Hl]]. apply in_seq in Hl. injection El; intros; subst. unfold nc_full. rewrite EN. split; [lia|nia]. }
    assert (T : (0 < nc_full c 2)%nat) by (unfold nc_full, ntime; rewrite EN; nia).
    assert (B : trans_comp interp (d_dim D1 Vp) (d_dim D2 Vp) src (lay_sub L1 2 (0 * ntime c 2 + 0)) (lay_sub L2 2 (0 * ntime c 2 + 0)) d1 = (Err ValueError, d1)).
    { cbn [Nat.mul Nat.add]. unfold trans_comp, np_assign. rewrite length_gather, (wl_len _ _ _ _ H1), (wl_len _ _ _ _ H2) by (auto; lia).
      change (spc 2) with Vd. destruct Hd as [[A B]|[A [B C]]].
      - apply Nat.eqb_neq in A, B. rewrite A, B. reflexivity.
      - apply Nat.eqb_eq in A. apply not_eq_sym in B. apply Nat.eqb_neq in B, C. rewrite A. unfold bind at 1. cbn [lift].
        rewrite map_length, seq_length, B, C. reflexivity. }
    exists d1. unfold bind at 1. rewrite (for_each_app _ _ _ _ _ E1). cbn [Nat.add seq flat_map]. unfold ntime at 2.
    cbn [seq map app for_each]. unfold bind. rewrite B. reflexivity.
  Qed.
End Misfit.
