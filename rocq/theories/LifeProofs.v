(** LifeProofs.v -- what holds of a SpaceTime object after any sequence of
    public calls (C30-C39). *)
From Coq Require Import Reals List ZArith Lra Lia Bool String.
From Verif Require Import Base TimeModel FormModel FormSpec FormProofs SpaceTimeForms SpaceTimeModel ErrorsModel Lifecycle.
Import ListNotations.
Open Scope R_scope.
Open Scope monad_scope.

(** * Reasoning about the state reached *)
Definition okat {S A} (P : S -> Prop) (m : M S A) (s : S) : Prop := P (snd (m s)).
Section Rules.
  Context {St : Type} (P : St -> Prop).
  Lemma ok_ret {A} (a : A) s : P s -> okat P (ret a) s.
  Proof. exact (fun H => H). Qed.
  Lemma ok_raise {A} e s : P s -> okat P (raise e : M St A) s.
  Proof. exact (fun H => H). Qed.
  Lemma ok_modify f s : P (f s) -> okat P (modify f) s.
  Proof. exact (fun H => H). Qed.
  Lemma ok_bind_get {B} (f : St -> M St B) s : okat P (f s) s -> okat P (bind get f) s.
  Proof. exact (fun H => H). Qed.
  Lemma ok_bind_modify {B} g (f : unit -> M St B) s : okat P (f tt) (g s) -> okat P (bind (modify g) f) s.
  Proof. exact (fun H => H). Qed.
  Lemma ok_bind_lift {A B} (r : res A) (f : A -> M St B) s :
    P s -> (forall a, r = Ok a -> okat P (f a) s) -> okat P (bind (lift r) f) s.
  Proof. intros H1 H2. unfold okat, bind, lift. destruct r as [a|e]; [apply H2; reflexivity|exact H1]. Qed.
  Lemma ok_bind_need {A B} (o : option A) e (f : A -> M St B) s :
    P s -> (forall a, o = Some a -> okat P (f a) s) -> okat P (bind (need o e) f) s.
  Proof. intros H1 H2. unfold okat, bind, need. destruct o as [a|]; [apply H2; reflexivity|exact H1]. Qed.
  Lemma ok_bind_ret {A B} (a : A) (f : A -> M St B) s : okat P (f a) s -> okat P (bind (ret a) f) s.
  Proof. exact (fun H => H). Qed.
  Lemma ok_bind_assoc {A B C} (m : M St A) (f : A -> M St B) (g : B -> M St C) s :
    okat P (bind m (fun a => bind (f a) g)) s -> okat P (bind (bind m f) g) s.
  Proof. unfold okat, bind. destruct (m s) as [[a|e] s']; exact (fun H => H). Qed.
  Lemma ok_bind {A B} (m : M St A) (f : A -> M St B) s :
    okat P m s -> (forall a s', P s' -> m s = (Ok a, s') -> okat P (f a) s') -> okat P (bind m f) s.
  Proof.
    unfold okat, bind. intros H1 H2. destruct (m s) as [[a|e] s'] eqn:E; [|exact H1].
    apply H2; [exact H1|reflexivity].
  Qed.
End Rules.
Lemma ok_bind_errif (P : state -> Prop) {B} b e (f : unit -> M state B) s :
  P s -> (b = false -> okat P (f tt) s) -> okat P (bind (err_if b e) f) s.
Proof. unfold err_if. destruct b; intros H1 H2; [exact H1|apply H2; reflexivity]. Qed.
Lemma ok_bind_fes (P : state -> Prop) {B} e (f : unit -> M state B) s :
  P s -> (s_fes s = true -> okat P (f tt) s) -> okat P (bind (need_fes e) f) s.
Proof.
  intros H1 H2. unfold okat, bind, need_fes, get, err_if, bind. destruct (s_fes s) eqn:E; cbn; [apply H2; reflexivity|exact H1].
Qed.
Lemma ok_slabs (P : state -> Prop) c body ns k s :
  (forall n k s, P s -> okat P (body n k) s) -> P s -> okat P (slabs c body ns k) s.
Proof.
  intros Hb. revert k s. induction ns as [|n ns IH]; intros k s Hs; cbn [slabs]; [exact Hs|].
  apply ok_bind; [apply Hb; exact Hs|]. intros _ s' Hs' _. apply IH. exact Hs'.
Qed.
Lemma ok_for_acc {S A B} (P : S -> Prop) (body : A -> B -> M S B) l b s :
  (forall a b s, P s -> okat P (body a b) s) -> P s -> okat P (for_acc l body b) s.
Proof.
  intros Hb. revert b s. induction l as [|a l IH]; intros b s Hs; cbn [for_acc]; [exact Hs|].
  apply ok_bind; [apply Hb; exact Hs|]. intros b' s' Hs' _. apply IH. exact Hs'.
Qed.

(** * The invariant *)
Definition keeps {A} (o o' : option A) : Prop := forall a, o = Some a -> o' = Some a.
Definition keeps_some {A} (o o' : option A) : Prop := o <> None -> o' <> None.
Lemma keeps_refl {A} (o : option A) : keeps o o.
Proof. intros a H; exact H. Qed.

Lemma fem_form_ok nb nc f f' : fem_form nb nc f = Ok f' -> f' = f.
Proof.
  unfold fem_form. destruct (forallb has_domain f); [|discriminate]. destruct (wf_bform nb nc f); [|discriminate].
  destruct (existsb nonzero_t f); [|discriminate]. congruence.
Qed.
Lemma fem_lform_ok nb nc f f' : fem_lform nb nc f = Ok f' -> f' = f.
Proof. unfold fem_lform. destruct (wf_lform nb nc f); congruence. Qed.

Section Inv.
  Variable E : env.
  Notation c := (e_c E).
  Notation D := (e_D E).
  Notation Lf := (e_Lf E).
  Notation Lp := (e_Lp E).
  Notation Lc := (e_Lc E).
  Notation Lb := (e_Lb E).
  Variable om : nat -> R.

  (** the slab matrix and its form *)
  Definition slab_pair (b : bool) (oA : option matrix) (of : option bform) : Prop :=
    match oA, of with
    | Some A, Some f => exists g, get_gammas (c_stab c) = Ok g /\ f = slab_form c g om b /\ A = assemble D Lp f
    | None, None => True
    | _, _ => False
    end.
  Record wfst (s : state) : Prop := {
    i_om : s_om s = om;
    i_st : match s_stm s, s_stb s with
           | Some A, Some f => exists g p, get_gammas (c_stab c) = Ok g /\ f = st_form c g om p /\ A = assemble D Lf f
           | None, None => True
           | _, _ => False
           end;
    i_sl : slab_pair true (s_slm s) (s_slb s);
    i_nj : slab_pair false (s_njm s) (s_njb s);
    i_fi : s_fim s = (if c_wp c then s_slm s else s_njm s) /\ s_fib s = (if c_wp c then s_slb s else s_njb s);
    i_vs : (s_vs1 s <> None <-> s_njm s <> None) /\ (s_vs2 s <> None <-> s_njm s <> None);
    i_co : match s_com s with
           | Some A => exists gj, lookup (c_stab c) "primal-jump" = Ok gj /\ A = assemble D Lc (coup_form c gj)
           | None => True end;
    i_vc : (s_vc1 s <> None <-> s_com s <> None) /\ (s_vc2 s <> None <-> s_com s <> None);
    i_ma : match s_mam s with
           | Some A => exists gj, lookup (c_stab c) "primal-jump" = Ok gj /\ A = assemble D Lb (bnd_form c gj)
           | None => True end;
    i_vb : (s_vbi s <> None <-> s_mam s <> None) /\ (s_vbo s <> None <-> s_mam s <> None);
    i_rh : (s_rhs s <> None <-> s_lfi s <> None);
    i_id : match s_rhs s with Some i => (i < s_next s)%nat | None => True end;
    i_fe : s_fes s = false ->
           s_stm s = None /\ s_slm s = None /\ s_njm s = None /\ s_com s = None /\ s_mam s = None
           /\ s_rhs s = None /\ s_cmt s = None;
    i_cc : match s_cmt s, s_cbf s with
           | Some A, Some f => exists g om', get_gammas (c_stab c) = Ok g /\ f = st_form c g om' false
           | None, None => True
           | _, _ => False
           end }.
  (** nothing once built is lost or changed *)
  Record later (s0 s : state) : Prop := {
    l_fe : s_fes s0 = true -> s_fes s = true;
    l_stm : keeps (s_stm s0) (s_stm s); l_stb : keeps (s_stb s0) (s_stb s);
    l_slm : keeps (s_slm s0) (s_slm s); l_slb : keeps (s_slb s0) (s_slb s);
    l_njm : keeps (s_njm s0) (s_njm s); l_njb : keeps (s_njb s0) (s_njb s);
    l_com : keeps (s_com s0) (s_com s); l_mam : keeps (s_mam s0) (s_mam s);
    l_rhs : keeps_some (s_rhs s0) (s_rhs s);
    l_brp : keeps_some (s_brp s0) (s_brp s);
    l_sfi : keeps_some (s_sfi s0) (s_sfi s); l_ssl : keeps_some (s_ssl s0) (s_ssl s);
    l_next : (s_next s0 <= s_next s)%nat }.
  Lemma later_refl s : later s s.
  Proof. constructor; try (intros ? H; exact H); auto; intros H; exact H. Qed.
  Lemma later_trans s1 s2 s3 : later s1 s2 -> later s2 s3 -> later s1 s3.
  Proof.
    intros [] []. constructor; unfold keeps, keeps_some in *; auto. lia.
  Qed.

  (** states reached from s0 *)
  Variable s0 : state.
  Definition P (s : state) : Prop := wfst s /\ later s0 s.

  (** an update that touches none of the tracked attributes *)
  Definition inert (s s' : state) : Prop :=
    s_om s' = s_om s /\ s_fes s' = s_fes s /\ s_stm s' = s_stm s /\ s_stb s' = s_stb s
    /\ s_slm s' = s_slm s /\ s_slb s' = s_slb s /\ s_njm s' = s_njm s /\ s_njb s' = s_njb s
    /\ s_fim s' = s_fim s /\ s_fib s' = s_fib s /\ s_com s' = s_com s /\ s_mam s' = s_mam s
    /\ s_rhs s' = s_rhs s /\ s_lfi s' = s_lfi s /\ s_cmt s' = s_cmt s /\ s_cbf s' = s_cbf s /\ s_next s' = s_next s.
  Definition same_some {A} (o o' : option A) : Prop := o <> None <-> o' <> None.
  Lemma P_inert s s' : P s -> inert s s' ->
    same_some (s_vs1 s) (s_vs1 s') -> same_some (s_vs2 s) (s_vs2 s') ->
    same_some (s_vc1 s) (s_vc1 s') -> same_some (s_vc2 s) (s_vc2 s') ->
    same_some (s_vbi s) (s_vbi s') -> same_some (s_vbo s) (s_vbo s') ->
    keeps_some (s_brp s) (s_brp s') -> keeps_some (s_sfi s) (s_sfi s') -> keeps_some (s_ssl s) (s_ssl s') -> P s'.
  Proof.
    intros [[] []] [E1 [E2 [E3 [E4 [E5 [E6 [E7 [E8 [E9 [E10 [E11 [E12 [E13 [E14 [E15 [E16 E17]]]]]]]]]]]]]]]]
      H1 H2 H3 H4 H5 H6 H7 H8 H9.
    assert (Q : forall A B (o o' : option A) (x x' : option B), same_some o o' -> x' = x -> (o <> None <-> x <> None) -> (o' <> None <-> x' <> None)).
    { intros A B o o' x x' Ho -> Hx. unfold same_some in Ho. tauto. }
    assert (W : forall A (o0 o o' : option A), o' = o -> keeps o0 o -> keeps o0 o') by (intros; subst; assumption).
    assert (Z : forall A (o0 o o' : option A), keeps_some o o' -> keeps_some o0 o -> keeps_some o0 o') by (unfold keeps_some; auto).
    split; constructor.
    - congruence.
    - rewrite E3, E4. assumption.
    - rewrite E5, E6. assumption.
    - rewrite E7, E8. assumption.
    - rewrite E5, E6, E7, E8, E9, E10. assumption.
    - destruct i_vs0 as [A1 A2]. split; [apply (Q _ _ _ _ _ _ H1 E7 A1)|apply (Q _ _ _ _ _ _ H2 E7 A2)].
    - rewrite E11. assumption.
    - destruct i_vc0 as [A1 A2]. split; [apply (Q _ _ _ _ _ _ H3 E11 A1)|apply (Q _ _ _ _ _ _ H4 E11 A2)].
    - rewrite E12. assumption.
    - destruct i_vb0 as [A1 A2]. split; [apply (Q _ _ _ _ _ _ H5 E12 A1)|apply (Q _ _ _ _ _ _ H6 E12 A2)].
    - rewrite E13, E14. assumption.
    - rewrite E13, E17. assumption.
    - rewrite E2. intro Hf. destruct (i_fe0 Hf) as [A1 [A2 [A3 [A4 [A5 [A6 A7]]]]]].
      rewrite E3, E5, E7, E11, E12, E13, E15. auto 10.
    - rewrite E15, E16. assumption.
    - rewrite E2. assumption.
    - eapply W; eassumption.
    - eapply W; eassumption.
    - eapply W; eassumption.
    - eapply W; eassumption.
    - eapply W; eassumption.
    - eapply W; eassumption.
    - eapply W; eassumption.
    - eapply W; eassumption.
    - rewrite E13. assumption.
    - eapply Z; eassumption.
    - eapply Z; eassumption.
    - eapply Z; eassumption.
    - rewrite E17. assumption.
  Qed.

  Lemma ss_refl {A} (o : option A) : same_some o o.
  Proof. split; intro H; exact H. Qed.
  Lemma ss_some {A} (a b : A) o : o = Some a -> same_some o (Some b).
  Proof. intros ->. split; intros _; discriminate. Qed.
  Lemma ks_refl {A} (o : option A) : keeps_some o o.
  Proof. intro H; exact H. Qed.
  Lemma ks_some {A} (o : option A) b : keeps_some o (Some b).
  Proof. intros _. discriminate. Qed.
  Ltac inert_leaf H := apply (P_inert _ _ H);
    [repeat (split; [reflexivity|]); reflexivity
    |first [apply ss_refl|eapply ss_some; eassumption].. |first [apply ks_refl|apply ks_some]|first [apply ks_refl|apply ks_some]|first [apply ks_refl|apply ks_some]].

  Lemma P_setup_fes s : P s -> okat P setup_fes s.
  Proof.
    intros [[] []]. unfold setup_fes. apply ok_modify.
    split; constructor; cbn; try assumption; intros; try discriminate; auto.
  Qed.
  Lemma keeps_None {A} (o o' : option A) : keeps o None -> keeps o o'.
  Proof. intros H a Ha. specialize (H a Ha). discriminate. Qed.
  Lemma P_build p s : P s -> s_stm s = None -> okat P (build_spacetime E p) s.
  Proof.
    intros HP Hn. unfold build_spacetime. apply ok_bind_fes; [exact HP|]. intro Hf.
    apply ok_bind_get. unfold setup_spacetime_matrix. apply ok_bind_assoc, ok_bind_lift; [exact HP|]. intros g Hg.
    apply ok_bind_assoc, ok_bind_lift; [exact HP|]. intros f Hff. apply fem_form_ok in Hff. subst f.
    apply ok_bind_ret, ok_modify. destruct HP as [[] []].
    assert (Hb : s_stb s = None) by (rewrite Hn in i_st0; destruct (s_stb s); [destruct i_st0|reflexivity]).
    rewrite Hn in l_stm0. rewrite Hb in l_stb0.
    split; constructor; cbn; try assumption.
    - exists g, p. rewrite i_om0. auto.
    - congruence.
    - apply keeps_None; assumption.
    - apply keeps_None; assumption.
  Qed.
  Lemma P_get_matrix p s : P s -> okat P (get_spacetime_matrix E p) s.
  Proof.
    intro HP. unfold get_spacetime_matrix. apply ok_bind_get. apply ok_bind.
    - destruct (s_stm s) eqn:Es; [exact HP|apply P_build; assumption].
    - intros _ s' HP' _. exact HP'.
  Qed.
  Lemma P_get_bfi p s : P s -> okat P (get_spacetime_bfi E p) s.
  Proof.
    intro HP. unfold get_spacetime_bfi. apply ok_bind_get. apply ok_bind.
    - destruct (s_stb s) eqn:Es; [exact HP|apply P_build; [exact HP|]].
      destruct HP as [[] _]. destruct (s_stm s); [rewrite Es in i_st0; destruct i_st0|reflexivity].
    - intros _ s' HP' _. exact HP'.
  Qed.
  Lemma P_setup_rhs s : P s -> okat P (setup_rhs E) s.
  Proof.
    intros HP. unfold setup_rhs. apply ok_bind_fes; [exact HP|]. intro Hf.
    apply ok_bind_lift; [exact HP|]. intros gj _. apply ok_bind_lift; [exact HP|]. intros gd _.
    apply ok_bind_errif; [exact HP|]. intros _. apply ok_bind_get. apply ok_bind_lift; [exact HP|]. intros f _.
    apply ok_modify. destruct HP as [[] []]. split; constructor; cbn; try assumption.
    - split; intros _; discriminate.
    - lia.
    - congruence.
    - apply ks_some.
    - lia.
  Qed.
  Lemma P_get_rhs s : P s -> okat P (get_spacetime_rhs E) s.
  Proof.
    intro HP. unfold get_spacetime_rhs. apply ok_bind_get. apply ok_bind.
    - destruct (s_rhs s); [exact HP|apply P_setup_rhs; assumption].
    - intros _ s' HP' _. exact HP'.
  Qed.
  Lemma P_get_lfi s : P s -> okat P (get_spacetime_lfi E) s.
  Proof.
    intro HP. unfold get_spacetime_lfi. apply ok_bind_get. apply ok_bind.
    - destruct (s_lfi s); [exact HP|apply P_setup_rhs; assumption].
    - intros _ s' HP' _. exact HP'.
  Qed.
  Lemma P_coupling s : P s -> okat P (setup_coupling E) s.
  Proof.
    intros HP. unfold setup_coupling. apply ok_bind_fes; [exact HP|]. intro Hf.
    apply ok_bind_lift; [exact HP|]. intros gj Hg. apply ok_bind_errif; [exact HP|]. intros _.
    apply ok_bind_lift; [exact HP|]. intros f Hff. apply fem_form_ok in Hff. subst f.
    apply ok_modify. destruct HP as [[] []]. split; constructor; cbn; try assumption.
    - exists gj. auto.
    - split; split; intros _; discriminate.
    - congruence.
    - intros A HA. apply l_com0 in HA. rewrite HA in i_co0. destruct i_co0 as [gj' [G1 G2]]. congruence.
  Qed.
  Lemma P_mass s : P s -> okat P (setup_scaled_mass E) s.
  Proof.
    intros HP. unfold setup_scaled_mass. apply ok_bind_fes; [exact HP|]. intro Hf.
    apply ok_bind_lift; [exact HP|]. intros gj Hg. apply ok_bind_errif; [exact HP|]. intros _.
    apply ok_bind_lift; [exact HP|]. intros f Hff. apply fem_form_ok in Hff. subst f.
    apply ok_modify. destruct HP as [[] []]. split; constructor; cbn; try assumption.
    - exists gj. auto.
    - split; split; intros _; discriminate.
    - congruence.
    - intros A HA. apply l_mam0 in HA. rewrite HA in i_ma0. destruct i_ma0 as [gj' [G1 G2]]. congruence.
  Qed.
  Lemma slab_pair_keeps b oA of g : slab_pair b oA of -> get_gammas (c_stab c) = Ok g ->
    keeps oA (Some (assemble D Lp (slab_form c g om b))) /\ keeps of (Some (slab_form c g om b)).
  Proof.
    unfold slab_pair. intros H Hg. destruct oA as [A|], of as [f|]; try contradiction.
    - destruct H as [g' [G1 [G2 G3]]]. assert (g' = g) by congruence. subst. split; intros a Ha; congruence.
    - split; intros a Ha; discriminate.
  Qed.
  Lemma keeps_trans {A} (a b d : option A) : keeps a b -> keeps b d -> keeps a d.
  Proof. unfold keeps. auto. Qed.
  Lemma P_slab b s : P s -> okat P (setup_slab_matrix E b) s.
  Proof.
    intros HP. unfold setup_slab_matrix. apply ok_bind_fes; [exact HP|]. intro Hf.
    apply ok_bind_lift; [exact HP|]. intros g Hg. apply ok_bind_get.
    apply ok_bind_lift; [exact HP|]. intros f Hff. apply fem_form_ok in Hff. subst f. cbv zeta.
    destruct HP as [[] []]. rewrite i_om0.
    assert (Hp : slab_pair b (Some (assemble D Lp (slab_form c g om b))) (Some (slab_form c g om b))) by (exists g; auto).
    destruct b.
    - destruct (slab_pair_keeps _ _ _ _ i_sl0 Hg) as [K1 K2]. apply ok_bind_modify.
      destruct (c_wp c) eqn:Ew.
      + apply ok_modify. split; constructor; cbn; try assumption; rewrite ?Ew; try (split; reflexivity); try congruence;
          eapply keeps_trans; eassumption.
      + apply ok_ret. split; constructor; cbn; try assumption; rewrite ?Ew; try assumption; try congruence;
          eapply keeps_trans; eassumption.
    - destruct (slab_pair_keeps _ _ _ _ i_nj0 Hg) as [K1 K2]. apply ok_bind_modify.
      destruct (c_wp c) eqn:Ew.
      + apply ok_ret. split; constructor; cbn; try assumption; rewrite ?Ew; try assumption; try congruence;
          try (eapply keeps_trans; eassumption). split; split; intros _; discriminate.
      + apply ok_modify. split; constructor; cbn; try assumption; rewrite ?Ew; try (split; reflexivity); try congruence;
          try (eapply keeps_trans; eassumption). split; split; intros _; discriminate.
  Qed.
  Lemma P_both s : P s -> okat P (setup_slab_matrix E true ;; setup_slab_matrix E false) s.
  Proof. intro HP. apply ok_bind; [apply P_slab; exact HP|]. intros _ s' HP' _. apply P_slab; exact HP'. Qed.
  Lemma P_get_slab_bfi s : P s -> okat P (get_slab_bfi E) s.
  Proof.
    intro HP. unfold get_slab_bfi. apply ok_bind_get. apply ok_bind.
    - destruct (s_slb s); [exact HP|apply P_both; assumption].
    - intros _ s' HP' _. exact HP'.
  Qed.
  Lemma P_get_slab_matrix s : P s -> okat P (get_slab_matrix E) s.
  Proof.
    intro HP. unfold get_slab_matrix. apply ok_bind_get. apply ok_bind.
    - destruct (s_slm s); [exact HP|apply P_both; assumption].
    - intros _ s' HP' _. exact HP'.
  Qed.
  Lemma P_apply vi vo s : P s -> okat P (apply_spacetime_matrix E vi vo) s.
  Proof.
    intro HP. unfold apply_spacetime_matrix. apply ok_bind_modify. apply ok_slabs.
    2: inert_leaf HP.
    clear s HP. intros n k s HP. unfold apply_slab. apply ok_bind_fes; [exact HP|]. intro Hf.
    apply ok_bind_get. apply ok_bind_need; [exact HP|]. intros v1 Hv1. cbv zeta. apply ok_bind_modify.
    match goal with |- okat P _ ?t => assert (HP1 : P t) by inert_leaf HP; revert HP1; generalize t end.
    clear HP Hf Hv1. intros s1 HP. apply ok_bind_get. apply ok_bind_need; [exact HP|]. intros A HA. apply ok_bind_modify.
    match goal with |- okat P _ ?t => assert (HP2 : P t) end.
    { assert (H2 : s_vs2 s1 <> None) by (destruct HP as [[] _]; apply i_vs0; congruence).
      destruct (s_vs2 s1) as [y|] eqn:Ey; [|congruence]. inert_leaf HP. }
    revert HP2. match goal with |- P ?t -> _ => generalize t end. clear HP HA. intros s' HP.
    apply ok_bind_get, ok_bind_modify.
    match goal with |- okat P _ ?t => assert (HP3 : P t) by inert_leaf HP; revert HP3; generalize t end.
    clear HP. intros s2 HP. destruct (Nat.ltb 0 n); [|exact HP].
    apply ok_bind_get. apply ok_bind_need; [exact HP|]. intros w1 Hw1. cbv zeta. apply ok_bind_modify.
    match goal with |- okat P _ ?t => assert (HP1 : P t) by inert_leaf HP; revert HP1; generalize t end.
    clear HP Hw1. intros s3 HP. apply ok_bind_get. apply ok_bind_need; [exact HP|]. intros B HB. apply ok_bind_modify.
    match goal with |- okat P _ ?t => assert (HP2 : P t) end.
    { assert (H2 : s_vc2 s3 <> None) by (destruct HP as [[] _]; apply i_vc0; congruence).
      destruct (s_vc2 s3) as [y|] eqn:Ey; [|congruence]. inert_leaf HP. }
    revert HP2. match goal with |- P ?t -> _ => generalize t end. clear HP HB. intros s4 HP.
    apply ok_bind_get, ok_modify. inert_leaf HP.
  Qed.
  Lemma P_solve n r s : P s -> okat P (solve_slab n r) s.
  Proof.
    intro HP. unfold solve_slab. apply ok_bind_get. apply ok_bind_need; [exact HP|]. intros S0 _.
    apply ok_bind_lift; [exact HP|]. intros u _. apply ok_bind_modify, ok_ret. inert_leaf HP.
  Qed.
  Lemma P_march b x s : P s -> okat P (pre_time_marching E b x) s.
  Proof.
    intro HP. unfold pre_time_marching. apply ok_bind_lift; [exact HP|]. intros gj _. apply ok_slabs; [|exact HP].
    clear s HP. intros n k s HP. unfold pre_slab. apply ok_bind_fes; [exact HP|]. intro Hf.
    apply ok_bind_errif; [exact HP|]. intros _. apply ok_bind_get. apply ok_bind_lift; [exact HP|]. intros f _. cbv zeta.
    apply ok_bind; [apply P_solve; exact HP|]. clear HP Hf. intros u s1 HP _.
    apply ok_bind_modify, ok_bind_get, ok_modify. inert_leaf HP.
  Qed.
  Lemma P_improved b x s : P s -> okat P (pre_time_marching_improved E b x) s.
  Proof.
    intro HP. unfold pre_time_marching_improved. apply ok_bind_errif; [exact HP|]. intros _.
    apply ok_bind_lift; [exact HP|]. intros gj _. apply ok_bind_get. apply ok_bind_need; [exact HP|]. intros r0 Hr0.
    apply ok_bind_modify. apply ok_slabs; [|inert_leaf HP].
    clear s HP Hr0. intros n k s HP. unfold imp_slab. apply ok_bind_fes; [exact HP|]. intro Hf.
    apply ok_bind_get. apply ok_bind_need; [exact HP|]. intros r1 Hr1. cbv zeta. apply ok_bind_modify.
    apply ok_bind; [apply P_solve; inert_leaf HP|]. clear HP. intros u s1 HP _.
    apply ok_bind_get. apply ok_bind_need; [exact HP|]. intros v Hv. cbv zeta. apply ok_bind_modify.
    match goal with |- okat _ _ ?t => assert (HP1 : P t) by inert_leaf HP end.
    revert HP1. match goal with |- context [okat _ _ ?t] => generalize t end. clear HP. intros s2 HP.
    apply ok_bind_get. apply ok_bind_need; [exact HP|]. intros A HA. apply ok_bind_modify.
    match goal with |- okat _ _ ?t => assert (HP1 : P t) end.
    { assert (H2 : s_vbo s2 <> None) by (destruct HP as [[] _]; apply i_vb0; congruence).
      destruct (s_vbo s2) as [y|] eqn:Ey; [|congruence]. inert_leaf HP. }
    revert HP1. match goal with |- context [okat _ _ ?t] => generalize t end. clear HP HA. intros s3 HP.
    apply ok_bind_modify. apply ok_bind_get. apply ok_modify. inert_leaf HP.
  Qed.
  Lemma P_prepare s : P s -> okat P (prepare_precondition_gmres E) s.
  Proof.
    intro HP. unfold prepare_precondition_gmres. apply ok_bind_get. apply ok_bind.
    { destruct (is_none (s_slm s)); [|exact HP]. apply ok_bind; [apply P_slab; exact HP|].
      intros _ s1 HP1 _. apply ok_modify. inert_leaf HP1. }
    intros _ s1 HP1 _. apply ok_bind_get, ok_bind.
    { destruct (is_none (s_fim s1) && negb (c_wp c)); [apply P_slab|]; exact HP1. }
    intros _ s2 HP2 _. apply ok_bind_get, ok_bind.
    { destruct (is_none (s_com s2)); [apply P_coupling|]; exact HP2. }
    intros _ s3 HP3 _. apply ok_bind_get, ok_bind.
    { destruct (is_none (s_rhs s3)); [apply P_setup_rhs|]; exact HP3. }
    intros _ s4 HP4 _. apply ok_bind_get.
    destruct (is_none (s_mam s4)); [apply P_mass|]; exact HP4.
  Qed.
  Lemma P_coarse K s : P s -> okat P (prepare_coarse E K) s.
  Proof.
    intro HP. unfold prepare_coarse. apply ok_bind_modify. 
    match goal with |- okat P _ ?t => assert (HP1 : P t) by inert_leaf HP; revert HP1; generalize t end.
    clear s HP. intros s HP. apply ok_bind_fes; [exact HP|]. intro Hf. apply ok_bind_modify, ok_bind_get.
    unfold setup_spacetime_matrix. apply ok_bind_assoc, ok_bind_lift; [inert_leaf HP|]. intros g Hg.
    apply ok_bind_assoc, ok_bind_lift; [inert_leaf HP|]. intros f Hff. apply fem_form_ok in Hff. subst f.
    apply ok_bind_ret, ok_bind_modify.
    match goal with |- okat P _ ?t => assert (HP1 : P t) end.
    { destruct HP as [[] []]. split; constructor; cbn; try assumption; [|eexists; eexists; eauto].
      intro H. rewrite Hf in H. discriminate. }
    revert HP1. match goal with |- P ?t -> _ => generalize t end. clear HP Hf. intros s1 HP.
    apply ok_bind_get. apply ok_bind_need; [exact HP|]. intros l _. apply ok_modify. inert_leaf HP.
  Qed.
  Lemma P_need_coarse {B} (f : coarse -> M state B) s : P s -> (forall K, okat P (f K) s) -> okat P (bind need_coarse f) s.
  Proof.
    intros HP Hf. unfold need_coarse. apply ok_bind_assoc, ok_bind_get. apply ok_bind_assoc, ok_bind_need; [exact HP|]. intros K _.
    apply ok_bind_assoc, ok_bind_errif; [exact HP|]. intros _. apply ok_bind_ret. apply Hf.
  Qed.
  Lemma P_on_heap {A} i (m : M vec A) s : P s -> okat P (on_heap i m) s.
  Proof. intro HP. unfold okat, on_heap. destruct (m (s_heap s i)) as [r v]. cbn [snd]. inert_leaf HP. Qed.
  Lemma P_q_op xi xo s : P s -> okat P (q_op E xi xo) s.
  Proof.
    intro HP. unfold q_op. apply P_need_coarse; [exact HP|]. intro K. apply ok_bind_get. apply ok_bind_need; [exact HP|]. intros t1 _.
    destruct (restrict E K (s_heap s xi) t1) as [r1 t1']. apply ok_bind_modify. apply ok_bind_lift; [inert_leaf HP|]. intros [] _.
    apply ok_bind_get. apply ok_bind_need; [inert_leaf HP|]. intros S0 _. apply ok_bind_need; [inert_leaf HP|]. intros t2 _.
    apply ok_bind_lift; [inert_leaf HP|]. intros u _. apply ok_bind_modify. apply P_on_heap. inert_leaf HP.
  Qed.
  Lemma P_load {B} u (f : unit -> M state B) s : P s -> (forall s', P s' -> okat P (f tt) s') -> okat P (bind (load_solution E u) f) s.
  Proof.
    intros HP Hk. apply ok_bind; [|intros [] s' HP' _; apply Hk; exact HP'].
    unfold load_solution. apply ok_bind_fes; [exact HP|]. intros _.
    apply ok_bind_modify, ok_bind_get, ok_bind_modify, ok_modify. inert_leaf HP.
  Qed.
  Lemma P_measure u s : P s -> okat P (measured_errors E u) s.
  Proof.
    intro HP. unfold measured_errors. apply P_load; [exact HP|]. clear s HP. intros s HP. apply ok_bind_get.
    apply ok_bind_lift; [exact HP|]. intros eT _. apply ok_bind.
    - apply ok_for_acc; [|exact HP]. clear s HP eT. intros n acc s HP. unfold me_slab. cbv zeta. apply ok_bind_get.
      apply ok_bind.
      { destruct (Nat.ltb 0 n); [apply ok_modify; inert_leaf HP|exact HP]. }
      intros _ s1 HP1 _. apply ok_bind_modify. apply ok_bind_errif; [inert_leaf HP1|]. intros _.
      apply ok_bind_get. apply ok_bind_lift; [inert_leaf HP1|]. intros l _. apply ok_ret. inert_leaf HP1.
    - clear HP. intros a s1 HP _. apply ok_bind_lift; [exact HP|]. intros m1 _. apply ok_bind_lift; [exact HP|]. intros m2 _.
      apply ok_bind_lift; [exact HP|]. intros l2 _. exact HP.
  Qed.
  Lemma P_answers {A} (f : A -> answer) m s : okat P m s -> okat P (answers f m) s.
  Proof. intro H. unfold answers. apply ok_bind; [exact H|]. intros a s' HP _. exact HP. Qed.
  Theorem P_step k s : P s -> okat P (step E k) s.
  Proof.
    intro HP. destruct k; unfold step, done; try apply P_answers.
    - apply P_setup_fes, HP.
    - apply ok_bind_fes; [exact HP|]. intros _. apply ok_bind_get. apply P_answers. unfold setup_spacetime_matrix.
      apply ok_bind_lift; [exact HP|]. intros g _. apply ok_bind_lift; [exact HP|]. intros f _. exact HP.
    - apply P_get_matrix, HP.
    - apply P_get_bfi, HP.
    - apply P_setup_rhs, HP.
    - apply P_get_rhs, HP.
    - apply P_get_lfi, HP.
    - apply P_coupling, HP.
    - apply P_mass, HP.
    - apply P_slab, HP.
    - apply P_get_slab_bfi, HP.
    - apply P_get_slab_matrix, HP.
    - exact HP.
    - exact HP.
    - apply ok_modify. inert_leaf HP.
    - apply ok_modify. inert_leaf HP.
    - apply P_apply, HP.
    - apply P_march, HP.
    - apply P_improved, HP.
    - apply P_prepare, HP.
    - apply P_coarse, HP.
    - exact HP.
    - apply ok_modify. inert_leaf HP.
    - unfold prolongation. apply P_need_coarse; [exact HP|]. intro K. apply ok_bind_get, P_on_heap, HP.
    - unfold restriction. apply P_need_coarse; [exact HP|]. intro K. apply ok_bind_get, P_on_heap, HP.
    - apply P_q_op, HP.
    - exact HP.
    - apply P_measure, HP.
    - unfold plot_para_view. apply P_load; [exact HP|]. intros s' HP'. exact HP'.
    - unfold plot. apply ok_bind_fes; [exact HP|]. intros _. apply ok_bind_errif; [exact HP|]. intros _. exact HP.
    - unfold plot_error, plot. apply ok_bind_fes; [exact HP|]. intros _. apply ok_bind_errif; [exact HP|]. intros _. exact HP.
    - apply ok_modify. inert_leaf HP.
  Qed.
  Theorem P_after ks : forall s, P s -> P (after E ks s).
  Proof.
    induction ks as [|k ks IH]; intros s HP; [exact HP|]. cbn [after fold_left]. apply IH. apply (P_step k s HP).
  Qed.
End Inv.

(** the two facts used later *)
Theorem after_wf E om ks s : wfst E om s -> wfst E om (after E ks s).
Proof. intro H. apply (P_after E om s ks). split; [exact H|apply later_refl]. Qed.
Theorem after_later E om ks s : wfst E om s -> later s (after E ks s).
Proof. intro H. apply (P_after E om s ks). split; [exact H|apply later_refl]. Qed.
Lemma after_app E k1 k2 s : after E (k1 ++ k2) s = after E k2 (after E k1 s).
Proof. apply fold_left_app. Qed.
Lemma init_wf E fitted ind heap next : wfst E (s_om (init_state fitted ind heap next)) (init_state fitted ind heap next).
Proof.
  constructor; cbn; auto; try (split; split; intro H; exfalso; apply H; reflexivity).
  - destruct (c_wp (e_c E)); split; reflexivity.
  - split; intro H; exfalso; apply H; reflexivity.
  - intros _. repeat split.
Qed.
