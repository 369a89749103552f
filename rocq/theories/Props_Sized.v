(** Props_Sized.v -- property C94: vectors of the caller that are too long or too short. *)
From Coq Require Import Reals List ZArith Lra Lia Bool String FunctionalExtensionality.
From Verif Require Import Base TimeModel FormModel FormSpec FormProofs SpaceTimeForms FormBlocks FormTime FormC12 FormExample SpaceTimeModel SlabOps ApplyProofs MarchProofs MarchLoops
  ErrorsModel Lifecycle LifeProofs OpsProofs SetupOk LinAlg OpsExample Props_Ops LifeFrames Transfer Sized SizedProofs.
Import ListNotations.
Open Scope R_scope.
Open Scope monad_scope.

Definition dimension (E : env) : nat := lay_dim (e_Lf E).
(** the vectors given to the call have the entries it needs; the coarse one as
    many as the coarse space has *)
Definition long_enough (E : env) (l : nat -> nat) (s : state) (k : call) : Prop :=
  match k with
  | Apply a b | March a b | Improved a b | Qop a b => (dimension E <= l a /\ dimension E <= l b)%nat
  | Prolong xc xf | Restrict xc xf => (dimension E <= l xf)%nat /\ forall K, s_crs s = Some K -> (lay_dim (k_L K) <= l xc)%nat
  | Measure u | Paraview _ u | Plot _ u _ _ _ | Plot_error _ u _ _ => l u = dimension E
  | _ => True
  end.
(** the calls that use index lists, and those that copy a whole vector *)
Definition indexed (k : call) : bool :=
  match k with Apply _ _ | March _ _ | Improved _ _ | Qop _ _ | Prolong _ _ | Restrict _ _ => true | _ => false end.
Definition copied (k : call) : option nat :=
  match k with Measure u | Paraview _ u | Plot _ u _ _ _ | Plot_error _ u _ _ => Some u | _ => None end.
(** the spaces of the coarse mesh are well-formed *)
Definition coarse_ok (E : env) (s : state) : Prop :=
  forall K, s_crs s = Some K -> lay_ok (k_D K) 4 (nc_full (e_c E)) (k_L K).

Lemma guarded_answers {A} (f : A -> answer) b (m' m : M state A) s : guarded b m' m s -> guarded b (answers f m') (answers f m) s.
Proof. intro H. unfold answers. rewrite <- (andb_true_r b). apply guarded_bind; [exact H|]. intros _ a s1 _. reflexivity. Qed.
Lemma guarded_done b (m' m : M state unit) s : guarded b m' m s -> guarded b (done m') (done m) s.
Proof. apply guarded_answers. Qed.
Lemma guarded_heap b i (m' m : M vec unit) s : guarded b m' m (s_heap s i) -> guarded b (on_heap i m') (on_heap i m) s.
Proof.
  unfold guarded, on_heap. destruct b.
  - intros ->. reflexivity.
  - intros H a s1. destruct (m (s_heap s i)) as [r v] eqn:Em. intro X. injection X as -> _. destruct a.
    destruct (H tt v eq_refl) as [v' ->]. eexists. reflexivity.
Qed.
Lemma need_coarse_ok s K s1 : need_coarse s = (Ok K, s1) -> s1 = s /\ s_crs s = Some K.
Proof.
  unfold need_coarse. rewrite bind_get. destruct (s_crs s) as [K0|] eqn:Ek; [|discriminate].
  unfold need. unfold bind, ret, err_if, raise. destruct (negb (s_nod s)); intro X; [discriminate X|]. injection X as -> ->. auto.
Qed.

Lemma bind_same {S A B} (m : M S A) (f g : A -> M S B) s : (forall a s1, m s = (Ok a, s1) -> f a s1 = g a s1) -> bind m f s = bind m g s.
Proof. intro H. unfold bind. destruct (m s) as [[a|e] s1] eqn:Em; [exact (H a s1 eq_refl)|reflexivity]. Qed.
Lemma bind_left {S A B} (m m' : M S A) (f : A -> M S B) s : m s = m' s -> bind m f s = bind m' f s.
Proof. intro H. unfold bind. rewrite H. reflexivity. Qed.

Section Calls.
  Variable E : env.
  Hypothesis HE : env_ok E.
  Variable l : nat -> nat.
  Notation dim := (dimension E).
  Lemma prolongation_guarded xc xf s : coarse_ok E s ->
    guarded (Nat.leb (match s_crs s with Some K => lay_dim (k_L K) | None => 0 end) (l xc) && Nat.leb dim (l xf)) (sz_prolongation E l xc xf) (prolongation E xc xf) s.
  Proof.
    intro HC. unfold sz_prolongation, prolongation. apply guarded_same. intros K s1 HK. apply need_coarse_ok in HK as [-> HK].
    rewrite HK. apply guard_get. apply guarded_heap. apply prolong_guarded; [exact HE|apply HC, HK].
  Qed.
  Lemma restriction_guarded xc xf s : coarse_ok E s ->
    guarded (Nat.leb dim (l xf) && Nat.leb (match s_crs s with Some K => lay_dim (k_L K) | None => 0 end) (l xc)) (sz_restriction E l xc xf) (restriction E xc xf) s.
  Proof.
    intro HC. unfold sz_restriction, restriction. apply guarded_same. intros K s1 HK. apply need_coarse_ok in HK as [-> HK].
    rewrite HK. apply guard_get. apply guarded_heap. apply restrict_guarded; [exact HE|apply HC, HK].
  Qed.
  Lemma q_op_guarded xi xo s : coarse_ok E s -> guarded (Nat.leb dim (l xi) && Nat.leb dim (l xo)) (sz_q_op E l xi xo) (q_op E xi xo) s.
  Proof.
    intro HC. unfold sz_q_op, q_op. apply guarded_same. intros K s1 HK. apply need_coarse_ok in HK as [-> HK].
    apply guard_get. apply guarded_same. intros t1 s2 _.
    pose proof (restrict_guarded E HE K (HC K HK) (lay_dim (k_L K)) (l xi) (s_heap s xi) t1) as HR. rewrite Nat.leb_refl, andb_true_r in HR.
    fold dim in HR. destruct (Nat.leb dim (l xi)) eqn:Ei; cbn [andb]; unfold guarded in HR.
    - rewrite HR. destruct (restrict E K (s_heap s xi) t1) as [r1 t1']. apply guarded_same. intros _ s3 _. apply guarded_same. intros _ s4 _.
      apply guard_get. apply guarded_same. intros S0 s5 _. apply guarded_same. intros t2 s6 _. apply guarded_same. intros u s7 _.
      apply guarded_same. intros _ s8 _. apply guarded_heap.
      pose proof (prolong_guarded E HE K (HC K HK) (lay_dim (k_L K)) (l xo) u (s_heap s8 xo)) as HP. rewrite Nat.leb_refl in HP. exact HP.
    - intros a s3 Hx. destruct (restrict E K (s_heap s xi) t1) as [[[]|e] t1'] eqn:Er.
      + destruct (HR tt t1' eq_refl) as [v' ->]. eexists. reflexivity.
      + discriminate Hx.
  Qed.
  Lemma load_same u : l u = dim -> forall s, sz_load E l u s = load_solution E u s.
  Proof.
    intros Hl s. unfold sz_load, load_solution. change (dimension E) with (lay_dim (e_Lf E)) in Hl.
    apply bind_same. intros [] s1 _. rewrite bind_get. unfold whole. rewrite Hl, Nat.eqb_refl. reflexivity.
  Qed.
End Calls.

(** With vectors that are long enough (or, where a whole vector is copied, of
    exactly the dimension) lengths play no role: no IndexError is possible. *)
Theorem C94_enough : forall E l s k, env_ok E -> coarse_ok E s -> long_enough E l s k -> sz_step E l k s = step E k s.
Proof.
  intros E l s k HE HC H.
  assert (L1 : forall n m, (n <= m)%nat -> Nat.leb n m = true) by (intros; apply Nat.leb_le; assumption).
  destruct k; try reflexivity; cbn [long_enough sz_step step] in *; unfold dimension in H.
  - pose proof (guarded_done _ _ _ s (apply_guarded E HE l vi vo s)) as G. rewrite (L1 _ _ (proj1 H)), (L1 _ _ (proj2 H)) in G. exact G.
  - pose proof (guarded_done _ _ _ s (march_guarded E HE l b x s)) as G. rewrite (L1 _ _ (proj1 H)), (L1 _ _ (proj2 H)) in G. exact G.
  - pose proof (guarded_done _ _ _ s (improved_guarded E HE l b x s)) as G. rewrite (L1 _ _ (proj1 H)), (L1 _ _ (proj2 H)) in G. exact G.
  - pose proof (guarded_done _ _ _ s (prolongation_guarded E HE l xc xf s HC)) as G. unfold dimension in G. rewrite (L1 _ _ (proj1 H)) in G.
    rewrite (L1 (match s_crs s with Some K => lay_dim (k_L K) | None => 0 end)%nat) in G; [exact G|]. destruct (s_crs s) as [K|] eqn:Ek; [apply (proj2 H), eq_refl|lia].
  - pose proof (guarded_done _ _ _ s (restriction_guarded E HE l xc xf s HC)) as G. unfold dimension in G. rewrite (L1 _ _ (proj1 H)) in G.
    rewrite (L1 (match s_crs s with Some K => lay_dim (k_L K) | None => 0 end)%nat) in G; [exact G|]. destruct (s_crs s) as [K|] eqn:Ek; [apply (proj2 H), eq_refl|lia].
  - pose proof (guarded_done _ _ _ s (q_op_guarded E HE l xi xo s HC)) as G. unfold dimension in G. rewrite (L1 _ _ (proj1 H)), (L1 _ _ (proj2 H)) in G. exact G.
  - unfold answers, sz_errors, measured_errors. apply bind_left, bind_left. exact (load_same E l u H s).
  - unfold answers, sz_para_view, plot_para_view. apply bind_left, bind_left. exact (load_same E l u H s).
  - unfold answers, sz_plot, plot, whole. rewrite H, Nat.eqb_refl. apply bind_left.
    apply bind_same. intros [] s1 _. rewrite bind_get. change (lift (Ok ?v)) with (@ret state _ v).
    unfold err_if, bind, ret, raise, get. destruct (is_zero _ && _ && _); reflexivity.
  - unfold answers, sz_plot, plot_error, plot, whole. rewrite H, Nat.eqb_refl. apply bind_left.
    apply bind_same. intros [] s1 _. rewrite bind_get. change (lift (Ok ?v)) with (@ret state _ v).
    unfold err_if, bind, ret, raise, get. destruct (is_zero _ && _ && _); reflexivity.
Qed.

(** With a vector that is too short, every call that would have returned raises
    IndexError. *)
Theorem C94_short : forall E l s k a s1, env_ok E -> coarse_ok E s -> indexed k = true -> ~ long_enough E l s k ->
  step E k s = (Ok a, s1) -> exists s', sz_step E l k s = (Err IndexError, s').
Proof.
  intros E l s k a s1 HE HC Hk H Hs.
  assert (L2 : forall n m n' m', ~ (n <= m /\ n' <= m')%nat -> Nat.leb n m && Nat.leb n' m' = false).
  { intros n m n' m' X. apply andb_false_iff. rewrite !Nat.leb_gt. lia. }
  destruct k; try discriminate Hk; cbn [long_enough sz_step step] in *; unfold dimension in H.
  - pose proof (guarded_done _ _ _ s (apply_guarded E HE l vi vo s)) as G. rewrite L2 in G by exact H. exact (G a s1 Hs).
  - pose proof (guarded_done _ _ _ s (march_guarded E HE l b x s)) as G. rewrite L2 in G by exact H. exact (G a s1 Hs).
  - pose proof (guarded_done _ _ _ s (improved_guarded E HE l b x s)) as G. rewrite L2 in G by exact H. exact (G a s1 Hs).
  - pose proof (guarded_done _ _ _ s (prolongation_guarded E HE l xc xf s HC)) as G. unfold dimension in G. rewrite L2 in G; [exact (G a s1 Hs)|].
    intros [X1 X2]. apply H. split; [exact X2|]. intros K HK. rewrite HK in X1. exact X1.
  - pose proof (guarded_done _ _ _ s (restriction_guarded E HE l xc xf s HC)) as G. unfold dimension in G. rewrite L2 in G; [exact (G a s1 Hs)|].
    intros [X1 X2]. apply H. split; [exact X1|]. intros K HK. rewrite HK in X2. exact X2.
  - pose proof (guarded_done _ _ _ s (q_op_guarded E HE l xi xo s HC)) as G. unfold dimension in G. rewrite L2 in G by exact H. exact (G a s1 Hs).
Qed.

(** Where a whole vector is copied a single entry is enough: it is used as the
    value of every coefficient, without an error.  Any other length but the
    dimension raises ValueError and leaves the object as it was. *)
Definition with_vector (k : call) (i : nat) : call :=
  match k with
  | Measure _ => Measure i | Paraview pt _ => Paraview pt i
  | Plot ev _ a b c => Plot ev i a b c | Plot_error ev _ a b => Plot_error ev i a b
  | k => k
  end.
Theorem C94_one_entry : forall E l s k u i, copied k = Some u -> l u = 1%nat -> dimension E <> 1%nat -> l i = dimension E ->
  s_heap s i = (fun _ => s_heap s u 0%nat) -> sz_step E l k s = sz_step E l (with_vector k i) s.
Proof.
  intros E l s k u i Hk Hu Hd Hi Hv. unfold dimension in *.
  assert (W : whole (lay_dim (e_Lf E)) (l u) (s_heap s u) = whole (lay_dim (e_Lf E)) (l i) (s_heap s i)).
  { unfold whole. rewrite Hu, Hi, (Nat.eqb_refl (lay_dim (e_Lf E))), Hv. change (Nat.eqb 1 1) with true. cbv iota. destruct (Nat.eqb_spec 1 (lay_dim (e_Lf E))) as [X|X]; [congruence|reflexivity]. }
  assert (F : forall e s1, need_fes e s = (Ok tt, s1) -> s1 = s).
  { intros e s1. unfold need_fes, bind, get, err_if. destruct (negb (s_fes s)); intro X; [discriminate X|]. injection X. auto. }
  destruct k; cbn [copied] in Hk; try discriminate Hk; injection Hk as ->; cbn [with_vector sz_step]; unfold answers; apply bind_left.
  - unfold sz_errors. apply bind_left. unfold sz_load. apply bind_same. intros [] s1 X. apply F in X as ->. rewrite !bind_get. rewrite W. reflexivity.
  - unfold sz_para_view. apply bind_left. unfold sz_load. apply bind_same. intros [] s1 X. apply F in X as ->. rewrite !bind_get. rewrite W. reflexivity.
  - unfold sz_plot. apply bind_same. intros [] s1 X. apply F in X as ->. rewrite !bind_get. rewrite W. reflexivity.
  - unfold sz_plot. apply bind_same. intros [] s1 X. apply F in X as ->. rewrite !bind_get. rewrite W. reflexivity.
Qed.
Theorem C94_other_length : forall E l s k u, copied k = Some u -> s_fes s = true -> l u <> dimension E -> l u <> 1%nat ->
  sz_step E l k s = (Err ValueError, s).
Proof.
  intros E l s k u Hk Hf H1 H2. unfold dimension in H1.
  assert (W : whole (lay_dim (e_Lf E)) (l u) (s_heap s u) = Err ValueError).
  { unfold whole. destruct (Nat.eqb_spec (l u) (lay_dim (e_Lf E))); [contradiction|]. destruct (Nat.eqb_spec (l u) 1); [contradiction|reflexivity]. }
  destruct k; cbn [copied] in Hk; try discriminate Hk; injection Hk as ->; cbn [sz_step]; unfold answers; apply bind_err;
    [unfold sz_errors; apply bind_err; unfold sz_load|unfold sz_para_view; apply bind_err; unfold sz_load|unfold sz_plot|unfold sz_plot];
    rewrite bind_fes_ok by exact Hf; rewrite bind_get, W; reflexivity.
Qed.

(** What lies beyond the dimension: apply_spacetime_matrix sets it to zero, the
    other calls leave it as it was, even when they fail. *)
Lemma move_tail add Ld Ls prs src k : forall dst,
  (forall a b x, In (a, b, x) prs -> ~ In k (lay_sub Ld a b)) -> move add Ld Ls prs src dst k = dst k.
Proof.
  induction prs as [|[[jd id] [js is]] prs IH]; intros dst H; [reflexivity|]. unfold move. cbn [fold_left]. fold (move add Ld Ls prs src).
  change (move add Ld Ls prs src ((if add then scatter_add else scatter) dst (lay_sub Ld jd id) (gather src (lay_sub Ls js is))) k = dst k).
  rewrite IH.
  - destruct add; [apply scatter_add_out|apply scatter_out]; exact (H jd id (js, is) (or_introl eq_refl)).
  - intros a b x Hin. apply (H a b x). right. exact Hin.
Qed.
Section Tail.
  Variable E : env.
  Hypothesis HE : env_ok E.
  Notation c := (e_c E).
  Variables (o k : nat) (v0 : R).
  Hypothesis Hk : (dimension E <= k)%nat.
  Definition tail_is (s : state) : Prop := s_heap s o k = v0.
  Lemma full_out j i : (j < 4)%nat -> (i < nc_full c j)%nat -> ~ In k (lay_sub (e_Lf E) j i).
  Proof.
    intros Hj Hi X. pose proof (in_all_dofs 4 (nc_full c) _ j i k Hj Hi X) as Y. apply (wl_range _ _ _ _ (eo_f _ HE)) in Y.
    unfold dimension in Hk. lia.
  Qed.
  Lemma slab_tail add Ls src dst n : (n < c_N c)%nat -> move add (e_Lf E) Ls (flip_pairs (slab_pairs c (cntn c n))) src dst k = dst k.
  Proof.
    intro Hn. apply move_tail. intros a b [a' b'] Hin. apply (proj1 (in_flips _ _ _)) in Hin. apply (proj1 (in_slab_pairs E n _ _ _ _)) in Hin as [H1 [H2 [-> ->]]].
    apply full_out; [exact H1|]. unfold nc_full. nia.
  Qed.
  Lemma coup_tail add Ls src dst n : (0 < n < c_N c)%nat -> move add (e_Lf E) Ls (flip_pairs (coup_pairs (cntn c n))) src dst k = dst k.
  Proof.
    intro Hn. apply move_tail. intros a b [a' b'] Hin. apply (proj1 (in_flips _ _ _)) in Hin. apply (proj1 (in_coup_pairs E n _ _ _ _ (proj1 Hn))) in Hin as [H1 [H2 [-> ->]]].
    apply full_out; [lia|]. unfold nc_full, ntime, sto. destruct (Nat.ltb_spec a' 2); [nia|lia].
  Qed.
  Lemma put_tail i v s : tail_is s -> (forall w, w = s_heap s i -> v k = w k) -> tail_is (put i v s).
  Proof.
    unfold tail_is, put. cbn [s_heap w_heap]. intros H1 H2. destruct (Nat.eqb_spec o i) as [->|]; [|exact H1].
    rewrite (H2 _ eq_refl). exact H1.
  Qed.
  Lemma tail_slabs body m : forall a s, (forall n s, (a <= n < a + m)%nat -> tail_is s -> okat tail_is (body n (cntn c n)) s) -> tail_is s ->
    okat tail_is (slabs c body (seq a m) (cntn c a)) s.
  Proof.
    induction m as [|m IH]; intros a s Hb Hs; cbn [seq slabs]; [exact Hs|]. apply ok_bind; [apply Hb; [lia|exact Hs]|].
    intros _ s1 H1 _. rewrite cnt_next_n. apply IH; [|exact H1]. intros n s2 Hn. apply Hb. lia.
  Qed.
  Ltac tleaf Hn := idtac; first [leaf | apply put_tail; [leaf|intros ? ->; first [apply slab_tail|apply coup_tail]; solve [exact Hn|split; [assumption|exact Hn]]]].
  Lemma apply_tail vi vo n s : (n < c_N c)%nat -> tail_is s -> okat tail_is (apply_slab E vi vo n (cntn c n)) s.
  Proof. intros Hn HQ. unfold apply_slab. destruct (Nat.ltb_spec 0 n) as [L|L]; walk ltac:(tleaf Hn). Qed.
  Lemma pre_tail gj b x n s : (n < c_N c)%nat -> tail_is s -> okat tail_is (pre_slab E gj b x n (cntn c n)) s.
  Proof. intros Hn HQ. unfold pre_slab. walk ltac:(tleaf Hn). Qed.
  Lemma imp_tail b x n s : (n < c_N c)%nat -> tail_is s -> okat tail_is (imp_slab E b x n (cntn c n)) s.
  Proof. intros Hn HQ. unfold imp_slab. walk ltac:(tleaf Hn). Qed.
End Tail.
Section TransTail.
  Variables (E : env) (D1 : disc) (L1 : layout) (k : nat) (v0 : R).
  Hypothesis HL : lay_ok D1 4 (nc_full (e_c E)) L1.
  Hypothesis Hk : (lay_dim L1 <= k)%nat.
  Notation c := (e_c E).
  Lemma trans_tail interp nsrc ndst src (is : nat -> nat -> list nat) m : forall a (w : vec), (a + m <= c_N c)%nat -> w k = v0 ->
    snd (trans_loop E (fun '(j, i) => trans_comp interp nsrc ndst src (is j i) (lay_sub L1 j i)) (seq a m) (cntn c a) w) k = v0.
  Proof.
    assert (B : forall n prs (w : vec), (n < c_N c)%nat -> (forall p, In p prs -> In p (slab_comps E n)) -> w k = v0 ->
      snd (for_each prs (fun '(j, i) => trans_comp interp nsrc ndst src (is j i) (lay_sub L1 j i)) w) k = v0).
    { intros n prs. induction prs as [|[j i] prs IH]; intros w Hn Hp Hw; [exact Hw|]. cbn [for_each].
      assert (X : snd (trans_comp interp nsrc ndst src (is j i) (lay_sub L1 j i) w) k = v0).
      { unfold trans_comp, bind, lift, modify. destruct (np_assign nsrc _) as [x|e]; [|exact Hw]. destruct (np_assign (List.length _) _) as [y|e]; [|exact Hw].
        cbn [snd]. rewrite scatter_out; [exact Hw|]. intro X. destruct (proj1 (in_slab_comps E n j i) (Hp _ (or_introl eq_refl))) as [Hj Hi].
        pose proof (in_all_dofs 4 (nc_full c) L1 j i k Hj ltac:(unfold nc_full; nia) X) as Y. apply (wl_range _ _ _ _ HL) in Y. lia. }
      unfold bind. destruct (trans_comp _ _ _ _ _ _ w) as [[[]|e] w1]; cbn [snd] in X |- *; [|exact X].
      apply IH; [exact Hn| |exact X]. intros p Hin. apply Hp. right. exact Hin. }
    induction m as [|m IH]; intros a w Ha Hw; [exact Hw|]. cbn [seq trans_loop]. rewrite trans_pairs_n. unfold bind.
    pose proof (B a (slab_comps E a) w ltac:(lia) (fun _ H => H) Hw) as X.
    destruct (for_each (slab_comps E a) _ w) as [[[]|e] w1]; cbn [snd] in X |- *; [|exact X]. rewrite cnt_next_n. apply IH; [lia|exact X].
  Qed.
End TransTail.
Lemma snd_answers {A} (f : A -> answer) (m : M state A) s : snd (answers f m s) = snd (m s).
Proof. unfold answers, bind, ret. destruct (m s) as [[a|e] s1]; reflexivity. Qed.
Theorem C94_tail : forall E s i, env_ok E -> coarse_ok E s ->
  ((dimension E <= i)%nat ->
    (forall vi vo, s_heap (snd (step E (Apply vi vo) s)) vo i = 0) /\
    (forall b x, s_heap (snd (step E (March b x) s)) x i = s_heap s x i) /\
    (forall b x, s_heap (snd (step E (Improved b x) s)) x i = s_heap s x i) /\
    (forall xc xf, s_heap (snd (step E (Prolong xc xf) s)) xf i = s_heap s xf i)) /\
  (forall K, s_crs s = Some K -> (lay_dim (k_L K) <= i)%nat ->
    forall xc xf, s_heap (snd (step E (Restrict xc xf) s)) xc i = s_heap s xc i).
Proof.
  intros E s i HE HC. split.
  - intro Hi. split; [|split; [|split]].
    + intros vi vo. cbn [step]. unfold done. rewrite snd_answers. unfold apply_spacetime_matrix. rewrite bind_modify.
      rewrite (cnt0_n (e_c E)). change (tail_is vo i 0 (snd (slabs (e_c E) (apply_slab E vi vo) (seq 0 (c_N (e_c E))) (cntn (e_c E) 0) (put vo vzero s)))).
      apply (tail_slabs E vo i 0 Hi).
      * intros n s1 Hn HQ. apply apply_tail; auto. lia.
      * unfold tail_is, put. cbn [s_heap w_heap]. rewrite Nat.eqb_refl. reflexivity.
    + intros b x. cbn [step]. unfold done. rewrite snd_answers. unfold pre_time_marching. unfold bind, lift.
      destruct (lookup (c_stab (e_c E)) "primal-jump") as [gj|e]; [|reflexivity]. rewrite (cnt0_n (e_c E)).
      apply (tail_slabs E x i (s_heap s x i) Hi); [|reflexivity]. intros n s1 Hn HQ. apply pre_tail; auto. lia.
    + intros b x. cbn [step]. unfold done. rewrite snd_answers.
      change (okat (tail_is x i (s_heap s x i)) (pre_time_marching_improved E b x) s). unfold pre_time_marching_improved.
      assert (HQ : tail_is x i (s_heap s x i) s) by reflexivity. revert HQ. generalize (s_heap s x i) as v0. intros v0 HQ.
      apply ok_bind_errif; [exact HQ|intros _]. apply ok_bind_lift; [exact HQ|intros gj _]. apply ok_bind_get.
      apply ok_bind_need; [exact HQ|intros r0 _]. apply ok_bind_modify. rewrite (cnt0_n (e_c E)). apply (tail_slabs E x i v0 Hi); [|exact HQ].
      intros n s1 Hn HQ1. apply imp_tail; auto. lia.
    + intros xc xf. cbn [step]. unfold done. rewrite snd_answers. unfold prolongation.
      destruct (need_coarse s) as [[K|e] s1] eqn:En; [|rewrite (bind_err _ _ _ _ _ En)].
      2: { cbn [snd]. unfold need_coarse, bind, get, need, ret, raise, err_if in En. destruct (s_crs s); [destruct (negb (s_nod s))|]; injection En; intros; subst; reflexivity. }
      rewrite (bind_ok _ _ _ _ _ En). apply need_coarse_ok in En as [-> HK]. rewrite bind_get. unfold on_heap.
      pose proof (trans_tail E (e_D E) (e_Lf E) i (s_heap s xf i) (eo_f _ HE) Hi (k_up K) (d_dim (k_D K) Vp) (d_dim (e_D E) Vp) (s_heap s xc)
        (lay_sub (k_L K)) (c_N (e_c E)) 0 (s_heap s xf) ltac:(lia) eq_refl) as X.
      unfold prolong. rewrite (cnt0_n (e_c E)). destruct (trans_loop E _ _ _ (s_heap s xf)) as [r w]. cbn [snd] in X |- *.
      unfold put. cbn [s_heap w_heap]. rewrite Nat.eqb_refl. exact X.
  - intros K HK Hi xc xf. cbn [step]. unfold done. rewrite snd_answers. unfold restriction.
    destruct (need_coarse s) as [[K'|e] s1] eqn:En; [|rewrite (bind_err _ _ _ _ _ En)].
    2: { cbn [snd]. unfold need_coarse, bind, get, need, ret, raise, err_if in En. destruct (s_crs s); [destruct (negb (s_nod s))|]; injection En; intros; subst; reflexivity. }
    rewrite (bind_ok _ _ _ _ _ En). apply need_coarse_ok in En as [-> HK']. rewrite HK in HK'. injection HK' as <-. rewrite bind_get. unfold on_heap.
    pose proof (trans_tail E (k_D K) (k_L K) i (s_heap s xc i) (HC K HK) Hi (k_down K) (d_dim (e_D E) Vp) (d_dim (k_D K) Vp) (s_heap s xf)
      (lay_sub (e_Lf E)) (c_N (e_c E)) 0 (s_heap s xc) ltac:(lia) eq_refl) as X.
    unfold restrict. rewrite (cnt0_n (e_c E)). destruct (trans_loop E _ _ _ (s_heap s xc)) as [r w]. cbn [snd] in X |- *.
    unfold put. cbn [s_heap w_heap]. rewrite Nat.eqb_refl. exact X.
Qed.

(** apply_spacetime_matrix overwrites its output before it looks at the input:
    what was in it is lost even if the call fails *)
Lemma heap_twice h h' s : w_heap h (w_heap h' s) = w_heap h s.
Proof. destruct s; reflexivity. Qed.
Lemma put_twice i v w s : put i v (put i w s) = put i v s.
Proof.
  unfold put at 1. rewrite (eq_refl : put i w s = w_heap (fun k => if Nat.eqb k i then w else s_heap s k) s). rewrite heap_twice.
  unfold put. apply f_equal2; [|reflexivity]. apply functional_extensionality. intro k. cbn [s_heap w_heap]. destruct (Nat.eqb k i); reflexivity.
Qed.
Theorem C94_overwritten : forall E l s vi vo v, sz_step E l (Apply vi vo) (put vo v s) = sz_step E l (Apply vi vo) s.
Proof.
  intros E l s vi vo v. cbn [sz_step]. unfold done, answers, sz_apply.
  assert (X : forall s0, bind (modify (put vo vzero)) (fun _ => slabs (e_c E) (sz_apply_slab E l vi vo) (seq 0 (c_N (e_c E))) cnt0) s0
    = slabs (e_c E) (sz_apply_slab E l vi vo) (seq 0 (c_N (e_c E))) cnt0 (put vo vzero s0)) by reflexivity.
  unfold bind at 1 3. rewrite !X, put_twice. reflexivity.
Qed.

(** An input that ends in slab m: the first m slabs are worked through, as if
    the loop ended there, and then IndexError is raised. *)
Definition upto (c : config) (body : nat -> counters -> M state unit) (m : nat) : M state unit := slabs c body (seq 0 m) cnt0.
Definition ends_in (E : env) (len m : nat) : Prop :=
  (m < c_N (e_c E))%nat /\
  (forall n j i k, (n < m)%nat -> (j < 4)%nat -> (i < ntime (e_c E) j)%nat -> In k (lay_sub (e_Lf E) j (n * ntime (e_c E) j + i)) -> (k < len)%nat) /\
  exists j i k, (j < 4)%nat /\ (i < ntime (e_c E) j)%nat /\ In k (lay_sub (e_Lf E) j (m * ntime (e_c E) j + i)) /\ (len <= k)%nat.
Theorem C94_ends : forall E len, env_ok E -> (len < dimension E)%nat <-> exists m, ends_in E len m.
Proof.
  intros E len HE. split.
  - intro H. assert (X : forallb (slab_in E len) (seq 0 (c_N (e_c E))) = false) by (rewrite all_slabs by exact HE; apply Nat.leb_gt; exact H).
    assert (Y : forall a m, forallb (slab_in E len) (seq a m) = false -> exists p, (a <= p < a + m)%nat /\ slab_in E len p = false /\ forall n, (a <= n < p)%nat -> slab_in E len n = true).
    { clear. intros a m. revert a. induction m as [|m IH]; intros a H; [discriminate H|]. cbn [seq forallb] in H.
      destruct (slab_in E len a) eqn:Ea.
      - destruct (IH (S a) H) as [p [P1 [P2 P3]]]. exists p. split; [lia|]. split; [exact P2|]. intros n Hn. destruct (Nat.eq_dec n a) as [->|]; [exact Ea|apply P3; lia].
      - exists a. split; [lia|]. split; [exact Ea|]. intros n Hn. lia. }
    destruct (Y _ _ X) as [m [M1 [M2 M3]]]. exists m. split; [lia|]. split.
    + intros n j i k Hn Hj Hi Hin. specialize (M3 n ltac:(lia)). rewrite slab_in_iff in M3. specialize (M3 j (n * ntime (e_c E) j + i)%nat Hj ltac:(lia)).
      rewrite inside_iff in M3. exact (M3 k Hin).
    + unfold slab_in in M2. clear - M2.
      assert (Z : forall prs, forallb (fun '(j, i) => inside len (lay_sub (e_Lf E) j i)) prs = false -> exists j i k, In (j, i) prs /\ In k (lay_sub (e_Lf E) j i) /\ (len <= k)%nat).
      { induction prs as [|[j i] prs IH]; intro H; [discriminate H|]. cbn [forallb] in H. destruct (inside len (lay_sub (e_Lf E) j i)) eqn:Ei.
        - destruct (IH H) as [j' [i' [k [A B]]]]. exists j', i', k. split; [right; exact A|exact B].
        - exists j, i. clear - Ei. assert (W : exists k, In k (lay_sub (e_Lf E) j i) /\ (len <= k)%nat).
          { induction (lay_sub (e_Lf E) j i) as [|k ks IH]; [discriminate Ei|]. cbn [inside forallb] in Ei. destruct (Nat.ltb_spec k len) as [L|L].
            - destruct (IH Ei) as [k' [A B]]. exists k'. split; [right; exact A|exact B].
            - exists k. split; [left; reflexivity|exact L]. }
          destruct W as [k [A B]]. exists k. split; [left; reflexivity|]. auto. }
      destruct (Z _ M2) as [j [i [k [A [B C]]]]]. apply (proj1 (in_slab_comps E m j i)) in A as [A1 A2]. exists j, (i - m * ntime (e_c E) j)%nat, k.
      split; [exact A1|]. split; [lia|]. split; [|exact C]. replace (m * ntime (e_c E) j + (i - m * ntime (e_c E) j))%nat with i by lia. exact B.
  - intros [m [H1 [_ [j [i [k [Hj [Hi [Hin Hk]]]]]]]]]. apply Nat.le_lt_trans with k; [exact Hk|]. unfold dimension. apply (wl_range _ _ _ _ (eo_f _ HE)).
    apply (in_all_dofs 4 (nc_full (e_c E)) _ j (m * ntime (e_c E) j + i)); [exact Hj|unfold nc_full; nia|exact Hin].
Qed.

Lemma seq_cut m N : (m < N)%nat -> seq 0 N = seq 0 m ++ m :: seq (S m) (N - S m).
Proof. intro H. replace N with (m + S (N - S m))%nat at 1 by lia. rewrite seq_app. reflexivity. Qed.
Lemma slabs_cut c body xs : forall ys a s, slabs c body (xs ++ ys) (cntn c a) s =
  bind (slabs c body xs (cntn c a)) (fun _ => slabs c body ys (cntn c (a + List.length xs))) s.
Proof.
  induction xs as [|x xs IH]; intros ys a s; cbn [app slabs List.length].
  - rewrite Nat.add_0_r. reflexivity.
  - unfold bind. destruct (body x (cntn c a) s) as [[[]|e] s1]; [|reflexivity]. rewrite cnt_next_n, IH. unfold bind.
    replace (S a + List.length xs)%nat with (a + S (List.length xs))%nat by lia. reflexivity.
Qed.
Lemma ends_slabs E len m : ends_in E len m -> (forall n, (n < m)%nat -> slab_in E len n = true) /\ slab_in E len m = false.
Proof.
  intros [Hm [H1 [j [i [k [Hj [Hi [Hin Hk]]]]]]]]. split.
  - intros n Hn. apply slab_in_iff. intros j0 i0 Hj0 Hi0. apply inside_iff. intros k0 Hk0. apply (H1 n j0 (i0 - n * ntime (e_c E) j0)%nat k0 Hn Hj0 ltac:(lia)).
    replace (n * ntime (e_c E) j0 + (i0 - n * ntime (e_c E) j0))%nat with i0 by lia. exact Hk0.
  - destruct (slab_in E len m) eqn:Em; [|reflexivity]. exfalso. rewrite slab_in_iff in Em. specialize (Em j (m * ntime (e_c E) j + i)%nat Hj ltac:(lia)).
    rewrite inside_iff in Em. specialize (Em k Hin). lia.
Qed.
Section Stops.
  Variable E : env.
  Hypothesis HE : env_ok E.
  Variable l : nat -> nat.
  Notation c := (e_c E).
  (** a loop whose slab m fails without touching the vector o *)
  Lemma loop_stops (f' f : nat -> counters -> M state unit) o m s s1 s2 : (m < c_N c)%nat ->
    (forall n s, (n < m)%nat -> guarded true (f' n (cntn c n)) (f n (cntn c n)) s) ->
    slabs c f (seq 0 m) cnt0 s = (Ok tt, s1) ->
    (forall s2, f m (cntn c m) s1 = (Ok tt, s2) -> exists s', f' m (cntn c m) s1 = (Err IndexError, s') /\ s_heap s' o = s_heap s1 o) ->
    slabs c f (seq 0 (c_N c)) cnt0 s = (Ok tt, s2) ->
    exists s', slabs c f' (seq 0 (c_N c)) cnt0 s = (Err IndexError, s') /\ s_heap s' o = s_heap s1 o.
  Proof.
    intros Hm Hg H1 Hs H2. rewrite (cnt0_n c) in *. rewrite (seq_cut m (c_N c) Hm) in *. rewrite slabs_cut in *.
    assert (G : slabs c f' (seq 0 m) (cntn c 0) s = (Ok tt, s1)).
    { rewrite <- H1. pose proof (guarded_slabs E f' f (fun _ => true) m 0 s) as G.
      assert (T : forall xs, forallb (fun _ : nat => true) xs = true) by (induction xs as [|x xs IH]; [reflexivity|exact IH]).
      rewrite T in G. apply G. intros n s0 Hn. apply Hg. lia. }
    rewrite (bind_ok _ _ _ _ _ G). rewrite (bind_ok _ _ _ _ _ H1) in H2. rewrite seq_length in *. cbn [Nat.add slabs] in *.
    destruct (f m (cntn c m) s1) as [[[]|e] s3] eqn:Ef; [|rewrite (bind_err _ _ _ _ _ Ef) in H2; discriminate H2].
    destruct (Hs s3 eq_refl) as [s' [A B]]. exists s'. rewrite (bind_err _ _ _ _ _ A). auto.
  Qed.
  Lemma errif_ok {A} b e (f : unit -> M state A) s r s1 : bind (err_if b e) f s = (Ok r, s1) -> b = false /\ f tt s = (Ok r, s1).
  Proof. destruct b; intro H; [discriminate H|]. split; [reflexivity|exact H]. Qed.
  Lemma need_ok {A B} (o : option B) e (f : B -> M state A) s r s1 : bind (need o e) f s = (Ok r, s1) -> exists x, o = Some x /\ f x s = (Ok r, s1).
  Proof. destruct o as [x|]; intro H; [|discriminate H]. exists x. split; [reflexivity|exact H]. Qed.
  Lemma fes_ok {A} e (f : unit -> M state A) s r s1 : bind (need_fes e) f s = (Ok r, s1) -> s_fes s = true /\ f tt s = (Ok r, s1).
  Proof.
    unfold need_fes. intro H. destruct (s_fes s) eqn:Ef.
    - split; [reflexivity|]. unfold bind, get in H. rewrite Ef in H. exact H.
    - unfold bind, get in H. rewrite Ef in H. discriminate H.
  Qed.
  Lemma lift_ok {A B} (x : res B) (f : B -> M state A) s r s1 : bind (lift x) f s = (Ok r, s1) -> exists y, x = Ok y /\ f y s = (Ok r, s1).
  Proof. destruct x as [y|e]; intro H; [|discriminate H]. exists y. split; [reflexivity|exact H]. Qed.
  Lemma apply_stop vi vo m s s2 : slab_in E (l vi) m = false -> apply_slab E vi vo m (cntn c m) s = (Ok tt, s2) ->
    exists s', sz_apply_slab E l vi vo m (cntn c m) s = (Err IndexError, s') /\ s_heap s' vo = s_heap s vo.
  Proof.
    intros Hm H. unfold apply_slab in H. apply fes_ok in H as [Hf H]. rewrite bind_get in H. apply need_ok in H as [v1 [Hv _]].
    unfold sz_apply_slab. rewrite bind_fes_ok by exact Hf. rewrite bind_get.
    destruct (inside (l vi) (first_read E (slab_pairs c (cntn c m)))); [|eexists; split; reflexivity].
    rewrite bind_err_if_ok by reflexivity. rewrite (bind_need _ _ _ _ _ Hv).
    pose proof (move_in_no false (e_Lp E) (e_Lf E) (lay_dim (e_Lp E)) (l vi) (slab_pairs c (cntn c m)) (s_heap s vi) v1) as X.
    rewrite (read_slab E HE) in X. specialize (X Hm). destruct (move_in _ _ _ _ _ _ _ _) as [r v1']. cbn [fst] in X. subst r.
    rewrite bind_modify. eexists. split; reflexivity.
  Qed.
  Lemma pre_stop gj b x m s s2 : slab_in E (l b) m = false -> pre_slab E gj b x m (cntn c m) s = (Ok tt, s2) ->
    exists s', sz_pre_slab E l gj b x m (cntn c m) s = (Err IndexError, s') /\ s_heap s' x = s_heap s x.
  Proof.
    intros Hm H. unfold pre_slab in H. apply fes_ok in H as [Hf H]. apply errif_ok in H as [Hb H]. rewrite bind_get in H. apply lift_ok in H as [f [Hl _]].
    unfold sz_pre_slab. rewrite bind_fes_ok by exact Hf. rewrite bind_err_if_ok by exact Hb. rewrite bind_get. rewrite (bind_lift_ok _ _ _ _ Hl).
    pose proof (move_in_no true (e_Lp E) (e_Lf E) (lay_dim (e_Lp E)) (l b) (slab_pairs c (cntn c m)) (s_heap s b) (assemble_vec (e_D E) (e_Lp E) f)) as X.
    rewrite (read_slab E HE) in X. specialize (X Hm). destruct (move_in _ _ _ _ _ _ _ _) as [r v1']. cbn [fst] in X. subst r.
    eexists. split; reflexivity.
  Qed.
  Lemma imp_stop b x m s s2 : slab_in E (l b) m = false -> imp_slab E b x m (cntn c m) s = (Ok tt, s2) ->
    exists s', sz_imp_slab E l b x m (cntn c m) s = (Err IndexError, s') /\ s_heap s' x = s_heap s x.
  Proof.
    intros Hm H. unfold imp_slab in H. apply fes_ok in H as [Hf H]. rewrite bind_get in H. apply need_ok in H as [r0 [Hv _]].
    unfold sz_imp_slab. rewrite bind_fes_ok by exact Hf. rewrite bind_get. rewrite (bind_need _ _ _ _ _ Hv).
    pose proof (move_in_no true (e_Lp E) (e_Lf E) (lay_dim (e_Lp E)) (l b) (slab_pairs c (cntn c m)) (s_heap s b) r0) as X.
    rewrite (read_slab E HE) in X. specialize (X Hm). destruct (move_in _ _ _ _ _ _ _ _) as [r v1']. cbn [fst] in X. subst r.
    rewrite bind_modify. eexists. split; reflexivity.
  Qed.
End Stops.
Lemma done_ok m s a s' : done m s = (Ok a, s') -> m s = (Ok tt, s').
Proof. unfold done, answers, bind, ret. destruct (m s) as [[[]|e] s1]; intro H; [injection H; intros; subst; reflexivity|discriminate H]. Qed.
Lemma done_err m s e s' : m s = (Err e, s') -> done m s = (Err e, s').
Proof. intro H. unfold done, answers, bind. rewrite H. reflexivity. Qed.
(** the state in which each of the three loops starts *)
Definition start (k : call) (s : state) : state :=
  match k with Apply _ vo => put vo vzero s | Improved _ _ => w_brp (Some vzero) s | _ => s end.
Definition body_of (E : env) (k : call) : nat -> counters -> M state unit :=
  match k with
  | Apply vi vo => apply_slab E vi vo
  | March b x => pre_slab E (match lookup (c_stab (e_c E)) "primal-jump" with Ok g => g | Err _ => 0 end) b x
  | Improved b x => imp_slab E b x
  | _ => fun _ _ => ret tt
  end.
Definition ins_outs (k : call) : option (nat * nat) :=
  match k with Apply a b | March a b | Improved a b => Some (a, b) | _ => None end.
Lemma part_ok c body m s s2 : (m < c_N c)%nat -> slabs c body (seq 0 (c_N c)) cnt0 s = (Ok tt, s2) ->
  exists s1, slabs c body (seq 0 m) cnt0 s = (Ok tt, s1).
Proof.
  intros Hm H. rewrite (cnt0_n c), (seq_cut m _ Hm), slabs_cut in H. rewrite (cnt0_n c).
  destruct (slabs c body (seq 0 m) (cntn c 0) s) as [[[]|e] s1] eqn:Es; [exists s1; reflexivity|]. rewrite (bind_err _ _ _ _ _ Es) in H. discriminate H.
Qed.
Theorem C94_stops : forall E l s k i o m a s2, env_ok E -> ins_outs k = Some (i, o) ->
  (dimension E <= l o)%nat -> ends_in E (l i) m ->
  step E k s = (Ok a, s2) ->
  exists s1 s', upto (e_c E) (body_of E k) m (start k s) = (Ok tt, s1) /\
    sz_step E l k s = (Err IndexError, s') /\ s_heap s' o = s_heap s1 o.
Proof.
  intros E l s k i o m a s2 HE Hk Ho Hm Hs. destruct (ends_slabs E _ _ Hm) as [M1 M2]. pose proof (proj1 Hm) as Hlt.
  assert (O : forall n, (n < c_N (e_c E))%nat -> slab_in E (l o) n = true).
  { intros n Hn. assert (X : forallb (slab_in E (l o)) (seq 0 (c_N (e_c E))) = true) by (rewrite (all_slabs E HE); apply Nat.leb_le; exact Ho).
    rewrite forallb_forall in X. apply X, in_seq. lia. }
  destruct k; cbn [ins_outs] in Hk; try discriminate Hk; injection Hk as -> ->; cbn [step sz_step body_of start] in *; unfold upto; apply done_ok in Hs.
  - unfold apply_spacetime_matrix in Hs. rewrite bind_modify in Hs. destruct (part_ok _ _ _ _ _ Hlt Hs) as [s1 Hu]. exists s1.
    destruct (loop_stops E (sz_apply_slab E l i o) (apply_slab E i o) o m (put o vzero s) s1 s2 Hlt) as [s' [A B]]; auto.
    + intros n s0 Hn. pose proof (apply_slab_guarded E HE l i o n s0) as G. replace (apply_in E l i o n) with true in G; [exact G|].
      symmetry. unfold apply_in. pose proof (M1 n Hn) as A1. pose proof (O n ltac:(lia)) as A2. rewrite A1, A2, (first_slab E _ _ A1).
      destruct (Nat.ltb_spec 0 n) as [L|L]; [|reflexivity].
      assert (C1 : coup_in E (l i) n = true) by (apply coup_of_slabs; auto; apply M1; lia).
      assert (C2 : coup_in E (l o) n = true) by (apply coup_of_slabs; auto; apply O; lia).
      rewrite C1, C2, (first_coup E _ _ C1). reflexivity.
    + intros s3 X. exact (apply_stop E HE l i o m s1 s3 M2 X).
    + exists s'. split; [exact Hu|]. split; [|exact B]. apply done_err. unfold sz_apply. rewrite bind_modify. exact A.
  - unfold pre_time_marching in Hs. apply lift_ok in Hs as [gj [Hg Hs]]. rewrite Hg. destruct (part_ok _ _ _ _ _ Hlt Hs) as [s1 Hu]. exists s1.
    destruct (loop_stops E (sz_pre_slab E l gj i o) (pre_slab E gj i o) o m s s1 s2 Hlt) as [s' [A B]]; auto.
    + intros n s0 Hn. pose proof (pre_slab_guarded E HE l gj i o n s0) as G. unfold march_in in G. rewrite (M1 n Hn), (O n ltac:(lia)) in G. exact G.
    + intros s3 X. exact (pre_stop E HE l gj i o m s1 s3 M2 X).
    + exists s'. split; [exact Hu|]. split; [|exact B]. apply done_err. unfold sz_march. rewrite (bind_lift_ok _ _ _ _ Hg). exact A.
  - unfold pre_time_marching_improved in Hs. apply errif_ok in Hs as [Hj Hs]. apply lift_ok in Hs as [gj [Hg Hs]]. rewrite bind_get in Hs.
    apply need_ok in Hs as [r0 [Hr Hs]]. rewrite bind_modify in Hs. destruct (part_ok _ _ _ _ _ Hlt Hs) as [s1 Hu]. exists s1.
    destruct (loop_stops E (sz_imp_slab E l i o) (imp_slab E i o) o m (w_brp (Some vzero) s) s1 s2 Hlt) as [s' [A B]]; auto.
    + intros n s0 Hn. pose proof (imp_slab_guarded E HE l i o n s0) as G. unfold march_in in G. rewrite (M1 n Hn), (O n ltac:(lia)) in G. exact G.
    + intros s3 X. exact (imp_stop E HE l i o m s1 s3 M2 X).
    + exists s'. split; [exact Hu|]. split; [|exact B]. apply done_err. unfold sz_improved. rewrite bind_err_if_ok by exact Hj. rewrite (bind_lift_ok _ _ _ _ Hg), bind_get.
      rewrite (bind_need _ _ _ _ _ Hr), bind_modify. exact A.
Qed.

(** ** The hypotheses are met *)
Section Coarse.
  Variable E : env.
  Definition crs_is (K : option coarse) (s : state) : Prop := s_crs s = K.
  Lemma crs_step K k s : (forall K', k <> Prepare_coarse K') -> crs_is K s -> okat (crs_is K) (step E k) s.
  Proof. intros Hk HQ. destruct k; try (exfalso; eapply Hk; reflexivity); cbn [step]; walk leaf. Qed.
End Coarse.
(** every number of slabs: an object that can apply the matrix; vectors twice as
    long as needed are accepted, vectors one entry short are refused, and so is a
    solution that is not a single value or of the dimension *)
Theorem C94_nonvacuous : forall N, (1 <= N)%nat -> exists E s, env_ok E /\ coarse_ok E s /\ c_N (e_c E) = N /\ (1 < dimension E)%nat /\ s_fes s = true /\
  (forall l, l 0%nat = (2 * dimension E)%nat -> l 1%nat = (3 * dimension E)%nat -> exists s', sz_step E l (Apply 0 1) s = (Ok Done, s')) /\
  (forall l, l 0%nat = (dimension E - 1)%nat -> l 1%nat = dimension E -> exists m s', ends_in E (l 0%nat) m /\ sz_step E l (Apply 0 1) s = (Err IndexError, s')) /\
  (forall l, l 0%nat = S (dimension E) -> sz_step E l (Measure 0) s = (Err ValueError, s)).
Proof.
  intros N HN. destruct (exP_ok 2 1 N false false) as [c HC]; try lia. pose proof (construct_inv _ _ HC) as HB.
  destruct (ex_apply 2 1 N false false c 0) as [HE [HR [HA _]]]; try lia; [exact HC|]. set (E := exE exI c) in *.
  set (s := after E ready_calls (ex0 0)) in *.
  assert (HK : s_crs s = None).
  { unfold s, ready_calls, after. cbn [fold_left]. apply (crs_step E None); [discriminate|]. apply (crs_step E None); [discriminate|].
    apply (crs_step E None); [discriminate|]. reflexivity. }
  assert (HCo : coarse_ok E s) by (intros K X; rewrite HK in X; discriminate X).
  assert (HD : (1 < dimension E)%nat).
  { assert (P : forall j, (j < 2)%nat -> (dof (e_Lf E) j 0 0 < dimension E)%nat /\ (0 < nc_full (e_c E) j)%nat).
    { intros j Hj. assert (Z : (0 < nc_full (e_c E) j)%nat) by (pose proof (eo_N _ HE); unfold nc_full, ntime; nia). split; [|exact Z].
      apply (dof_lt (e_D E) 4 (nc_full (e_c E))); [exact (eo_f _ HE)|lia|exact Z|cbn; lia]. }
    destruct (P 0%nat ltac:(lia)) as [A1 B1]. destruct (P 1%nat ltac:(lia)) as [A2 B2].
    assert (X : dof (e_Lf E) 0 0 0 <> dof (e_Lf E) 1 0 0).
    { intro Y. apply (dof_inj (e_D E) 4 (nc_full (e_c E))) in Y; [|exact (eo_f _ HE)|lia|exact B1|cbn; lia|lia|exact B2|cbn; lia]. lia. }
    lia. }
  destruct (proj2 (C20_when _ om1 _ 0%nat 1%nat HE HR ltac:(lia)) HA) as [s' Hs].
  assert (HS : step E (Apply 0 1) s = (Ok Done, s')) by (cbn [step]; unfold done, answers, bind; rewrite Hs; reflexivity).
  exists E, s. split; [exact HE|]. split; [exact HCo|]. split; [exact (bu_NP _ _ HB)|]. split; [exact HD|]. split; [exact (proj1 HA)|]. split; [|split].
  - intros l H0 H1. exists s'. rewrite C94_enough; [exact HS|exact HE|exact HCo|]. cbn [long_enough]. lia.
  - intros l H0 H1. assert (L : (l 0%nat < dimension E)%nat) by lia. destruct (proj1 (C94_ends E (l 0%nat) HE) L) as [m Hm].
    destruct (C94_stops E l s (Apply 0 1) 0 1 m Done s' HE eq_refl ltac:(lia) Hm HS) as [s1 [s2 [_ [A _]]]]. exists m, s2. auto.
  - intros l H0. apply (C94_other_length E l s (Measure 0) 0 eq_refl (proj1 HA)); lia.
Qed.

Print Assumptions C94_enough.
Print Assumptions C94_short.
Print Assumptions C94_one_entry.
Print Assumptions C94_other_length.
Print Assumptions C94_tail.
Print Assumptions C94_overwritten.
Print Assumptions C94_ends.
Print Assumptions C94_stops.
Print Assumptions C94_nonvacuous.
