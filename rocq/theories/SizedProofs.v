(** SizedProofs.v -- the methods with lengths (Sized.v) beside those without. *)
From Coq Require Import Reals List ZArith Lra Lia Bool String FunctionalExtensionality.
From Verif Require Import Base TimeModel FormModel FormSpec FormProofs SpaceTimeForms FormBlocks SpaceTimeModel SlabOps ApplyProofs MarchLoops ErrorsModel Lifecycle Transfer Sized.
Import ListNotations.
Open Scope R_scope.
Open Scope monad_scope.

(** [b]: every access is inside.  Then both runs agree; otherwise the run with
    lengths raises IndexError where the other one returns. *)
Definition guarded {S A} (b : bool) (m' m : M S A) (s : S) : Prop :=
  if b then m' s = m s else forall a s1, m s = (Ok a, s1) -> exists s', m' s = (Err IndexError, s').
Lemma guarded_refl {S A} (m : M S A) s : guarded true m m s.
Proof. reflexivity. Qed.
Lemma guarded_bind {S A B} b1 b2 (m' m : M S A) (f' f : A -> M S B) s :
  guarded b1 m' m s -> (b1 = true -> forall a s1, m s = (Ok a, s1) -> guarded b2 (f' a) (f a) s1) ->
  guarded (b1 && b2) (bind m' f') (bind m f) s.
Proof.
  intros H1 H2. destruct b1; cbn [guarded andb] in *.
  - unfold guarded, bind. rewrite H1. destruct (m s) as [[a|e] s1] eqn:Em.
    + apply (H2 eq_refl a s1 eq_refl).
    + destruct b2; [reflexivity|]. intros a s2 X. discriminate X.
  - intros a s2 X. unfold bind in *. destruct (m s) as [[a1|e] s1] eqn:Em; [|discriminate X].
    destruct (H1 a1 s1 eq_refl) as [s' E']. rewrite E'. exists s'. reflexivity.
Qed.
Lemma guarded_same {S A B} b (m : M S A) (f' f : A -> M S B) s :
  (forall a s1, m s = (Ok a, s1) -> guarded b (f' a) (f a) s1) -> guarded b (bind m f') (bind m f) s.
Proof. intro H. apply (guarded_bind true b m m); [reflexivity|intros _; exact H]. Qed.
(** an access that stores [w v] and then raises, or not *)
Lemma guarded_store {S A} (b b2 : bool) (r : res unit) (v v0 : vec) (w : vec -> S -> S) (f' f : M S A) s :
  (b = true -> r = Ok tt /\ v = v0) -> (b = false -> r = Err IndexError) ->
  (b = true -> guarded b2 f' f (w v0 s)) ->
  guarded (b && b2) (bind (modify (w v)) (fun _ => bind (lift r) (fun _ => f'))) (bind (modify (w v0)) (fun _ => f)) s.
Proof.
  intros Ht Hf H. destruct b; cbn [andb].
  - destruct (Ht eq_refl) as [-> ->]. exact (H eq_refl).
  - rewrite (Hf eq_refl). intros a s1 _. eexists. reflexivity.
Qed.
Lemma guarded_lift {S A} (b b2 : bool) (r : res unit) (f' f : M S A) s :
  (b = true -> r = Ok tt) -> (b = false -> r = Err IndexError) -> (b = true -> guarded b2 f' f s) ->
  guarded (b && b2) (bind (lift r) (fun _ => f')) f s.
Proof.
  intros Ht Hf H. destruct b; cbn [andb].
  - rewrite (Ht eq_refl). exact (H eq_refl).
  - rewrite (Hf eq_refl). intros a s1 _. eexists. reflexivity.
Qed.

(** all accesses of a list of components are inside *)
Definition fits_in (Ld Ls : layout) (ld ls : nat) (prs : pairs) : bool :=
  forallb (fun '((jd, id), (js, is)) => inside ls (lay_sub Ls js is) && inside ld (lay_sub Ld jd id)) prs.
Lemma move_in_yes add Ld Ls ld ls prs src : forall dst, fits_in Ld Ls ld ls prs = true ->
  move_in add Ld Ls ld ls prs src dst = (Ok tt, move add Ld Ls prs src dst).
Proof.
  induction prs as [|[[jd id] [js is]] prs IH]; intros dst H; [reflexivity|].
  cbn [fits_in forallb move_in] in *. apply andb_true_iff in H as [H1 H2]. rewrite H1. rewrite IH by exact H2. reflexivity.
Qed.
Lemma move_in_no add Ld Ls ld ls prs src : forall dst, fits_in Ld Ls ld ls prs = false ->
  fst (move_in add Ld Ls ld ls prs src dst) = Err IndexError.
Proof.
  induction prs as [|[[jd id] [js is]] prs IH]; intros dst H; [discriminate H|].
  cbn [fits_in forallb move_in] in *. destruct (inside ls _ && inside ld _); [|reflexivity]. apply IH. exact H.
Qed.
Lemma inside_iff len idx : inside len idx = true <-> forall i, In i idx -> (i < len)%nat.
Proof. unfold inside. rewrite forallb_forall. split; intros H i Hi; apply Nat.ltb_lt, H, Hi. Qed.

Section Sized.
  Variable E : env.
  Hypothesis HE : env_ok E.
  Variable l : nat -> nat.
  Notation c := (e_c E).
  Notation D := (e_D E).
  Notation Lf := (e_Lf E).
  Notation Lp := (e_Lp E).
  Notation Lc := (e_Lc E).
  Notation dim := (lay_dim Lf).

  (** the components of slab n of a vector with [len] entries are inside *)
  Definition slab_in (len n : nat) : bool := forallb (fun '(j, i) => inside len (lay_sub Lf j i)) (slab_comps E n).
  Definition coup_in (len n : nat) : bool :=
    forallb (fun '((_, _), (j, i)) => inside len (lay_sub Lf j i)) (coup_pairs (cntn c n)).

  Lemma own_inside nb nc L j i : lay_ok D nb nc L -> (j < nb)%nat -> (i < nc j)%nat -> inside (lay_dim L) (lay_sub L j i) = true.
  Proof.
    intros H Hj Hi. apply inside_iff. intros k Hk. apply (wl_range _ _ _ _ H). exact (in_all_dofs nb nc L j i k Hj Hi Hk).
  Qed.
  Lemma slab_pairs_n n : slab_pairs c (cntn c n) =
    flat_map (fun j => map (fun i => ((j, i), (j, n * ntime c j + i)%nat)) (seq 0 (ntime c j))) (seq 0 4).
  Proof.
    unfold slab_pairs. apply flat_map_ext. intro j. apply map_ext. intro i. do 2 f_equal.
    unfold shift_idx, cntn, ntime, sto, z. destruct (Nat.ltb j 2); cbn [k_iq k_iqs]; nia.
  Qed.
  Lemma in_slab_pairs n a b a' b' : In ((a, b), (a', b')) (slab_pairs c (cntn c n)) <->
    (a < 4)%nat /\ (b < ntime c a)%nat /\ a' = a /\ b' = (n * ntime c a + b)%nat.
  Proof.
    rewrite slab_pairs_n, in_flat_map. split.
    - intros [j [Hj Hin]]. apply in_seq in Hj. apply in_map_iff in Hin as [i [X Hi]]. apply in_seq in Hi. injection X; intros; subst. lia.
    - intros [H1 [H2 [-> ->]]]. exists a. split; [apply in_seq; lia|]. apply in_map_iff. exists b. split; [reflexivity|apply in_seq; lia].
  Qed.
  Lemma slab_in_iff len n : slab_in len n = true <->
    forall j i, (j < 4)%nat -> (n * ntime c j <= i < n * ntime c j + ntime c j)%nat -> inside len (lay_sub Lf j i) = true.
  Proof.
    unfold slab_in. rewrite forallb_forall. split.
    - intros H j i Hj Hi. exact (H (j, i) (proj2 (in_slab_comps E n j i) (conj Hj Hi))).
    - intros H [j i] Hin. apply (proj1 (in_slab_comps E n j i)) in Hin as [Hj Hi]. exact (H j i Hj Hi).
  Qed.
  Lemma read_slab len n : fits_in Lp Lf (lay_dim Lp) len (slab_pairs c (cntn c n)) = slab_in len n.
  Proof.
    apply eq_iff_eq_true. rewrite slab_in_iff. unfold fits_in. rewrite forallb_forall. split.
    - intros H j i Hj Hi.
      assert (X : In ((j, i - n * ntime c j)%nat, (j, i)) (slab_pairs c (cntn c n))) by (apply in_slab_pairs; repeat split; lia).
      specialize (H _ X). cbn in H. apply andb_true_iff in H. exact (proj1 H).
    - intros H [[a b] [a' b']] Hin. apply in_slab_pairs in Hin as [H1 [H2 [-> ->]]]. apply andb_true_iff. split; [apply H; lia|].
      apply (own_inside 4 (nc_pre c)); [exact (eo_p _ HE)|exact H1|exact H2].
  Qed.
  Lemma in_flips (prs : pairs) x y : In (x, y) (flip_pairs prs) <-> In (y, x) prs.
  Proof.
    unfold flip_pairs. rewrite in_map_iff. split.
    - intros [[a b] [X H]]. injection X; intros; subst. exact H.
    - intro H. exists (y, x). split; [reflexivity|exact H].
  Qed.
  Lemma write_slab len n : fits_in Lf Lp len (lay_dim Lp) (flip_pairs (slab_pairs c (cntn c n))) = slab_in len n.
  Proof.
    rewrite <- read_slab. apply eq_iff_eq_true. unfold fits_in. rewrite !forallb_forall. split.
    - intros H [[a b] [a' b']] Hin. specialize (H ((a', b'), (a, b)) (proj2 (in_flips _ _ _) Hin)). cbn in H. rewrite andb_comm. exact H.
    - intros H [[a b] [a' b']] Hin. specialize (H ((a', b'), (a, b)) (proj1 (in_flips _ _ _) Hin)). cbn in H. rewrite andb_comm. exact H.
  Qed.
  Lemma in_coup_pairs n a b a' b' : (0 < n)%nat -> In ((a, b), (a', b')) (coup_pairs (cntn c n)) <->
    (a < 2)%nat /\ (b < 2)%nat /\ a' = a /\ b' = (n * S (c_q c) - 1 + b)%nat.
  Proof.
    intro Hn. unfold coup_pairs. rewrite in_flat_map. split.
    - intros [j [Hj Hin]]. apply in_seq in Hj. apply in_map_iff in Hin as [i [X Hi]]. apply in_seq in Hi. injection X; intros; subst.
      repeat split; try lia. unfold cntn, z. cbn [k_cq]. nia.
    - intros [H1 [H2 [-> ->]]]. exists a. split; [apply in_seq; lia|]. apply in_map_iff. exists b. split; [|apply in_seq; lia].
      do 2 f_equal. unfold cntn, z. cbn [k_cq]. nia.
  Qed.
  Lemma read_coup len n : fits_in Lc Lf (lay_dim Lc) len (coup_pairs (cntn c n)) = coup_in len n.
  Proof.
    unfold fits_in, coup_in. unfold coup_pairs.
    assert (X : forall j i, (j < 2)%nat -> (i < 2)%nat -> inside (lay_dim Lc) (lay_sub Lc j i) = true).
    { intros j i Hj Hi. apply (own_inside 2 nc_coup); [exact (eo_c _ HE)|exact Hj|exact Hi]. }
    cbn [seq flat_map map app forallb]. rewrite !X by lia. rewrite !andb_true_r. reflexivity.
  Qed.
  Lemma write_coup len n : fits_in Lf Lc len (lay_dim Lc) (flip_pairs (coup_pairs (cntn c n))) = coup_in len n.
  Proof.
    unfold fits_in, coup_in. unfold coup_pairs.
    assert (X : forall j i, (j < 2)%nat -> (i < 2)%nat -> inside (lay_dim Lc) (lay_sub Lc j i) = true).
    { intros j i Hj Hi. apply (own_inside 2 nc_coup); [exact (eo_c _ HE)|exact Hj|exact Hi]. }
    cbn [seq flat_map map app flip_pairs forallb]. rewrite !X by lia. reflexivity.
  Qed.
  (** the coupling reads and writes components of slabs n - 1 and n *)
  Lemma coup_of_slabs len n : (0 < n)%nat -> slab_in len (n - 1) = true -> slab_in len n = true -> coup_in len n = true.
  Proof.
    intros Hn H1 H2. unfold coup_in. apply forallb_forall. intros [[a b] [a' b']] Hin. apply in_coup_pairs in Hin as [Ha [Hb [-> ->]]]; [|exact Hn].
    rewrite slab_in_iff in H1, H2.
    assert (T : ntime c a = S (c_q c)) by (unfold ntime, sto; destruct (Nat.ltb_spec a 2); [lia|lia]).
    destruct b as [|[|b]]; [apply H1; rewrite ?T; nia|apply H2; rewrite ?T; nia|lia].
  Qed.
  Lemma first_slab len n : slab_in len n = true -> inside len (first_read E (slab_pairs c (cntn c n))) = true.
  Proof.
    intro H. rewrite slab_in_iff in H. rewrite slab_pairs_n. cbn [seq flat_map].
    assert (T : ntime c 0 = S (c_q c)) by (unfold ntime, sto; cbn; lia). rewrite T. cbn [seq map app first_read]. apply H; rewrite ?T; lia.
  Qed.
  Lemma first_coup len n : coup_in len n = true -> inside len (first_read E (coup_pairs (cntn c n))) = true.
  Proof. intro H. unfold coup_in, coup_pairs in H. cbn [seq flat_map map app forallb] in H. apply andb_true_iff in H. exact (proj1 H). Qed.

  (** a vector is inside in every slab iff it is long enough *)
  Lemma all_slabs len : forallb (slab_in len) (seq 0 (c_N c)) = Nat.leb dim len.
  Proof.
    apply eq_iff_eq_true. rewrite forallb_forall, Nat.leb_le. split.
    - intro H. destruct (Nat.le_gt_cases dim len) as [X|X]; [exact X|exfalso].
      assert (R : In len (all_dofs 4 (nc_full c) Lf)) by (apply (wl_range _ _ _ _ (eo_f _ HE)); exact X).
      unfold all_dofs in R. apply in_flat_map in R as [j [Hj R]]. apply in_flat_map in R as [i [Hi R]]. apply in_seq in Hj, Hi.
      assert (T : (0 < ntime c j)%nat) by (unfold ntime; lia). unfold nc_full in Hi.
      pose proof (Nat.div_mod i (ntime c j) ltac:(lia)) as M1. pose proof (Nat.mod_upper_bound i (ntime c j) ltac:(lia)) as M2.
      specialize (H (i / ntime c j)%nat ltac:(apply in_seq; split; [lia|]; apply Nat.div_lt_upper_bound; nia)).
      rewrite slab_in_iff in H. specialize (H j i ltac:(lia) ltac:(nia)). rewrite inside_iff in H. specialize (H _ R). lia.
    - intros H n Hn. apply in_seq in Hn. apply slab_in_iff. intros j i Hj Hi. apply inside_iff. intros k Hk.
      apply Nat.lt_le_trans with dim; [|exact H]. apply (wl_range _ _ _ _ (eo_f _ HE)).
      apply (in_all_dofs 4 (nc_full c) Lf j i k Hj); [unfold nc_full; nia|exact Hk].
  Qed.

  Lemma guarded_slabs (f' f : nat -> counters -> M state unit) (b : nat -> bool) m : forall a s,
    (forall n s, (a <= n < a + m)%nat -> guarded (b n) (f' n (cntn c n)) (f n (cntn c n)) s) ->
    guarded (forallb b (seq a m)) (slabs c f' (seq a m) (cntn c a)) (slabs c f (seq a m) (cntn c a)) s.
  Proof.
    induction m as [|m IH]; intros a s H; [reflexivity|]. cbn [seq slabs forallb].
    apply guarded_bind; [apply H; lia|]. intros _ [] s1 _. rewrite cnt_next_n. apply IH. intros n s2 Hn. apply H. lia.
  Qed.

  (** ** apply_spacetime_matrix *)
  Definition apply_in (vi vo n : nat) : bool :=
    inside (l vi) (first_read E (slab_pairs c (cntn c n))) && (slab_in (l vi) n && (slab_in (l vo) n &&
      (if Nat.ltb 0 n then inside (l vi) (first_read E (coup_pairs (cntn c n))) && (coup_in (l vi) n && (coup_in (l vo) n && true)) else true))).
  Lemma guard_if {A} (b b2 : bool) (f' f : M state A) s : (b = true -> guarded b2 f' f s) ->
    guarded (b && b2) (bind (err_if (negb b) IndexError) (fun _ => f')) f s.
  Proof.
    intro H. destruct b; cbn [andb negb].
    - exact (H eq_refl).
    - intros a s1 _. eexists. reflexivity.
  Qed.
  Lemma guard_move {A} add Ld Ls ld ls prs src dst (b b2 : bool) (w : vec -> state -> state) (f' : vec -> M state A) (f : M state A) s :
    fits_in Ld Ls ld ls prs = b ->
    (b = true -> guarded b2 (f' (move add Ld Ls prs src dst)) f (w (move add Ld Ls prs src dst) s)) ->
    guarded (b && b2) (let '(r, v) := move_in add Ld Ls ld ls prs src dst in bind (modify (w v)) (fun _ => bind (lift r) (fun _ => f' v)))
      (bind (modify (w (move add Ld Ls prs src dst))) (fun _ => f)) s.
  Proof.
    intros Hb H. destruct b; cbn [andb].
    - rewrite move_in_yes by exact Hb. exact (H eq_refl).
    - pose proof (move_in_no add Ld Ls ld ls prs src dst Hb) as X. destruct (move_in add Ld Ls ld ls prs src dst) as [r v].
      cbn [fst] in X. subst r. intros a s1 _. eexists. reflexivity.
  Qed.
  Lemma guard_last add Ld Ls ld ls prs src dst (b : bool) (w : vec -> state -> state) s :
    fits_in Ld Ls ld ls prs = b ->
    guarded (b && true) (let '(r, v) := move_in add Ld Ls ld ls prs src dst in bind (modify (w v)) (fun _ => lift r))
      (modify (w (move add Ld Ls prs src dst))) s.
  Proof.
    intros Hb. destruct b; cbn [andb].
    - rewrite move_in_yes by exact Hb. reflexivity.
    - pose proof (move_in_no add Ld Ls ld ls prs src dst Hb) as X. destruct (move_in add Ld Ls ld ls prs src dst) as [r v].
      cbn [fst] in X. subst r. intros a s1 _. eexists. reflexivity.
  Qed.
  Lemma guard_get {A} b (f' f : state -> M state A) s : guarded b (f' s) (f s) s -> guarded b (bind get f') (bind get f) s.
  Proof. exact (fun H => H). Qed.

  Lemma apply_slab_guarded vi vo n s : guarded (apply_in vi vo n) (sz_apply_slab E l vi vo n (cntn c n)) (apply_slab E vi vo n (cntn c n)) s.
  Proof.
    unfold sz_apply_slab, apply_slab, apply_in. apply guarded_same. intros _ s1 _. apply guard_get. apply guard_if. intros _.
    apply guarded_same. intros v1 s2 _. apply guard_move; [apply read_slab|]. intros _. apply guard_get.
    apply guarded_same. intros A s3 _. apply guarded_same. intros _ s4 _. apply guard_get. 
    apply (guard_move true Lf Lp (l vo) (lay_dim Lp) _ _ _ _ _ (put vo) (fun _ => _)); [apply write_slab|]. intros _.
    destruct (Nat.ltb 0 n); [|reflexivity]. apply guard_get. apply guard_if. intros _.
    apply guarded_same. intros w1 s5 _. apply guard_move; [apply read_coup|]. intros _. apply guard_get.
    apply guarded_same. intros B s6 _. apply guarded_same. intros _ s7 _. apply guard_get. apply guard_last. apply write_coup.
  Qed.
  Lemma apply_in_all vi vo : forallb (apply_in vi vo) (seq 0 (c_N c)) = Nat.leb dim (l vi) && Nat.leb dim (l vo).
  Proof.
    rewrite <- !all_slabs. apply eq_iff_eq_true. rewrite andb_true_iff, !forallb_forall. unfold apply_in. split.
    - intro H. split; intros n Hn; specialize (H n Hn); rewrite !andb_true_iff in H; tauto.
    - intros [H1 H2] n Hn. pose proof (H1 n Hn) as A1. pose proof (H2 n Hn) as A2.
      rewrite !andb_true_iff. repeat split; auto using first_slab. destruct (Nat.ltb_spec 0 n) as [L|L]; [|reflexivity].
      apply in_seq in Hn. assert (Hm : In (n - 1)%nat (seq 0 (c_N c))) by (apply in_seq; lia).
      assert (C1 : coup_in (l vi) n = true) by (apply coup_of_slabs; auto).
      assert (C2 : coup_in (l vo) n = true) by (apply coup_of_slabs; auto).
      rewrite !andb_true_iff. repeat split; auto using first_coup.
  Qed.
  Lemma apply_guarded vi vo s : guarded (Nat.leb dim (l vi) && Nat.leb dim (l vo)) (sz_apply E l vi vo) (apply_spacetime_matrix E vi vo) s.
  Proof.
    unfold sz_apply, apply_spacetime_matrix. apply guarded_same. intros _ s1 _. rewrite <- apply_in_all, (cnt0_n c).
    apply guarded_slabs. intros n s2 _. apply apply_slab_guarded.
  Qed.

  (** ** Time marching *)
  Definition march_in (b x n : nat) : bool := slab_in (l b) n && (slab_in (l x) n && true).
  Lemma march_in_all b x : forallb (march_in b x) (seq 0 (c_N c)) = Nat.leb dim (l b) && Nat.leb dim (l x).
  Proof.
    rewrite <- !all_slabs. apply eq_iff_eq_true. rewrite andb_true_iff, !forallb_forall. unfold march_in. split.
    - intro H. split; intros n Hn; specialize (H n Hn); rewrite !andb_true_iff in H; tauto.
    - intros [H1 H2] n Hn. rewrite (H1 n Hn), (H2 n Hn). reflexivity.
  Qed.
  Lemma pre_slab_guarded gj b x n s : guarded (march_in b x n) (sz_pre_slab E l gj b x n (cntn c n)) (pre_slab E gj b x n (cntn c n)) s.
  Proof.
    unfold sz_pre_slab, pre_slab, march_in. apply guarded_same. intros _ s1 _. apply guarded_same. intros _ s2 _. apply guard_get.
    apply guarded_same. intros f s3 _.
    pose proof (read_slab (l b) n) as Hb.
    destruct (slab_in (l b) n) eqn:Eb.
    - rewrite move_in_yes by exact Hb. change (lift (Ok tt) ;; ?m) with m.
      cbn [andb]. apply (guarded_same (slab_in (l x) n && true)). intros u s4 _. apply guarded_same. intros _ s5 _. apply guard_get. apply guard_last. apply write_slab.
    - pose proof (move_in_no true Lp Lf (lay_dim Lp) (l b) _ (s_heap s2 b) (assemble_vec D Lp f) Hb) as X. cbn [andb].
      destruct (move_in true Lp Lf (lay_dim Lp) (l b) _ (s_heap s2 b) (assemble_vec D Lp f)) as [r v]. cbn [fst] in X. subst r.
      intros a s4 _. eexists. reflexivity.
  Qed.
  Lemma march_guarded b x s : guarded (Nat.leb dim (l b) && Nat.leb dim (l x)) (sz_march E l b x) (pre_time_marching E b x) s.
  Proof.
    unfold sz_march, pre_time_marching. apply guarded_same. intros gj s1 _. rewrite <- march_in_all, (cnt0_n c).
    apply guarded_slabs. intros n s2 _. apply pre_slab_guarded.
  Qed.
  Lemma imp_slab_guarded b x n s : guarded (march_in b x n) (sz_imp_slab E l b x n (cntn c n)) (imp_slab E b x n (cntn c n)) s.
  Proof.
    unfold sz_imp_slab, imp_slab, march_in. apply guarded_same. intros _ s1 _. apply guard_get. apply guarded_same. intros r0 s2 _.
    apply guard_move; [apply read_slab|]. intros _.
    apply guarded_same. intros u s3 _. apply guard_get. apply guarded_same. intros _ s4 _. apply guarded_same. intros _ s5 _. apply guard_get.
    apply guarded_same. intros B s6 _. apply guarded_same. intros _ s7 _. apply guarded_same. intros _ s8 _. apply guard_get.
    apply guard_last. apply write_slab.
  Qed.
  Lemma improved_guarded b x s : guarded (Nat.leb dim (l b) && Nat.leb dim (l x)) (sz_improved E l b x) (pre_time_marching_improved E b x) s.
  Proof.
    unfold sz_improved, pre_time_marching_improved. apply guarded_same. intros _ s1 _. apply guarded_same. intros gj s2 _. apply guard_get.
    apply guarded_same. intros r0 s3 _. apply guarded_same. intros _ s4 _. rewrite <- march_in_all, (cnt0_n c).
    apply guarded_slabs. intros n s5 _. apply imp_slab_guarded.
  Qed.

  (** ** Grid transfer *)
  Lemma comp_guarded interp nsrc ndst lsrc ldst src is ids s :
    guarded (inside lsrc is && (inside ldst ids && true)) (sz_comp interp nsrc ndst lsrc ldst src is ids) (trans_comp interp nsrc ndst src is ids) s.
  Proof.
    unfold sz_comp, trans_comp. apply guarded_lift; [intros ->; reflexivity|intros ->; reflexivity|]. intros _.
    apply guarded_same. intros a s1 _. apply guarded_same. intros b s2 _.
    apply guarded_lift; [intros ->; reflexivity|intros ->; reflexivity|]. intros _. reflexivity.
  Qed.
  Lemma guarded_each {S A} (f' f : A -> M S unit) (b : A -> bool) xs : forall s,
    (forall x s, guarded (b x) (f' x) (f x) s) -> guarded (forallb b xs) (for_each xs f') (for_each xs f) s.
  Proof.
    induction xs as [|x xs IH]; intros s H; [reflexivity|]. cbn [for_each forallb]. apply guarded_bind; [apply H|]. intros _ _ s1 _. apply IH, H.
  Qed.
  Lemma guarded_trans (f' f : nat * nat -> M vec unit) (b : nat * nat -> bool) m : forall a s,
    (forall x s, guarded (b x) (f' x) (f x) s) ->
    guarded (forallb (fun n => forallb b (slab_comps E n)) (seq a m)) (trans_loop E f' (seq a m) (cntn c a)) (trans_loop E f (seq a m) (cntn c a)) s.
  Proof.
    induction m as [|m IH]; intros a s H; [reflexivity|]. cbn [seq trans_loop forallb]. rewrite trans_pairs_n. rewrite cnt_next_n.
    apply guarded_bind; [apply guarded_each, H|]. intros _ _ s1 _. apply IH, H.
  Qed.
End Sized.

Section Grids.
  Variable E : env.
  Hypothesis HE : env_ok E.
  Variable K : coarse.
  Hypothesis HK : lay_ok (k_D K) 4 (nc_full (e_c E)) (k_L K).
  Notation c := (e_c E).
  Lemma all_in (D0 : disc) (L : layout) len : lay_ok D0 4 (nc_full c) L ->
    forallb (fun n => forallb (fun '(j, i) => inside len (lay_sub L j i)) (slab_comps E n)) (seq 0 (c_N c)) = Nat.leb (lay_dim L) len.
  Proof.
    intro HL. apply eq_iff_eq_true. rewrite forallb_forall, Nat.leb_le. split.
    - intro H. destruct (Nat.le_gt_cases (lay_dim L) len) as [X|X]; [exact X|exfalso].
      assert (R : In len (all_dofs 4 (nc_full c) L)) by (apply (wl_range _ _ _ _ HL); exact X).
      unfold all_dofs in R. apply in_flat_map in R as [j [Hj R]]. apply in_flat_map in R as [i [Hi R]]. apply in_seq in Hj, Hi.
      assert (T : (0 < ntime c j)%nat) by (unfold ntime; lia). unfold nc_full in Hi.
      pose proof (Nat.div_mod i (ntime c j) ltac:(lia)) as M1. pose proof (Nat.mod_upper_bound i (ntime c j) ltac:(lia)) as M2.
      specialize (H (i / ntime c j)%nat ltac:(apply in_seq; split; [lia|]; apply Nat.div_lt_upper_bound; nia)).
      rewrite forallb_forall in H. specialize (H (j, i)).
      assert (Y : inside len (lay_sub L j i) = true) by (apply H, in_slab_comps; split; [lia|nia]).
      rewrite inside_iff in Y. specialize (Y _ R). lia.
    - intros H n Hn. apply in_seq in Hn. apply forallb_forall. intros [j i] Hin. apply (proj1 (in_slab_comps E n j i)) in Hin as [Hj Hi].
      apply inside_iff. intros k Hk. apply Nat.lt_le_trans with (lay_dim L); [|exact H]. apply (wl_range _ _ _ _ HL).
      apply (in_all_dofs 4 (nc_full c) L j i k Hj); [unfold nc_full; nia|exact Hk].
  Qed.
  Lemma forallb_and {A} (f g : A -> bool) xs : forallb (fun x => f x && (g x && true)) xs = forallb f xs && forallb g xs.
  Proof. induction xs as [|x xs IH]; [reflexivity|]. cbn [forallb]. rewrite IH. destruct (f x), (g x), (forallb f xs), (forallb g xs); reflexivity. Qed.
  Lemma both_in (D1 D2 : disc) (L1 L2 : layout) l1 l2 : lay_ok D1 4 (nc_full c) L1 -> lay_ok D2 4 (nc_full c) L2 ->
    forallb (fun n => forallb (fun '(j, i) => inside l1 (lay_sub L1 j i) && (inside l2 (lay_sub L2 j i) && true)) (slab_comps E n)) (seq 0 (c_N c))
    = Nat.leb (lay_dim L1) l1 && Nat.leb (lay_dim L2) l2.
  Proof.
    intros H1 H2. rewrite <- (all_in D1 L1 l1 H1), <- (all_in D2 L2 l2 H2).
    generalize (seq 0 (c_N c)). intro ns. induction ns as [|n ns IH]; [reflexivity|]. cbn [forallb]. rewrite IH.
    replace (forallb (fun '(j, i) => inside l1 (lay_sub L1 j i) && (inside l2 (lay_sub L2 j i) && true)) (slab_comps E n))
      with (forallb (fun x => (fun '(j, i) => inside l1 (lay_sub L1 j i)) x && ((fun '(j, i) => inside l2 (lay_sub L2 j i)) x && true)) (slab_comps E n))
      by (f_equal; apply functional_extensionality; intros [j i]; reflexivity).
    rewrite (forallb_and (fun '(j, i) => inside l1 (lay_sub L1 j i)) (fun '(j, i) => inside l2 (lay_sub L2 j i))).
    destruct (forallb _ (slab_comps E n)), (forallb _ (slab_comps E n)), (forallb _ ns), (forallb _ ns); reflexivity.
  Qed.
  Lemma prolong_guarded lc lf xc v : guarded (Nat.leb (lay_dim (k_L K)) lc && Nat.leb (lay_dim (e_Lf E)) lf) (sz_prolong E K lc lf xc) (prolong E K xc) v.
  Proof.
    unfold sz_prolong, prolong. rewrite <- (both_in _ _ _ _ lc lf HK (eo_f _ HE)), (cnt0_n c).
    apply guarded_trans. intros [j i] s. apply comp_guarded.
  Qed.
  Lemma restrict_guarded lc lf xf v : guarded (Nat.leb (lay_dim (e_Lf E)) lf && Nat.leb (lay_dim (k_L K)) lc) (sz_restrict E K lc lf xf) (restrict E K xf) v.
  Proof.
    unfold sz_restrict, restrict. rewrite <- (both_in _ _ _ _ lf lc (eo_f _ HE) HK), (cnt0_n c).
    apply guarded_trans. intros [j i] s. apply comp_guarded.
  Qed.
End Grids.
