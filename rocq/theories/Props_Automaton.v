(** Props_Automaton.v -- property C83: for every history of public calls on a
    SpaceTime object, which calls succeed and which exception the others raise.

    [auto m k h] (Automaton.v) is a finite automaton: from the set h of
    attributes that exist, the exception the call k raises (None: it returns) and
    the attributes that exist afterwards.  [run m ks h] : the attributes after the
    calls ks. *)
From Coq Require Import Reals List ZArith Lra Lia Bool String.
From Verif Require Import Base TimeModel TimeSpec QuadProofs FormModel FormSpec FormProofs SpaceTimeForms FormBlocks FormTime FormWf FormExample
  Props_Forms SpaceTimeModel SlabOps ApplyProofs MarchProofs MarchLoops ErrorsModel Lifecycle LifeProofs OpsProofs SetupOk LinAlg OpsExample
  Props_Ops LifeFrames Props_Life Transfer Props_Transfer Automaton.
Import ListNotations.
Open Scope R_scope.
Open Scope monad_scope.

Definition run (m : mode) (ks : list call) (h : shape) : shape := fold_left (fun h k => snd (auto m k h)) ks h.

(** an object with good parameters, a mesh with non-negative quadrature weights,
    and its creation *)
Record created (E : env) (g : gammas) (s : state) : Prop := {
  cr_good : exists P, good P E g;
  cr_env : env_ok E;
  cr_w : forall p, In p (d_pts (e_D E) Dx) -> 0 <= d_w (e_D E) Dx p;
  cr_new : exists fitted ind heap next, s = init_state fitted ind heap next }.

Lemma after_sane E om ks : forall s, sane E om s -> (forall k, In k ks -> sound_call E k) -> sane E om (after E ks s).
Proof.
  induction ks as [|k ks IH]; intros s J Hs; [exact J|]. cbn [after fold_left]. apply IH.
  - apply sane_step; [exact J|]. apply Hs. left. reflexivity.
  - intros k' Hk. apply Hs. right. exact Hk.
Qed.
Lemma after_shape P E g om ks : good P E g -> env_ok E -> (forall p, In p (d_pts (e_D E) Dx) -> 0 <= d_w (e_D E) Dx p) ->
  forall s, sane E om s -> (forall k, In k ks -> sound_call E k) -> shape_of (after E ks s) = run (mode_of E g) ks (shape_of s).
Proof.
  intros HG HE Hw. induction ks as [|k ks IH]; intros s J Hs; [reflexivity|]. cbn [after fold_left run].
  destruct (follow P E g om HG HE Hw k s J) as [_ H]. rewrite <- H. apply IH.
  - apply sane_step; [exact J|]. apply Hs. left. reflexivity.
  - intros k' Hk. apply Hs. right. exact Hk.
Qed.

(** * C83 *)
(** After any history, every call behaves as the automaton says. *)
Theorem C83_automaton : forall E g s ks k, created E g s -> (forall k', In k' ks -> sound_call E k') ->
  failure (returns E k (after E ks s)) = fst (auto (mode_of E g) k (run (mode_of E g) ks nothing)).
Proof.
  intros E g s ks k [[P HG] HE Hw [fitted [ind [heap [next ->]]]]] Hs.
  pose proof (sane_init E fitted ind heap next) as J. set (om := if fitted then _ else _) in J.
  pose proof (after_shape P E g om ks HG HE Hw _ J Hs) as S1.
  destruct (follow P E g om HG HE Hw k _ (after_sane E om ks _ J Hs)) as [H _]. rewrite S1 in H. exact H.
Qed.

(** ** What exists after a history *)

(** an attribute exists iff some call of the history made it *)
Lemma arises m (a : shape -> bool) (w : shape -> call -> bool) :
  (forall h k, a (snd (auto m k h)) = a h || w h k) -> a nothing = false ->
  forall ks, a (run m ks nothing) = true <-> exists k1 k k2, ks = k1 ++ k :: k2 /\ w (run m k1 nothing) k = true.
Proof.
  intros Hw H0 ks. induction ks as [|k ks IH] using rev_ind.
  - cbn. rewrite H0. split; [discriminate|]. intros [k1 [k [k2 [H _]]]]. destruct k1; discriminate H.
  - unfold run. rewrite fold_left_app. cbn [fold_left]. fold (run m ks nothing). rewrite Hw, orb_true_iff, IH. split.
    + intros [[k1 [k' [k2 [E1 W]]]]|W].
      * exists k1, k', (k2 ++ [k]). split; [rewrite E1, <- app_assoc; reflexivity|exact W].
      * exists ks, k, []. split; [reflexivity|exact W].
    + intros [k1 [k' [k2 [E1 W]]]]. destruct k2 as [|x k2 _] using rev_ind.
      * apply app_inj_tail in E1. destruct E1 as [-> ->]. right. exact W.
      * left. rewrite app_comm_cons, app_assoc in E1. apply app_inj_tail in E1. destruct E1 as [-> _]. exists k1, k', k2. split; [reflexivity|exact W].
Qed.
Ltac orbs := cbn; rewrite ?andb_false_r, ?andb_true_r, ?orb_false_r, ?orb_true_r; try reflexivity.
Ltac cases h k m := destruct h as [fes st rhs co ma sl nj brp sfi ssl crs nod cmt tmp sco], m as [many wp jumps mass];
  destruct k; try match goal with |- context [Setup_slab ?b] => destruct b end; orbs; try (destruct fes, st, rhs, sl; orbs; fail); 
  try (destruct fes, mass; orbs; fail); destruct fes, sl, wp, nj, co, rhs, ma, mass; orbs.

Definition is_fes (k : call) : bool := match k with Setup_fes => true | _ => false end.
Definition is_first (k : call) : bool := match k with Set_first _ => true | _ => false end.
Definition is_slab (k : call) : bool := match k with Set_slab _ => true | _ => false end.
Definition is_sco (k : call) : bool := match k with Set_coarse _ => true | _ => false end.
Definition is_coarse (k : call) : bool := match k with Prepare_coarse _ => true | _ => false end.
(** the calls that make an attribute, once there are spaces *)
Definition makes_st (k : call) : bool := match k with Get_matrix _ | Get_bfi _ => true | _ => false end.
Definition makes_rhs (k : call) : bool := match k with Setup_rhs | Get_rhs | Get_lfi | Prepare => true | _ => false end.
Definition makes_co (k : call) : bool := match k with Setup_coupling | Prepare => true | _ => false end.
Definition makes_ma (k : call) : bool := match k with Setup_mass | Prepare => true | _ => false end.
Definition makes_sl (k : call) : bool := match k with Setup_slab true | Get_slab_bfi | Get_slab_matrix | Prepare => true | _ => false end.
Definition gets_slab (k : call) : bool := match k with Get_slab_bfi | Get_slab_matrix => true | _ => false end.

Lemma w_fes m h k : h_fes (snd (auto m k h)) = h_fes h || is_fes k.
Proof. cases h k m. Qed.
Lemma w_sfi m h k : h_sfi (snd (auto m k h)) = h_sfi h || is_first k.
Proof. cases h k m. Qed.
Lemma w_ssl m h k : h_ssl (snd (auto m k h)) = h_ssl h || is_slab k.
Proof. cases h k m. Qed.
Lemma w_sco m h k : h_sco (snd (auto m k h)) = h_sco h || is_sco k.
Proof. cases h k m. Qed.
Lemma w_crs m h k : h_crs (snd (auto m k h)) = h_crs h || is_coarse k.
Proof. cases h k m. Qed.
Lemma w_nod m h k : h_nod (snd (auto m k h)) = h_nod h || (h_fes h && is_coarse k).
Proof. cases h k m. Qed.
Lemma w_cmt m h k : h_cmt (snd (auto m k h)) = h_cmt h || (h_fes h && is_coarse k).
Proof. cases h k m. Qed.
Lemma w_tmp m h k : h_tmp (snd (auto m k h)) = h_tmp h || (h_fes h && h_rhs h && is_coarse k).
Proof. cases h k m. Qed.
Lemma w_st m h k : h_st (snd (auto m k h)) = h_st h || (h_fes h && makes_st k).
Proof. cases h k m. Qed.
Lemma w_rhs' m h k : h_rhs (snd (auto m k h)) = h_rhs h || (h_fes h && makes_rhs k).
Proof. cases h k m. Qed.
Lemma w_co m h k : h_co (snd (auto m k h)) = h_co h || (h_fes h && makes_co k).
Proof. cases h k m. Qed.
Lemma w_ma m h k : h_ma (snd (auto m k h)) = h_ma h || (h_fes h && md_mass m && makes_ma k).
Proof. cases h k m. Qed.
Lemma w_sl m h k : h_sl (snd (auto m k h)) = h_sl h || (h_fes h && makes_sl k).
Proof. cases h k m. Qed.
Definition makes_nj (m : mode) (h : shape) (k : call) : bool :=
  match k with Setup_slab false => true | Prepare => negb (md_wp m) | Get_slab_bfi | Get_slab_matrix => negb (h_sl h) | _ => false end.
Lemma w_nj m h k : h_nj (snd (auto m k h)) = h_nj h || (h_fes h && makes_nj m h k).
Proof. cases h k m. Qed.
Lemma w_brp' m h k : h_brp (snd (auto m k h)) = h_brp h || (h_fes h && negb (h_sl h) && match k with Prepare => true | _ => false end).
Proof. cases h k m. Qed.

(** the history contains q, after the spaces have been set up *)
Definition after_fes (q : call -> bool) (ks : list call) : Prop :=
  exists k1 k k2, ks = k1 ++ k :: k2 /\ In Setup_fes k1 /\ q k = true.
(** the slab matrix without jumps has been made: by its own set-up, by
    prepare_precondition_gmres except in the well-posed mode, or by one of the
    getters of the slab matrix with jumps, provided that one was not there *)
Definition made_nj (wp : bool) (ks : list call) : Prop :=
  exists k1 k k2, ks = k1 ++ k :: k2 /\ In Setup_fes k1
    /\ (k = Setup_slab false \/ (k = Prepare /\ wp = false) \/ (gets_slab k = true /\ ~ after_fes makes_sl k1)).
(** b_rhs_pre has been made: prepare_precondition_gmres was called before any
    other call had made the slab matrix *)
Definition made_brp (ks : list call) : Prop :=
  exists k1 k2, ks = k1 ++ Prepare :: k2 /\ In Setup_fes k1 /\ ~ after_fes makes_sl k1.
(** the temporaries of the coarse correction have been made: the coarse grid was
    prepared when the right-hand side existed *)
Definition made_tmp (ks : list call) : Prop :=
  exists k1 K k2, ks = k1 ++ Prepare_coarse K :: k2 /\ after_fes makes_rhs k1.

Lemma split_in (q : call -> bool) ks : (exists k1 k k2, ks = k1 ++ k :: k2 /\ q k = true) <-> exists k, In k ks /\ q k = true.
Proof.
  split.
  - intros [k1 [k [k2 [-> H]]]]. exists k. split; [apply in_or_app; right; left; reflexivity|exact H].
  - intros [k [Hin H]]. apply in_split in Hin. destruct Hin as [k1 [k2 ->]]. exists k1, k, k2. split; [reflexivity|exact H].
Qed.
Lemma is_fes_in ks : (exists k, In k ks /\ is_fes k = true) <-> In Setup_fes ks.
Proof. split; [intros [k [H1 H2]]; destruct k; try discriminate H2; exact H1|intro H; exists Setup_fes; split; [exact H|reflexivity]]. Qed.

Section History.
  Variable m : mode.
  Notation now ks := (run m ks nothing).
  Lemma t_fes ks : h_fes (now ks) = true <-> In Setup_fes ks.
  Proof. rewrite (arises m h_fes (fun _ => is_fes) (w_fes m) eq_refl), split_in. apply is_fes_in. Qed.
  Lemma t_first ks : h_sfi (now ks) = true <-> exists k, In k ks /\ is_first k = true.
  Proof. rewrite (arises m h_sfi (fun _ => is_first) (w_sfi m) eq_refl). apply split_in. Qed.
  Lemma t_slab ks : h_ssl (now ks) = true <-> exists k, In k ks /\ is_slab k = true.
  Proof. rewrite (arises m h_ssl (fun _ => is_slab) (w_ssl m) eq_refl). apply split_in. Qed.
  Lemma t_sco ks : h_sco (now ks) = true <-> exists k, In k ks /\ is_sco k = true.
  Proof. rewrite (arises m h_sco (fun _ => is_sco) (w_sco m) eq_refl). apply split_in. Qed.
  Lemma t_crs ks : h_crs (now ks) = true <-> exists k, In k ks /\ is_coarse k = true.
  Proof. rewrite (arises m h_crs (fun _ => is_coarse) (w_crs m) eq_refl). apply split_in. Qed.
  Lemma made (a : shape -> bool) (q : call -> bool) : (forall h k, a (snd (auto m k h)) = a h || (h_fes h && q k)) -> a nothing = false ->
    forall ks, a (now ks) = true <-> after_fes q ks.
  Proof.
    intros Hw H0 ks. rewrite (arises m a (fun h k => h_fes h && q k) Hw H0). unfold after_fes.
    split; intros [k1 [k [k2 [H1 H2]]]]; exists k1, k, k2; (split; [exact H1|]).
    - apply andb_true_iff in H2. rewrite t_fes in H2. exact H2.
    - apply andb_true_iff. rewrite t_fes. exact H2.
  Qed.
  Lemma t_st ks : h_st (now ks) = true <-> after_fes makes_st ks.
  Proof. apply made; [apply w_st|reflexivity]. Qed.
  Lemma t_rhs ks : h_rhs (now ks) = true <-> after_fes makes_rhs ks.
  Proof. apply made; [apply w_rhs'|reflexivity]. Qed.
  Lemma t_co ks : h_co (now ks) = true <-> after_fes makes_co ks.
  Proof. apply made; [apply w_co|reflexivity]. Qed.
  Lemma t_sl ks : h_sl (now ks) = true <-> after_fes makes_sl ks.
  Proof. apply made; [apply w_sl|reflexivity]. Qed.
  Lemma t_nod ks : h_nod (now ks) = true <-> after_fes is_coarse ks.
  Proof. apply made; [apply w_nod|reflexivity]. Qed.
  Lemma t_cmt ks : h_cmt (now ks) = true <-> after_fes is_coarse ks.
  Proof. apply made; [apply w_cmt|reflexivity]. Qed.
  Lemma t_ma ks : h_ma (now ks) = true <-> md_mass m = true /\ after_fes makes_ma ks.
  Proof.
    rewrite (arises m h_ma _ (w_ma m) eq_refl). unfold after_fes. split.
    - intros [k1 [k [k2 [H1 H2]]]]. rewrite !andb_true_iff, t_fes in H2. split; [tauto|]. exists k1, k, k2. tauto.
    - intros [Hm [k1 [k [k2 [H1 H2]]]]]. exists k1, k, k2. rewrite !andb_true_iff, t_fes. tauto.
  Qed.
  Lemma not_sl ks : negb (h_sl (now ks)) = true <-> ~ after_fes makes_sl ks.
  Proof. rewrite negb_true_iff, <- t_sl. destruct (h_sl (now ks)); split; congruence. Qed.
  Lemma t_nj ks : h_nj (now ks) = true <-> made_nj (md_wp m) ks.
  Proof.
    rewrite (arises m h_nj _ (w_nj m) eq_refl). unfold made_nj. split; intros [k1 [k [k2 [H1 H2]]]]; exists k1, k, k2; (split; [exact H1|]).
    - apply andb_true_iff in H2. destruct H2 as [H2 H3]. rewrite t_fes in H2. split; [exact H2|].
      destruct k as [| | | | | | | | |[|]| | | | | | | | | | | | | | | | | | | | | |]; cbn [makes_nj] in H3; try discriminate H3.
      + auto.
      + right. right. split; [reflexivity|apply not_sl, H3].
      + right. right. split; [reflexivity|apply not_sl, H3].
      + right. left. split; [reflexivity|]. apply negb_true_iff, H3.
    - destruct H2 as [H2 H3]. apply andb_true_iff. rewrite t_fes. split; [exact H2|].
      destruct H3 as [->|[[-> Hwp]|[H3 H4]]]; [reflexivity|cbn; rewrite Hwp; reflexivity|]. apply not_sl in H4. destruct k; try discriminate H3; exact H4.
  Qed.
  Lemma t_brp ks : h_brp (now ks) = true <-> made_brp ks.
  Proof.
    rewrite (arises m h_brp _ (w_brp' m) eq_refl). unfold made_brp. split.
    - intros [k1 [k [k2 [H1 H2]]]]. rewrite !andb_true_iff, t_fes, not_sl in H2. destruct H2 as [[H2 H3] H4].
      destruct k; try discriminate H4. exists k1, k2. auto.
    - intros [k1 [k2 [H1 [H2 H3]]]]. exists k1, Prepare, k2. rewrite !andb_true_iff, t_fes, not_sl. auto.
  Qed.
  Lemma after_fes_fes q ks : after_fes q ks -> In Setup_fes ks.
  Proof. intros [k1 [k [k2 [-> [H _]]]]]. apply in_or_app. left. exact H. Qed.
  Lemma t_tmp ks : h_tmp (now ks) = true <-> made_tmp ks.
  Proof.
    rewrite (arises m h_tmp _ (w_tmp m) eq_refl). unfold made_tmp. split.
    - intros [k1 [k [k2 [H1 H2]]]]. rewrite !andb_true_iff, t_fes, t_rhs in H2. destruct H2 as [[H2 H3] H4].
      destruct k; try discriminate H4. exists k1, K, k2. auto.
    - intros [k1 [K [k2 [H1 H2]]]]. exists k1, (Prepare_coarse K), k2. rewrite !andb_true_iff, t_fes, t_rhs.
      split; [exact H1|]. split; [|reflexivity]. split; [exact (after_fes_fes _ _ H2)|exact H2].
  Qed.
  (** what is made needs spaces *)
  Lemma st_fes ks : h_st (now ks) || h_fes (now ks) = true <-> In Setup_fes ks.
  Proof. rewrite orb_true_iff, t_st, t_fes. split; [intros [H|H]; [exact (after_fes_fes _ _ H)|exact H]|auto]. Qed.
  Lemma rhs_fes ks : h_rhs (now ks) || h_fes (now ks) = true <-> In Setup_fes ks.
  Proof. rewrite orb_true_iff, t_rhs, t_fes. split; [intros [H|H]; [exact (after_fes_fes _ _ H)|exact H]|auto]. Qed.
End History.

(** ** Which calls succeed *)
Definition succeeds (E : env) (k : call) (s : state) : Prop := exists a, returns E k s = Ok a.
Lemma succeeds_none E k s : succeeds E k s <-> failure (returns E k s) = None.
Proof. unfold succeeds. destruct (returns E k s); cbn; split; try discriminate; [reflexivity|eexists; reflexivity|intros [a H]; discriminate H]. Qed.
Lemma first_none l : first_of l = None <-> forall b e, In (b, e) l -> b = true.
Proof.
  induction l as [|[b e] l IH]; cbn [first_of]; [split; [intros _ b e []|reflexivity]|]. destruct b.
  - rewrite IH. split; intros H b e'; [intros [X|X]; [injection X; auto|exact (H b e' X)]|intro X; apply (H b e'); right; exact X].
  - split; [discriminate|]. intro H. specialize (H false e (or_introl eq_refl)). discriminate H.
Qed.

Section Success.
  Variables (E : env) (g : gammas) (s : state) (ks : list call).
  Hypothesis HC : created E g s.
  Hypothesis Hs : forall k, In k ks -> sound_call E k.
  Notation m := (mode_of E g).
  Notation h := (run m ks nothing).
  Lemma succ_auto k : succeeds E k (after E ks s) <-> fst (auto m k h) = None.
  Proof. rewrite succeeds_none, (C83_automaton E g s ks k HC Hs). reflexivity. Qed.
  Lemma many_iff b : negb (md_many m) || b = true <-> ((1 < c_N (e_c E))%nat -> b = true).
  Proof. unfold mode_of, md_many. destruct (Nat.ltb_spec 1 (c_N (e_c E))); cbn; [split; auto|split; [lia|reflexivity]]. Qed.
  Lemma mass_iff : md_mass m = true <-> g_jump g <> 0.
  Proof. unfold mode_of, md_mass, is_zero. destruct (Req_EM_T (g_jump g) 0); cbn; split; try discriminate; tauto. Qed.
End Success.

(** assembling and reporting calls succeed iff the spaces have been set up *)
Definition needs_spaces (k : call) : bool :=
  match k with
  | Build_matrix _ | Get_matrix _ | Get_bfi _ | Setup_rhs | Get_rhs | Get_lfi | Setup_coupling | Setup_slab _
  | Get_slab_bfi | Get_slab_matrix | Measure _ | Paraview _ _ | Plot _ _ _ _ _ | Plot_error _ _ _ _ => true
  | _ => false
  end.
Definition needs_nothing (k : call) : bool :=
  match k with
  | Setup_fes | Get_first_bfi | Get_first_matrix | Set_first _ | Set_slab _ | Get_coarse | Set_coarse _ | Write _ _ => true
  | _ => false
  end.
Theorem C83_setup_calls : forall E g s ks k, created E g s -> (forall k', In k' ks -> sound_call E k') ->
  (needs_nothing k = true -> succeeds E k (after E ks s))
  /\ (needs_spaces k = true -> (succeeds E k (after E ks s) <-> In Setup_fes ks)).
Proof.
  intros E g s ks k HC Hs. split; intro Hk.
  - apply (succ_auto E g s ks HC Hs). destruct k; try discriminate Hk; reflexivity.
  - rewrite (succ_auto E g s ks HC Hs).
    assert (W : forall b e h1 h2, fst (when (first_of [(b, e)]) h1 h2) = None <-> b = true) by (intros [|] e h1 h2; cbn; split; congruence).
    assert (F : forall b e, first_of [(b, e)] = None <-> b = true) by (intros [|] e; cbn; split; congruence).
    destruct k; try discriminate Hk; cbn [auto fst]; rewrite ?W, ?F; try apply st_fes; try apply rhs_fes; try apply t_fes.
    all: destruct (h_sl (run (mode_of E g) ks nothing)) eqn:E1; [|rewrite W; apply t_fes].
    all: apply t_sl, after_fes_fes in E1; split; [intros _; exact E1|reflexivity].
Qed.
Theorem C83_mass : forall E g s ks, created E g s -> (forall k', In k' ks -> sound_call E k') ->
  (succeeds E Setup_mass (after E ks s) <-> In Setup_fes ks /\ g_jump g <> 0)
  /\ (succeeds E Prepare (after E ks s) <-> In Setup_fes ks /\ g_jump g <> 0).
Proof.
  intros E g s ks HC Hs. rewrite !(succ_auto E g s ks HC Hs), <- (mass_iff E g), <- (t_fes (mode_of E g)). set (m := mode_of E g).
  pose proof (t_ma m ks) as T. pose proof (t_fes m ks) as F. pose proof (t_sl m ks) as L. cbn [auto first_of when]. split.
  - destruct (h_fes (run m ks nothing)), (md_mass m); cbn; split; try discriminate; try tauto; intros [? ?]; discriminate.
  - assert (A : h_ma (run m ks nothing) = true -> h_fes (run m ks nothing) = true /\ md_mass m = true).
    { intro H. apply T in H. destruct H as [H1 H2]. split; [apply F, (after_fes_fes _ _ H2)|exact H1]. }
    clear T F L. clearbody m. revert A. generalize (run m ks nothing). intros [fes st rhs co ma sl nj brp sfi ssl crs nod cmt tmp sco].
    destruct m as [many wp jumps mass]. cbn. intro A. destruct ma.
    + destruct (A eq_refl) as [-> ->]. destruct (sl && (wp || nj) && co && rhs && true); cbn; tauto.
    + rewrite andb_false_r. destruct fes; cbn; [|split; [discriminate|intros [X _]; discriminate X]].
      destruct mass; cbn; [tauto|split; [discriminate|intros [_ X]; discriminate X]].
Qed.
(** applying the space-time matrix slab by slab *)
Theorem C83_apply : forall E g s ks vi vo, created E g s -> (forall k', In k' ks -> sound_call E k') ->
  succeeds E (Apply vi vo) (after E ks s)
  <-> made_nj (c_wp (e_c E)) ks /\ ((1 < c_N (e_c E))%nat -> after_fes makes_co ks).
Proof.
  intros E g s ks vi vo HC Hs. rewrite (succ_auto E g s ks HC Hs). cbn [auto fst]. rewrite first_none.
  change (c_wp (e_c E)) with (md_wp (mode_of E g)). rewrite <- (t_nj (mode_of E g)), <- (t_co (mode_of E g)). split.
  - intro H. split; [apply (H _ AttributeError); cbn; auto|]. apply (many_iff E g). apply (H _ AttributeError). cbn. auto.
  - intros [H1 H2] b e [X|[X|[X|[]]]]; injection X; intros; subst; [|exact H1|apply (many_iff E g), H2].
    apply t_fes. apply t_nj in H1. destruct H1 as [k1 [k [k2 [-> [H1 _]]]]]. apply in_or_app. left. exact H1.
Qed.
(** the two time-marching preconditioners *)
Theorem C83_march : forall E g s ks b x, created E g s -> (forall k', In k' ks -> sound_call E k') ->
  succeeds E (March b x) (after E ks s)
  <-> In Setup_fes ks /\ (exists S0, In (Set_first S0) ks) /\ ((1 < c_N (e_c E))%nat -> exists S0, In (Set_slab S0) ks).
Proof.
  intros E g s ks b x HC Hs. rewrite (succ_auto E g s ks HC Hs). cbn [auto fst]. rewrite first_none.
  assert (A : (exists S0, In (Set_first S0) ks) <-> h_sfi (run (mode_of E g) ks nothing) = true).
  { rewrite t_first. split; [intros [S0 H]; exists (Set_first S0); auto|]. intros [k [H1 H2]]. destruct k; try discriminate H2. exists S0. exact H1. }
  assert (B : (exists S0, In (Set_slab S0) ks) <-> h_ssl (run (mode_of E g) ks nothing) = true).
  { rewrite t_slab. split; [intros [S0 H]; exists (Set_slab S0); auto|]. intros [k [H1 H2]]. destruct k; try discriminate H2. exists S0. exact H1. }
  rewrite A, B, <- (t_fes (mode_of E g)). split.
  - intro H. split; [apply (H _ TypeError); cbn; auto|]. split; [apply (H _ AttributeError); cbn; auto|].
    apply (many_iff E g). apply (H _ AttributeError). cbn. auto.
  - intros [H1 [H2 H3]] b0 e [X|[X|[X|[]]]]; injection X; intros; subst; [exact H1|exact H2|apply (many_iff E g), H3].
Qed.
Theorem C83_improved : forall E g s ks b x, created E g s -> (forall k', In k' ks -> sound_call E k') ->
  succeeds E (Improved b x) (after E ks s)
  <-> c_jumps (e_c E) = false /\ g_jump g <> 0 /\ made_brp ks
      /\ (exists S0, In (Set_first S0) ks) /\ ((1 < c_N (e_c E))%nat -> exists S0, In (Set_slab S0) ks).
Proof.
  intros E g s ks b x HC Hs. rewrite (succ_auto E g s ks HC Hs). cbn [auto fst]. rewrite first_none.
  assert (A : (exists S0, In (Set_first S0) ks) <-> h_sfi (run (mode_of E g) ks nothing) = true).
  { rewrite t_first. split; [intros [S0 H]; exists (Set_first S0); auto|]. intros [k [H1 H2]]. destruct k; try discriminate H2. exists S0. exact H1. }
  assert (B : (exists S0, In (Set_slab S0) ks) <-> h_ssl (run (mode_of E g) ks nothing) = true).
  { rewrite t_slab. split; [intros [S0 H]; exists (Set_slab S0); auto|]. intros [k [H1 H2]]. destruct k; try discriminate H2. exists S0. exact H1. }
  rewrite A, B, <- (mass_iff E g), <- (t_brp (mode_of E g)). split.
  - intro H. split; [apply negb_true_iff, (H (negb (c_jumps (e_c E))) ValueError); cbn; auto|]. split; [|split; [|split]].
    + assert (X : h_ma (run (mode_of E g) ks nothing) = true) by (apply (H _ AttributeError); cbn; auto 10). apply t_ma in X. tauto.
    + apply (H _ AttributeError). cbn. auto.
    + apply (H _ AttributeError). cbn. auto 10.
    + apply (many_iff E g). apply (H _ AttributeError). cbn. auto 10.
  - intros [H1 [H2 [H3 [H4 H5]]]] b0 e X. assert (F : made_brp ks) by (apply (t_brp (mode_of E g)), H3).
    destruct F as [k1 [k2 [F1 [F2 F3]]]].
    assert (T1 : h_fes (run (mode_of E g) ks nothing) = true) by (apply t_fes; rewrite F1; apply in_or_app; left; exact F2).
    assert (T2 : h_ma (run (mode_of E g) ks nothing) = true).
    { apply t_ma. split; [exact H2|]. exists k1, Prepare, k2. auto. }
    destruct X as [X|[X|[X|[X|[X|[X|[]]]]]]]; injection X; intros; subst; try assumption.
    + cbn. rewrite H1. reflexivity.
    + apply (many_iff E g), H5.
Qed.
(** the coarse grid correction *)
Theorem C83_coarse : forall E g s ks, created E g s -> (forall k', In k' ks -> sound_call E k') ->
  (forall K, succeeds E (Prepare_coarse K) (after E ks s) <-> after_fes makes_rhs ks)
  /\ (forall xc xf, succeeds E (Prolong xc xf) (after E ks s) <-> after_fes is_coarse ks)
  /\ (forall xc xf, succeeds E (Restrict xc xf) (after E ks s) <-> after_fes is_coarse ks)
  /\ (forall xi xo, succeeds E (Qop xi xo) (after E ks s) <-> made_tmp ks /\ exists S0, In (Set_coarse S0) ks)
  /\ (forall b x, ~ succeeds E (Twolvl b x) (after E ks s)).
Proof.
  intros E g s ks HC Hs.
  assert (A : (exists S0, In (Set_coarse S0) ks) <-> h_sco (run (mode_of E g) ks nothing) = true).
  { rewrite t_sco. split; [intros [S0 H]; exists (Set_coarse S0); auto|]. intros [k [H1 H2]]. destruct k; try discriminate H2. exists S0. exact H1. }
  assert (N : h_nod (run (mode_of E g) ks nothing) = true -> h_crs (run (mode_of E g) ks nothing) = true).
  { rewrite t_nod, t_crs. intros [k1 [k [k2 [-> [_ H]]]]]. exists k. split; [apply in_or_app; right; left; reflexivity|exact H]. }
  split; [|split; [|split; [|split]]].
  - intro K. rewrite (succ_auto E g s ks HC Hs). cbn [auto first_of when]. rewrite <- (t_rhs (mode_of E g)).
    pose proof (rhs_fes (mode_of E g) ks) as X. rewrite <- (t_fes (mode_of E g)) in X.
    destruct (h_fes (run (mode_of E g) ks nothing)), (h_rhs (run (mode_of E g) ks nothing)); cbn in *; split; try discriminate; try reflexivity.
    intros _. destruct X as [X _]. specialize (X eq_refl). discriminate X.
  - intros xc xf. rewrite (succ_auto E g s ks HC Hs). cbn [auto first_of fst]. rewrite <- (t_nod (mode_of E g)).
    destruct (h_nod (run (mode_of E g) ks nothing)); [rewrite (N eq_refl)|destruct (h_crs (run (mode_of E g) ks nothing))]; split; congruence.
  - intros xc xf. rewrite (succ_auto E g s ks HC Hs). cbn [auto first_of fst]. rewrite <- (t_nod (mode_of E g)).
    destruct (h_nod (run (mode_of E g) ks nothing)); [rewrite (N eq_refl)|destruct (h_crs (run (mode_of E g) ks nothing))]; split; congruence.
  - intros xi xo. rewrite (succ_auto E g s ks HC Hs), A. cbn [auto fst]. rewrite first_none, <- (t_tmp (mode_of E g)). split.
    + intro H. split; apply (H _ AttributeError); cbn; auto 10.
    + intros [H1 H2] b e X.
      assert (T : h_nod (run (mode_of E g) ks nothing) = true).
      { apply t_tmp in H1. apply t_nod. destruct H1 as [k1 [K [k2 [-> H1]]]]. exists k1, (Prepare_coarse K), k2.
        split; [reflexivity|]. split; [exact (after_fes_fes _ _ H1)|reflexivity]. }
      destruct X as [X|[X|[X|[X|[]]]]]; injection X; intros; subst; auto.
  - intros b x. rewrite (succ_auto E g s ks HC Hs). discriminate.
Qed.

(** ** Which exception a failing call raises *)
(** calls that assemble *)
Definition assembles (k : call) : bool :=
  match k with
  | Build_matrix _ | Get_matrix _ | Get_bfi _ | Setup_rhs | Get_rhs | Get_lfi | Setup_coupling | Setup_mass | Setup_slab _
  | Get_slab_bfi | Get_slab_matrix | Prepare => true
  | _ => false
  end.
Definition marches (k : call) : bool := match k with Apply _ _ | March _ _ => true | _ => false end.
Definition corrects (k : call) : bool := match k with Prolong _ _ | Restrict _ _ | Qop _ _ => true | _ => false end.
Definition is_improved (k : call) : bool := match k with Improved _ _ => true | _ => false end.
Definition uses_mass (k : call) : bool := match k with Setup_mass | Prepare => true | _ => false end.
(** what the failure is *)
Definition why (m : mode) (k : call) (h : shape) (e : exn) : Prop :=
  (e = ValueError /\ (assembles k = true /\ h_fes h = false \/ is_improved k = true /\ md_jumps m = true))
  \/ (e = TypeError /\ (marches k = true /\ h_fes h = false \/ corrects k = true /\ h_crs h = false))
  \/ (e = RuntimeError /\ uses_mass k = true /\ h_fes h = true /\ md_mass m = false)
  \/ (e = AttributeError /\ ~ (assembles k = true) /\ ~ (is_improved k = true /\ md_jumps m = true)
      /\ ~ (marches k = true /\ h_fes h = false) /\ ~ (corrects k = true /\ h_crs h = false)).
Ltac one_bool H := match type of H with
  | context [match ?b with true => _ | false => _ end] => is_var b; destruct b
  | context [?b && _] => is_var b; destruct b
  | context [?b || _] => is_var b; destruct b
  | context [negb ?b] => is_var b; destruct b
  end; cbn in H; try discriminate H.
Lemma auto_why m k h e : (h_brp h = true -> h_fes h = true) -> (h_st h = true -> h_fes h = true) -> (h_rhs h = true -> h_fes h = true) ->
  (h_sl h = true -> h_fes h = true) -> fst (auto m k h) = Some e -> why m k h e.
Proof.
  intros B1 B2 B3 B4 H. unfold why. destruct h as [fes st rhs co ma sl nj brp sfi ssl crs nod cmt tmp sco], m as [many wp jumps mass].
  cbn in B1, B2, B3, B4. destruct k; cbn in H |- *; try discriminate H; repeat one_bool H.
  all: injection H as <-; try (specialize (B1 eq_refl)); try (specialize (B2 eq_refl)); try (specialize (B3 eq_refl)); try (specialize (B4 eq_refl)); try congruence.
  all: first [ left; split; [reflexivity|]; intuition congruence
             | right; left; split; [reflexivity|]; intuition congruence
             | right; right; left; split; [reflexivity|]; intuition congruence
             | right; right; right; split; [reflexivity|]; intuition congruence ].
Qed.
(** After any history, a call that raises e raises ValueError because something
    is assembled without spaces or pre_time_marching_improved is used with jump
    stabilisation, TypeError because a matrix-vector product or march lacks the
    spaces or a transfer lacks the coarse grid, RuntimeError because the weight
    of the primal jumps is zero, and AttributeError in every other case. *)
Theorem C83_exceptions : forall E g s ks k e, created E g s -> (forall k', In k' ks -> sound_call E k') ->
  returns E k (after E ks s) = Err e ->
  let spaces := In Setup_fes ks in
  let coarse := exists K, In (Prepare_coarse K) ks in
  (e = ValueError <-> assembles k = true /\ ~ spaces \/ is_improved k = true /\ c_jumps (e_c E) = true)
  /\ (e = TypeError <-> marches k = true /\ ~ spaces \/ corrects k = true /\ ~ coarse)
  /\ (e = RuntimeError <-> uses_mass k = true /\ spaces /\ g_jump g = 0)
  /\ (e = ValueError \/ e = TypeError \/ e = RuntimeError \/ e = AttributeError).
Proof.
  intros E g s ks k e HC Hs He spaces coarse. unfold spaces, coarse. clear spaces coarse.
  pose proof (C83_automaton E g s ks k HC Hs) as HA. rewrite He in HA. cbn [failure] in HA. symmetry in HA.
  set (m := mode_of E g) in *.
  assert (F : h_fes (run m ks nothing) = false <-> ~ In Setup_fes ks).
  { rewrite <- (t_fes m). destruct (h_fes (run m ks nothing)); split; congruence. }
  assert (F' : h_fes (run m ks nothing) = true <-> In Setup_fes ks) by apply t_fes.
  assert (C : h_crs (run m ks nothing) = false <-> ~ exists K, In (Prepare_coarse K) ks).
  { assert (X : h_crs (run m ks nothing) = true <-> exists K, In (Prepare_coarse K) ks).
    { rewrite t_crs. split; [intros [k' [H1 H2]]; destruct k'; try discriminate H2; eexists; exact H1|]. intros [K H]. exists (Prepare_coarse K). auto. }
    rewrite <- X. destruct (h_crs (run m ks nothing)); split; congruence. }
  assert (G : md_mass m = false <-> g_jump g = 0).
  { unfold m, mode_of, md_mass, is_zero. destruct (Req_EM_T (g_jump g) 0); cbn; split; congruence. }
  assert (J : md_jumps m = c_jumps (e_c E)) by reflexivity.
  assert (W : why m k (run m ks nothing) e).
  { apply auto_why; [| | | |exact HA].
    - rewrite t_brp, t_fes. intros [k1 [k2 [-> [H _]]]]. apply in_or_app. left. exact H.
    - rewrite t_st, t_fes. apply after_fes_fes.
    - rewrite t_rhs, t_fes. apply after_fes_fes.
    - rewrite t_sl, t_fes. apply after_fes_fes. }
  unfold why in W. rewrite F, F', C, G, J in W.
  assert (X : assembles k = true -> marches k = false /\ corrects k = false /\ is_improved k = false) by (destruct k; cbn; intro X0; try discriminate X0; auto).
  assert (Y : uses_mass k = true -> assembles k = true) by (destruct k; cbn; intro X0; try discriminate X0; auto).
  assert (Z : marches k = true -> corrects k = false /\ is_improved k = false) by (destruct k; cbn; intro X0; try discriminate X0; auto).
  assert (V : corrects k = true -> is_improved k = false /\ marches k = false) by (destruct k; cbn; intro X0; try discriminate X0; auto).
  clear HA He F F' C G J.
  destruct (assembles k) eqn:E1; [destruct (X eq_refl) as [X1 [X2 X3]]; rewrite X1, X2, X3 in *|];
  destruct (marches k) eqn:E2; try destruct (Z eq_refl) as [Z1 Z2]; try rewrite Z1, Z2 in *;
  destruct (corrects k) eqn:E3; try destruct (V eq_refl) as [V1 V2]; try rewrite V1 in *;
  destruct (uses_mass k) eqn:E4; try specialize (Y eq_refl); try discriminate;
  destruct W as [[-> W]|[[-> W]|[[-> W]|[-> W]]]]; intuition (try congruence; try discriminate).
Qed.

(** ** A call that has succeeded succeeds at all later times *)
Definition below (h h' : shape) : Prop := forall a : shape -> bool,
  In a [h_fes; h_st; h_rhs; h_co; h_ma; h_sl; h_nj; h_brp; h_sfi; h_ssl; h_crs; h_nod; h_cmt; h_tmp; h_sco] -> a h = true -> a h' = true.
Lemma below_step m k h : below h (snd (auto m k h)).
Proof.
  intros a Ha H. cbn [In] in Ha. decompose [or] Ha; clear Ha; subst; try contradiction.
  all: rewrite ?w_fes, ?w_st, ?w_rhs', ?w_co, ?w_ma, ?w_sl, ?w_nj, ?w_brp', ?w_sfi, ?w_ssl, ?w_crs, ?w_nod, ?w_cmt, ?w_tmp, ?w_sco, H; reflexivity.
Qed.
Lemma below_run m ks : forall h, below h (run m ks h).
Proof.
  induction ks as [|k ks IH]; intros h a Ha H; [exact H|]. cbn [run fold_left]. apply (IH (snd (auto m k h)) a Ha), (below_step m k h a Ha H).
Qed.
Lemma auto_mono m k h h' : below h h' -> fst (auto m k h) = None -> fst (auto m k h') = None.
Proof.
  intros B H.
  pose proof (B h_fes ltac:(cbn; auto 20)) as B1. pose proof (B h_st ltac:(cbn; auto 20)) as B2. pose proof (B h_rhs ltac:(cbn; auto 20)) as B3.
  pose proof (B h_co ltac:(cbn; auto 20)) as B4. pose proof (B h_ma ltac:(cbn; auto 20)) as B5. pose proof (B h_sl ltac:(cbn; auto 20)) as B6.
  pose proof (B h_nj ltac:(cbn; auto 20)) as B7. pose proof (B h_brp ltac:(cbn; auto 20)) as B8. pose proof (B h_sfi ltac:(cbn; auto 20)) as B9.
  pose proof (B h_ssl ltac:(cbn; auto 20)) as B10. pose proof (B h_crs ltac:(cbn; auto 20)) as B11. pose proof (B h_nod ltac:(cbn; auto 20)) as B12.
  pose proof (B h_tmp ltac:(cbn; auto 20)) as B13. pose proof (B h_sco ltac:(cbn; auto 20)) as B14. clear B.
  destruct h as [fes st rhs co ma sl nj brp sfi ssl crs nod cmt tmp sco], h' as [fes' st' rhs' co' ma' sl' nj' brp' sfi' ssl' crs' nod' cmt' tmp' sco'],
    m as [many wp jumps mass].
  cbn in B1, B2, B3, B4, B5, B6, B7, B8, B9, B10, B11, B12, B13, B14.
  destruct k; cbn in H |- *; try reflexivity; try discriminate H; repeat one_bool H;
  repeat match goal with B : true = true -> ?x = true |- _ => specialize (B eq_refl); rewrite B end; cbn; rewrite ?orb_true_r; try reflexivity.
  all: repeat match goal with |- context [match ?b with true => _ | false => _ end] => is_var b; destruct b; cbn; try reflexivity
    | |- context [?b && _] => is_var b; destruct b; cbn; try reflexivity | |- context [?b || _] => is_var b; destruct b; cbn; try reflexivity
    | |- context [negb ?b] => is_var b; destruct b; cbn; try reflexivity end.
Qed.
Theorem C83_once_works_always_works : forall E g s ks ks' k, created E g s -> (forall k', In k' (ks ++ ks') -> sound_call E k') ->
  succeeds E k (after E ks s) -> succeeds E k (after E (ks ++ ks') s).
Proof.
  intros E g s ks ks' k HC Hs H. rewrite (succ_auto E g s) in H |- *; try assumption.
  - unfold run. rewrite fold_left_app. fold (run (mode_of E g) ks nothing).
    exact (auto_mono _ k _ _ (below_run (mode_of E g) ks' _) H).
  - intros k' Hk. apply Hs, in_or_app. left. exact Hk.
Qed.

(** ** Example: for every number of slabs and every mode, a history that uses
    the whole interface; and the same history in another order, in which the
    improved preconditioner fails for good. *)
Definition ex_solver : solver := fun b _ => Ok b.
Definition ex_history (c : config) : list call :=
  [Setup_fes; Prepare; Get_slab_matrix; Setup_slab false; Set_first ex_solver; Set_slab ex_solver; Prepare_coarse (exK c); Set_coarse ex_solver].
Definition ex_other (c : config) : list call :=
  [Setup_fes; Get_slab_matrix; Prepare; Set_first ex_solver; Set_slab ex_solver; Prepare_coarse (exK c); Set_coarse ex_solver].
Example C83_nonvacuous : forall N wp jm, (1 <= N)%nat -> exists E g s, created E g s /\ c_N (e_c E) = N /\ c_wp (e_c E) = wp /\ c_jumps (e_c E) = jm
  /\ (forall k, In k (ex_history (e_c E)) -> sound_call E k) /\ (forall k, In k (ex_other (e_c E)) -> sound_call E k)
  /\ (let t := after E (ex_history (e_c E)) s in
      succeeds E (Apply 1 2) t /\ succeeds E (March 1 2) t /\ (succeeds E (Improved 1 2) t <-> jm = false)
      /\ succeeds E (Qop 1 2) t /\ succeeds E (Measure 1) t)
  /\ (forall ks, (forall k, In k ks -> sound_call E k) -> ~ succeeds E (Improved 1 2) (after E (ex_other (e_c E) ++ ks) s)).
Proof.
  intros N wp jm HN. destruct (exP_ok 1 1 N jm wp) as [c HC]; try lia. pose proof (construct_inv _ _ HC) as HB.
  set (E := exE exI c). set (s := init_state false (fun _ => 1) (fun _ _ => 0) 5).
  assert (CR : created E exG s).
  { constructor.
    - eexists. apply (exE_good exI _ _ _ _ _ _ HC).
    - apply exE_ok, (bu_N _ _ HB).
    - intros p _. cbn. lra.
    - exists false, (fun _ => 1), (fun _ _ => 0), 5%nat. reflexivity. }
  assert (J0 : g_jump exG <> 0) by (cbn; lra).
  assert (AN : answering ex_solver) by (intros b x; exists b; reflexivity).
  assert (FK : fits E (exK c)) by (constructor; [apply std_layout_ok|reflexivity|reflexivity]).
  assert (S1 : forall k, In k (ex_history c) -> sound_call E k).
  { intros k Hk. cbn in Hk. decompose [or] Hk; subst; try contradiction; cbn; auto. }
  assert (S2 : forall k, In k (ex_other c) -> sound_call E k).
  { intros k Hk. cbn in Hk. decompose [or] Hk; subst; try contradiction; cbn; auto. }
  exists E, exG, s. split; [exact CR|]. split; [exact (bu_NP _ _ HB)|]. split; [exact (bu_wp _ _ HB)|]. split; [exact (bu_jumps _ _ HB)|].
  split; [exact S1|]. split; [exact S2|]. split.
  - cbv zeta. change (e_c E) with c. split; [|split; [|split; [|split]]].
    + apply (C83_apply E exG s _ 1 2 CR S1). split; [|intros _].
      * exists [Setup_fes; Prepare; Get_slab_matrix], (Setup_slab false), [Set_first ex_solver; Set_slab ex_solver; Prepare_coarse (exK c); Set_coarse ex_solver].
        split; [reflexivity|]. split; [left; reflexivity|left; reflexivity].
      * exists [Setup_fes], Prepare, [Get_slab_matrix; Setup_slab false; Set_first ex_solver; Set_slab ex_solver; Prepare_coarse (exK c); Set_coarse ex_solver].
        split; [reflexivity|]. split; [left; reflexivity|reflexivity].
    + apply (C83_march E exG s _ 1 2 CR S1). split; [left; reflexivity|]. split; [|intros _]; exists ex_solver; cbn; auto 10.
    + rewrite (C83_improved E exG s _ 1 2 CR S1). change (e_c E) with c. rewrite (bu_jumps _ _ HB). cbn [exP p_jumps]. split; [tauto|].
      intro Hj. split; [exact Hj|]. split; [exact J0|]. split; [|split; [|intros _]; exists ex_solver; cbn; auto 10].
      exists [Setup_fes], [Get_slab_matrix; Setup_slab false; Set_first ex_solver; Set_slab ex_solver; Prepare_coarse (exK c); Set_coarse ex_solver].
      split; [reflexivity|]. split; [left; reflexivity|]. intros [k1 [k [k2 [X [Y Z]]]]]. destruct k1 as [|a [|b k1]]; [destruct Y| |destruct k1; discriminate X].
      discriminate X.
    + apply (C83_coarse E exG s _ CR S1). split; [|exists ex_solver; cbn; auto 10].
      exists [Setup_fes; Prepare; Get_slab_matrix; Setup_slab false; Set_first ex_solver; Set_slab ex_solver], (exK c), [Set_coarse ex_solver].
      split; [reflexivity|]. exists [Setup_fes], Prepare, [Get_slab_matrix; Setup_slab false; Set_first ex_solver; Set_slab ex_solver].
      split; [reflexivity|]. split; [left; reflexivity|reflexivity].
    + apply (C83_setup_calls E exG s _ (Measure 1) CR S1); [reflexivity|left; reflexivity].
  - change (e_c E) with c. intros ks Hks Hsu.
    assert (S3 : forall k, In k (ex_other c ++ ks) -> sound_call E k).
    { intros k Hk. apply in_app_or in Hk. destruct Hk; auto. }
    apply (C83_improved E exG s _ 1 2 CR S3) in Hsu. destruct Hsu as [_ [_ [[k1 [k2 [X [Y Z]]]] _]]].
    apply Z. destruct k1 as [|a [|b k1]]; [destruct Y|discriminate X|]. injection X as X1 X2 _. subst a b.
    exists [Setup_fes], Get_slab_matrix, k1. split; [reflexivity|]. split; [left; reflexivity|reflexivity].
Qed.

Print Assumptions C83_automaton.
Print Assumptions C83_setup_calls.
Print Assumptions C83_mass.
Print Assumptions C83_apply.
Print Assumptions C83_march.
Print Assumptions C83_improved.
Print Assumptions C83_coarse.
Print Assumptions C83_exceptions.
Print Assumptions C83_once_works_always_works.
