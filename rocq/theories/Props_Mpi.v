(** Props_Mpi.v -- property C84: runs on several MPI processes. *)
From Coq Require Import Reals List ZArith Lra Lia Bool Permutation.
From Coq Require Import Relation_Operators.
From Verif Require Import Base TimeModel FormModel FormSpec FormProofs SpaceTimeForms FormBlocks FormTime FormExample
  SpaceTimeModel SlabOps ApplyProofs ErrorsModel OpsExample MpiModel.
Import ListNotations.
Open Scope R_scope.
Open Scope monad_scope.

(** * Sums over the ranks *)
Lemma Rsum_ranks {A} (n : nat) (l : list A) (rk : A -> nat) (f : A -> R) :
  (forall a, In a l -> (rk a < n)%nat) -> Rsum l f = sumn n (fun r => Rsum (filter (fun a => Nat.eqb (rk a) r) l) f).
Proof.
  induction l as [|a l IH]; intro H.
  - rewrite Rsum_nil. symmetry. apply Rsum_zero. intros. reflexivity.
  - rewrite Rsum_cons, IH by (intros b Hb; apply H; right; exact Hb).
    rewrite (sumn_ext n (fun r => Rsum (filter (fun b => Nat.eqb (rk b) r) (a :: l)) f)
       (fun r => delta (rk a) r * f a + Rsum (filter (fun b => Nat.eqb (rk b) r) l) f)).
    + rewrite Rsum_plus. f_equal. symmetry. apply (sumn_delta n (fun _ => f a) (rk a)). apply H. left. reflexivity.
    + intros r _. cbn [filter]. unfold delta. destruct (Nat.eqb (rk a) r); [rewrite Rsum_cons; ring|ring].
Qed.

Section Split.
  Variables (D : disc) (S : split).
  Hypothesis HS : split_ok D S.
  Lemma integ_ranks m wt nc f g : integ D m wt nc f g = sumn (sp_n S) (fun r => integ (local_disc D S r) m wt nc f g).
  Proof. unfold integ. apply (Rsum_ranks (sp_n S) _ (sp_cell S m)). intros p Hp. apply (so_cell _ _ HS _ _ Hp). Qed.
  Lemma eval_ranks f X Y : eval D f X Y = sumn (sp_n S) (fun r => eval (local_disc D S r) f X Y).
  Proof.
    unfold eval. rewrite Rsum_swap. apply Rsum_ext. intro t. unfold eval_t. rewrite Rsum_scal. f_equal.
    rewrite integ_ranks. reflexivity.
  Qed.
  Lemma leval_ranks f Y : leval D f Y = sumn (sp_n S) (fun r => leval (local_disc D S r) f Y).
  Proof.
    unfold leval. rewrite Rsum_swap. apply Rsum_ext. intro t. unfold leval_t. rewrite Rsum_scal. f_equal.
    rewrite integ_ranks. reflexivity.
  Qed.
End Split.

(** The matrices are those of the run on one process, and the sums over the ranks in
    measured_errors are the integrals over the whole mesh. *)
Theorem C84_matrices : forall D S L f I J, split_ok D S -> assemble_ranks D S L f I J = assemble D L f I J.
Proof. intros D S L f I J HS. unfold assemble_ranks, assemble. symmetry. apply eval_ranks. exact HS. Qed.
Theorem C84_errors_reduced : forall E S f, split_ok (e_D E) S ->
  allreduce (sp_n S) (fun r => l2sq (mkEnv (e_c E) (local_disc (e_D E) S r) (e_Lf E) (e_Lp E) (e_Lc E) (e_Lb E)) f) = l2sq E f.
Proof. intros E S f HS. unfold allreduce, l2sq. cbn [e_D]. symmetry. apply integ_ranks. exact HS. Qed.

(** * Positions in the local numbering *)
Lemma index_app x a b : (In x a -> index_of x (a ++ b) = index_of x a /\ (index_of x a < length a)%nat)
  /\ (~ In x a -> index_of x (a ++ b) = (length a + index_of x b)%nat).
Proof.
  induction a as [|y a [IH1 IH2]]; cbn [app index_of In length]; split; intro H.
  - destruct H.
  - reflexivity.
  - destruct (Nat.eqb_spec y x); [split; [reflexivity|lia]|]. destruct H as [H|H]; [congruence|]. destruct (IH1 H) as [-> H2]. split; [reflexivity|lia].
  - destruct (Nat.eqb_spec y x); [exfalso; apply H; left; assumption|]. rewrite IH2; [reflexivity|]. intro K. apply H. right. exact K.
Qed.
Lemma nth_index x a d : In x a -> nth (index_of x a) a d = x.
Proof.
  induction a as [|y a IH]; intro H; [destruct H|]. cbn [index_of]. destruct (Nat.eqb_spec y x); [exact e|].
  cbn [nth]. apply IH. destruct H; [congruence|assumption].
Qed.
Lemma index_nth a i d : NoDup a -> (i < length a)%nat -> index_of (nth i a d) a = i.
Proof.
  revert i. induction a as [|y a IH]; intros i Hn Hi; [cbn in Hi; lia|]. inversion Hn as [|? ? N1 N2]; subst.
  destruct i as [|i]; cbn [nth index_of]; [rewrite Nat.eqb_refl; reflexivity|].
  destruct (Nat.eqb_spec y (nth i a d)) as [E|E].
  - exfalso. apply N1. rewrite E. apply nth_In. cbn in Hi. lia.
  - f_equal. apply IH; [exact N2|cbn in Hi; lia].
Qed.
Lemma index_inj x y a : In x a -> In y a -> index_of x a = index_of y a -> x = y.
Proof. intros Hx Hy H. rewrite <- (nth_index x a 0%nat Hx), <- (nth_index y a 0%nat Hy). congruence. Qed.

Section Numbers.
  Variables (D : disc) (S : split) (nb : nat) (nc : nat -> nat) (L : layout) (nu : numbering) (r : nat).
  Hypothesis HS : split_ok D S.
  Hypothesis HL : lay_ok D nb nc L.
  Hypothesis HN : numbers D S nb nc L nu.
  Lemma in_dofs_of nodes I : In I (dofs_of nb nc L nodes) <-> exists j i l, (j < nb)%nat /\ (i < nc j)%nat /\ In l (nodes (spc j)) /\ I = dof L j i l.
  Proof.
    unfold dofs_of. rewrite in_flat_map. split.
    - intros [j [Hj H]]. apply in_flat_map in H as [i [Hi H]]. apply in_map_iff in H as [l [H1 H2]].
      apply in_seq in Hj. apply in_seq in Hi. exists j, i, l. repeat split; try lia; auto.
    - intros [j [i [l [Hj [Hi [Hl ->]]]]]]. exists j. split; [apply in_seq; lia|]. apply in_flat_map. exists i. split; [apply in_seq; lia|].
      apply in_map. exact Hl.
  Qed.
  Lemma in_owned s l : In l (owned D S r s) <-> (l < d_dim D s)%nat /\ sp_owner S s l = r.
  Proof. unfold owned. rewrite filter_In, in_seq, Nat.eqb_eq. intuition lia. Qed.
  Lemma own_in j i l : (j < nb)%nat -> (i < nc j)%nat -> (l < d_dim D (spc j))%nat ->
    (In (dof L j i l) (nu_own nu r) <-> sp_owner S (spc j) l = r).
  Proof.
    intros Hj Hi Hl. destruct (HN r) as [P _]. split; intro H.
    - apply (Permutation_in _ P) in H. apply in_dofs_of in H as [j' [i' [l' [Hj' [Hi' [Hl' E]]]]]]. apply in_owned in Hl' as [Hl' Ho].
      destruct (dof_inj D nb nc L j i l j' i' l' HL Hj Hi Hl Hj' Hi' Hl' E) as [-> [-> ->]]. exact Ho.
    - apply (Permutation_in _ (Permutation_sym P)). apply in_dofs_of. exists j, i, l. repeat split; auto. apply in_owned. split; assumption.
  Qed.
  Lemma nodup_dofs nodes : (forall s, NoDup (nodes s)) -> (forall s l, In l (nodes s) -> (l < d_dim D s)%nat) -> NoDup (dofs_of nb nc L nodes).
  Proof.
    intros N1 N2. unfold dofs_of.
    assert (G : forall A B (f : A -> list B) l, NoDup l -> (forall a, In a l -> NoDup (f a)) ->
       (forall a a' b, In a l -> In a' l -> In b (f a) -> In b (f a') -> a = a') -> NoDup (flat_map f l)).
    { intros A B f l. induction l as [|a l IH]; intros Hl H1 H2; cbn [flat_map]; [constructor|]. inversion Hl as [|? ? Q1 Q2]; subst.
      assert (IH' : NoDup (flat_map f l)) by (apply IH; [exact Q2|intros; apply H1; right; assumption|intros; apply (H2 a0 a' b); try right; assumption]).
      assert (Dj : forall b, In b (f a) -> ~ In b (flat_map f l)).
      { intros b Hb Hc. apply in_flat_map in Hc as [a' [Ha' Hb']]. apply Q1. rewrite (H2 a a' b); auto; [left; reflexivity|right; exact Ha']. }
      specialize (H1 a (or_introl eq_refl)). revert H1 Dj. generalize (f a). induction l0 as [|x l0 IHl]; intros H1 Dj; [exact IH'|].
      inversion H1; subst. cbn. constructor.
      - rewrite in_app_iff. intros [K|K]; [contradiction|]. apply (Dj x (or_introl eq_refl) K).
      - apply IHl; [assumption|]. intros b Hb. apply Dj. right. exact Hb. }
    apply G; [apply seq_NoDup| |].
    - intros j Hj. apply in_seq in Hj. apply G; [apply seq_NoDup| |].
      + intros i Hi. apply in_seq in Hi. specialize (N1 (spc j)). pose proof (N2 (spc j)) as N3. revert N1 N3. generalize (nodes (spc j)).
        induction l as [|x l IHl]; intros K1 K2; cbn; [constructor|]. inversion K1; subst. constructor.
        * rewrite in_map_iff. intros [y [E Hy]]. assert (y = x); [|subst; contradiction].
          assert (By : (y < d_dim D (spc j))%nat) by (apply K2; right; exact Hy). assert (Bx : (x < d_dim D (spc j))%nat) by (apply K2; left; reflexivity).
          refine (proj2 (proj2 (dof_inj D nb nc L j i y j i x HL _ _ _ _ _ _ E))); assumption || lia.
        * apply IHl; [assumption|]. intros z Hz. apply K2. right. exact Hz.
      + intros i i' b Hi Hi' H H'. apply in_seq in Hi. apply in_seq in Hi'. apply in_map_iff in H as [l [<- Hl]]. apply in_map_iff in H' as [l' [E Hl']].
        apply N2 in Hl. apply N2 in Hl'. symmetry. refine (proj1 (proj2 (dof_inj D nb nc L j i' l' j i l HL _ _ _ _ _ _ E))); assumption || lia.
    - intros j j' b Hj Hj' H H'. apply in_seq in Hj. apply in_seq in Hj'. apply in_flat_map in H as [i [Hi H]]. apply in_flat_map in H' as [i' [Hi' H']].
      apply in_seq in Hi. apply in_seq in Hi'. apply in_map_iff in H as [l [<- Hl]]. apply in_map_iff in H' as [l' [E Hl']].
      apply N2 in Hl. apply N2 in Hl'. symmetry. refine (proj1 (dof_inj D nb nc L j' i' l' j i l HL _ _ _ _ _ _ E)); assumption || lia.
  Qed.
  Lemma own_nodup : NoDup (nu_own nu r).
  Proof.
    apply (Permutation_NoDup (Permutation_sym (proj1 (HN r)))). apply nodup_dofs.
    - intro s. apply NoDup_filter, seq_NoDup.
    - intros s l Hl. apply in_owned in Hl. apply Hl.
  Qed.
  Lemma own_dof I : In I (nu_own nu r) -> exists j i l, (j < nb)%nat /\ (i < nc j)%nat /\ (l < d_dim D (spc j))%nat /\ sp_owner S (spc j) l = r /\ I = dof L j i l.
  Proof.
    intro H. apply (Permutation_in _ (proj1 (HN r))) in H. apply in_dofs_of in H as [j [i [l [Hj [Hi [Hl ->]]]]]]. apply in_owned in Hl as [Hl Ho].
    exists j, i, l. repeat split; assumption.
  Qed.

  (** reading a component through its dof map *)
  Lemma take_rank x j i : (j < nb)%nat -> (i < nc j)%nat ->
    take (vec_array nu r x) (local_map D S L nu r j i)
    = if match sp_ghost S r (spc j) with [] => true | _ => false end
      then Ok (map (fun l => x (dof L j i l)) (owned D S r (spc j))) else Err IndexError.
  Proof.
    intros Hj Hi. unfold take, vec_array. rewrite map_length.
    destruct (sp_ghost S r (spc j)) as [|g gs] eqn:EG.
    - replace (forallb (fun i0 : nat => Nat.ltb i0 (length (nu_own nu r))) (local_map D S L nu r j i)) with true.
      + f_equal. unfold local_map. rewrite EG, app_nil_r, map_map. apply map_ext_in. intros l Hl. apply in_owned in Hl as [Hl Ho].
        assert (HI : In (dof L j i l) (nu_own nu r)) by (apply own_in; assumption).
        destruct (proj1 (index_app (dof L j i l) (nu_own nu r) (nu_gh nu r)) HI) as [-> Hlt].
        rewrite (nth_indep _ 0 (x 0%nat)) by (rewrite map_length; exact Hlt). rewrite map_nth, nth_index by exact HI. reflexivity.
      + symmetry. apply forallb_forall. intros k Hk. unfold local_map in Hk. rewrite EG, app_nil_r in Hk. apply in_map_iff in Hk as [l [<- Hl]].
        apply in_owned in Hl as [Hl Ho]. assert (HI : In (dof L j i l) (nu_own nu r)) by (apply own_in; assumption).
        destruct (proj1 (index_app (dof L j i l) (nu_own nu r) (nu_gh nu r)) HI) as [-> Hlt]. apply Nat.ltb_lt. exact Hlt.
    - replace (forallb (fun i0 : nat => Nat.ltb i0 (length (nu_own nu r))) (local_map D S L nu r j i)) with false; [reflexivity|].
      symmetry. apply not_true_is_false. intro H. rewrite forallb_forall in H.
      assert (Hg : In g (sp_ghost S r (spc j))) by (rewrite EG; left; reflexivity).
      destruct (so_ghost _ _ HS _ _ _ Hg) as [Hl Ho].
      specialize (H (index_of (dof L j i g) (nu_own nu r ++ nu_gh nu r))). rewrite (proj2 (index_app _ _ _)) in H.
      + apply (fun f => proj1 (Nat.ltb_lt _ _) f) in H; [lia|]. unfold local_map. rewrite in_map_iff. exists g. split; [|apply in_or_app; right; exact Hg].
        apply (proj2 (index_app _ _ _)). intro K. apply own_in in K; auto.
      + intro K. apply own_in in K; auto.
  Qed.
End Numbers.

(** * Writing *)
Lemma set_nth_map w own : forall d v, NoDup own -> In d own -> set_nth (map w own) (index_of d own) v = map (upd w d v) own.
Proof.
  induction own as [|y own IH]; intros d v Hn Hd; [destruct Hd|]. inversion Hn as [|? ? N1 N2]; subst. cbn [map index_of].
  destruct (Nat.eqb_spec y d) as [->|Hne].
  - cbn [set_nth]. rewrite upd_same. f_equal. apply map_ext_in. intros a Ha. symmetry. apply upd_other. intros ->. contradiction.
  - cbn [set_nth]. rewrite upd_other by exact Hne. f_equal. apply IH; [exact N2|]. destruct Hd; [congruence|assumption].
Qed.
Lemma set_all_map own ds : NoDup own -> forall w vals, (forall d, In d ds -> In d own) ->
  set_all (map w own) (map (fun d => index_of d own) ds) vals = map (scatter w ds vals) own.
Proof.
  intro Hn. induction ds as [|d ds IH]; intros w vals Hd; [reflexivity|]. destruct vals as [|v vals]; [reflexivity|]. cbn [map set_all scatter].
  rewrite set_nth_map by (try exact Hn; apply Hd; left; reflexivity). apply IH. intros d' H. apply Hd. right. exact H.
Qed.

Section Copy.
  Variables (D : disc) (S : split) (nd ns : nat) (cd cs : nat -> nat) (Ld Ls : layout) (md ms : numbering) (r : nat).
  Hypothesis HS : split_ok D S.
  Hypothesis Hd : lay_ok D nd cd Ld.
  Hypothesis Hs : lay_ok D ns cs Ls.
  Hypothesis Nd : numbers D S nd cd Ld md.
  Hypothesis Ns : numbers D S ns cs Ls ms.

  Lemma store_rank add w src j i js is : (j < nd)%nat -> (i < cd j)%nat -> (js < ns)%nat -> (is < cs js)%nat -> spc j = spc js ->
    sp_ghost S r (spc j) = [] ->
    store add (vec_array md r w) (local_map D S Ld md r j i) (map (fun l => src (dof Ls js is l)) (owned D S r (spc j)))
    = Ok (vec_array md r (setter add w (lay_sub Ld j i) (gather src (lay_sub Ls js is)))).
  Proof.
    intros Hj Hi Hjs His Hsp EG. set (ow := owned D S r (spc j)).
    assert (LM : local_map D S Ld md r j i = map (fun d => index_of d (nu_own md r)) (map (dof Ld j i) ow)).
    { unfold local_map. rewrite EG, app_nil_r, map_map. apply map_ext_in. intros l Hl. apply in_owned in Hl as [Hl Ho].
      apply (proj1 (index_app _ _ _)). apply (own_in D S nd cd); assumption. }
    assert (OI : forall d, In d (map (dof Ld j i) ow) -> In d (nu_own md r)).
    { intros d Hdd. apply in_map_iff in Hdd as [l [<- Hl]]. apply in_owned in Hl as [Hl Ho]. apply (own_in D S nd cd); assumption. }
    unfold store. rewrite (take_rank D S nd cd Ld md r HS Hd Nd w j i Hj Hi), EG. cbn [rbind].
    rewrite map_length. unfold local_map at 1. rewrite EG, app_nil_r, map_length. fold ow. rewrite Nat.eqb_refl. cbn [negb]. f_equal.
    rewrite LM. unfold vec_array at 1. rewrite set_all_map by (try assumption; apply (own_nodup D S nd cd Ld md r Hd Nd)).
    unfold vec_array. apply map_ext_in. intros I HI. destruct (own_dof D S nd cd Ld md r Nd I HI) as [j' [i' [l' [Hj' [Hi' [Hl' [Ho ->]]]]]]].
    set (vals := map (fun l => src (dof Ls js is l)) ow).
    assert (SE : forall (vv : list R) , vv = (if add then map2 Rplus (map (fun l => w (dof Ld j i l)) ow) vals else vals) ->
       scatter w (map (dof Ld j i) ow) vv = setter add w (map (dof Ld j i) ow) vals).
    { intros vv ->. destruct add; [|reflexivity]. cbn [setter]. unfold scatter_add, gather. rewrite map_map. reflexivity. }
    rewrite (SE _ eq_refl). clear SE.
    assert (ND : NoDup (map (dof Ld j i) ow)).
    { assert (NO : NoDup ow) by apply NoDup_filter, seq_NoDup. assert (BO : forall l, In l ow -> (l < d_dim D (spc j))%nat) by (intros l Hl; apply in_owned in Hl; apply Hl).
      clearbody ow. clear LM OI vals. induction ow as [|x ow IH]; cbn; [constructor|]. inversion NO; subst. constructor.
      - rewrite in_map_iff. intros [y [E Hy]]. assert (By : (y < d_dim D (spc j))%nat) by (apply BO; right; exact Hy). assert (Bx : (x < d_dim D (spc j))%nat) by (apply BO; left; reflexivity).
        destruct (dof_inj D nd cd Ld j i y j i x Hd Hj Hi By Hj Hi Bx E) as [_ [_ ->]]. contradiction.
      - apply IH; [assumption|]. intros l Hl. apply BO. right. exact Hl. }
    destruct (Nat.eq_dec j' j) as [Ej|Ej]; [destruct (Nat.eq_dec i' i) as [Ei|Ei]|].
    - subst j' i'. assert (Hin : In l' ow) by (apply in_owned; split; assumption).
      destruct (In_nth ow l' 0%nat Hin) as [p [Hp Ep]].
      assert (LV : length vals = length (map (dof Ld j i) ow)) by (unfold vals; rewrite !map_length; reflexivity).
      assert (Ed : dof Ld j i l' = nth p (map (dof Ld j i) ow) 0%nat).
      { rewrite (nth_indep _ 0%nat (dof Ld j i 0%nat)) by (rewrite map_length; exact Hp). rewrite map_nth, Ep. reflexivity. }
      assert (Ev : nth p vals 0 = src (dof Ls js is l')).
      { unfold vals. rewrite (nth_indep _ 0 ((fun l => src (dof Ls js is l)) 0%nat)) by (rewrite map_length; exact Hp).
        rewrite (map_nth (fun l => src (dof Ls js is l))), Ep. reflexivity. }
      assert (G1 : setter add w (map (dof Ld j i) ow) vals (dof Ld j i l') = (if add then w (dof Ld j i l') else 0) + src (dof Ls js is l')).
      { rewrite Ed. destruct add; cbn [setter].
        - rewrite scatter_add_nth by (try assumption; rewrite map_length; exact Hp). rewrite Ev. reflexivity.
        - rewrite scatter_nth by (try assumption; rewrite map_length; exact Hp). rewrite Ev. ring. }
      rewrite G1. pose proof (set1_hit D nd cd Ld Hd add w j i (gather src (lay_sub Ls js is)) l' Hj Hi Hl') as G2.
      unfold field_of in G2. rewrite G2.
      + f_equal. unfold dof. symmetry. apply nth_gather. rewrite (wl_len _ _ _ _ Hs) by assumption. rewrite <- Hsp. exact Hl'.
      + rewrite length_gather, (wl_len _ _ _ _ Hs) by assumption. rewrite Hsp. reflexivity.
    - subst j'. assert (Out : ~ In (dof Ld j i' l') (map (dof Ld j i) ow)).
      { rewrite in_map_iff. intros [l [E Hl]]. apply in_owned in Hl as [Hl _]. destruct (dof_inj D nd cd Ld j i l j i' l' Hd Hj Hi Hl Hj' Hi' Hl' E) as [_ [X _]]. congruence. }
      pose proof (set1_miss D nd cd Ld Hd add w j i j i' (gather src (lay_sub Ls js is)) l' Hj Hi Hj' Hi' Hl' ltac:(congruence)) as G2.
      unfold field_of in G2. rewrite G2. destruct add; [apply scatter_add_out|apply scatter_out]; exact Out.
    - assert (Out : ~ In (dof Ld j' i' l') (map (dof Ld j i) ow)).
      { rewrite in_map_iff. intros [l [E Hl]]. apply in_owned in Hl as [Hl _]. destruct (dof_inj D nd cd Ld j i l j' i' l' Hd Hj Hi Hl Hj' Hi' Hl' E) as [X _]. congruence. }
      pose proof (set1_miss D nd cd Ld Hd add w j i j' i' (gather src (lay_sub Ls js is)) l' Hj Hi Hj' Hi' Hl' ltac:(congruence)) as G2.
      unfold field_of in G2. rewrite G2. destruct add; [apply scatter_add_out|apply scatter_out]; exact Out.
  Qed.

  (** without ghosts a rank does its share of what one process would do *)
  Lemma copy_fine add src : (forall s, sp_ghost S r s = []) -> forall prs w, valid nd ns cd cs prs ->
    copy_rank D S Ld Ls md ms r add prs (vec_array ms r src) (vec_array md r w) = (Ok tt, vec_array md r (move add Ld Ls prs src w)).
  Proof.
    intros NG prs. induction prs as [|[[jd id] [js is]] prs IH]; intros w Hv; [reflexivity|].
    destruct (Hv jd id js is (or_introl eq_refl)) as [A [B [C [E F]]]].
    unfold copy_rank. cbn [for_each]. rewrite (take_rank D S ns cs Ls ms r HS Hs Ns src js is C E), NG.
    unfold bind at 1, bind at 1. cbn [lift]. unfold bind at 1. cbn [get]. unfold bind at 1.
    rewrite <- F. rewrite (store_rank add w src jd id js is A B C E F (NG _)). cbn [lift]. unfold modify at 1.
    rewrite move_cons. apply IH. intros a b c d H. apply Hv. right. exact H.
  Qed.
  (** with ghosts it stops at the first component that has one *)
  Lemma copy_stops add src : forall prs w, valid nd ns cd cs prs -> (exists jd id js is, In ((jd, id), (js, is)) prs /\ sp_ghost S r (spc js) <> []) ->
    fst (copy_rank D S Ld Ls md ms r add prs (vec_array ms r src) (vec_array md r w)) = Err IndexError.
  Proof.
    induction prs as [|[[jd id] [js is]] prs IH]; intros w Hv [jd' [id' [js' [is' [Hin HG]]]]]; [destruct Hin|].
    destruct (Hv jd id js is (or_introl eq_refl)) as [A [B [C [E F]]]].
    unfold copy_rank. cbn [for_each]. rewrite (take_rank D S ns cs Ls ms r HS Hs Ns src js is C E).
    destruct (sp_ghost S r (spc js)) as [|g gs] eqn:EG; [|reflexivity].
    unfold bind at 1, bind at 1. cbn [lift]. unfold bind at 1. cbn [get]. unfold bind at 1.
    assert (EG' : sp_ghost S r (spc jd) = []) by (rewrite F; exact EG).
    rewrite <- F. rewrite (store_rank add w src jd id js is A B C E F EG'). cbn [lift]. unfold modify at 1.
    apply IH; [intros a b c d H; apply Hv; right; exact H|]. exists jd', id', js', is'. split; [|exact HG].
    destruct Hin as [X|X]; [injection X as <- <- <- <-; congruence|exact X].
  Qed.
End Copy.

(** * Connected meshes have ghosts *)
(** two quadrature points are linked if some basis function is seen at both *)
Definition linked (D : disc) (p p' : nat) : Prop :=
  In p (d_pts D Dx) /\ In p' (d_pts D Dx) /\
  exists s l o o' k k', (l < d_dim D s)%nat /\ d_tab D Dx s o l p k <> 0 /\ d_tab D Dx s o' l p' k' <> 0.
Definition connected (D : disc) : Prop := forall p p', In p (d_pts D Dx) -> In p' (d_pts D Dx) -> clos_refl_trans nat (linked D) p p'.
Definition ghosts_on (S : split) (r : nat) : Prop := exists s, sp_ghost S r s <> [].
Lemma chain_ghosts D S p p' : split_ok D S -> clos_refl_trans nat (linked D) p p' -> sp_cell S Dx p <> sp_cell S Dx p' ->
  exists r, (r < sp_n S)%nat /\ ghosts_on S r.
Proof.
  intros HS H. induction H as [p p' [Hp [Hp' [s [l [o [o' [k [k' [Hl [T1 T2]]]]]]]]]]|p|p q t H1 IH1 H2 IH2]; intro Hne.
  - destruct (so_local _ _ HS _ _ _ _ _ _ Hp Hl T1) as [O1|O1].
    + destruct (so_local _ _ HS _ _ _ _ _ _ Hp' Hl T2) as [O2|O2]; [congruence|].
      exists (sp_cell S Dx p'). split; [apply (so_cell _ _ HS _ _ Hp')|]. exists s. intro X. rewrite X in O2. destruct O2.
    + exists (sp_cell S Dx p). split; [apply (so_cell _ _ HS _ _ Hp)|]. exists s. intro X. rewrite X in O1. destruct O1.
  - congruence.
  - destruct (Nat.eq_dec (sp_cell S Dx p) (sp_cell S Dx q)) as [E|E]; [apply IH2; congruence|apply IH1; exact E].
Qed.
(** one process has none *)
Lemma alone_no_ghosts D S r : split_ok D S -> sp_n S = 1%nat -> (r < 1)%nat -> ~ ghosts_on S r.
Proof.
  intros HS Hn Hr [s H]. destruct (sp_ghost S r s) as [|g gs] eqn:E; [congruence|].
  destruct (so_ghost _ _ HS r s g) as [Hl Ho]; [rewrite E; left; reflexivity|]. pose proof (so_owner _ _ HS s g Hl). lia.
Qed.
Lemma no_ghosts S r : ~ ghosts_on S r -> forall s, sp_ghost S r s = [].
Proof. intros H s. destruct (sp_ghost S r s) eqn:E; [reflexivity|]. exfalso. apply H. exists s. rewrite E. discriminate. Qed.
Lemma ghosts_dec S r : {ghosts_on S r} + {~ ghosts_on S r}.
Proof.
  destruct (sp_ghost S r Vp) eqn:E1; [destruct (sp_ghost S r Vd) eqn:E2|].
  - right. intros [[] H]; congruence.
  - left. exists Vd. rewrite E2. discriminate.
  - left. exists Vp. rewrite E1. discriminate.
Qed.

(** * The right-hand side *)
Lemma unseen D S nb nc L r j i l : split_ok D S -> lay_ok D nb nc L -> (j < nb)%nat -> (i < nc j)%nat -> (l < d_dim D (spc j))%nat ->
  sp_owner S (spc j) l <> r -> ~ ghosts_on S r -> forall m o p k j' i', In p (d_pts (local_disc D S r) m) -> (j' < nb)%nat -> (i' < nc j')%nat ->
  fev (local_disc D S r) m (spc j') o (field_of L (unitv (dof L j i l)) j' i') p k = 0.
Proof.
  intros HS HL Hj Hi Hl Ho HG m o p k j' i' Hp Hj' Hi'. cbn [local_disc d_pts] in Hp. apply filter_In in Hp as [Hp Er]. apply Nat.eqb_eq in Er.
  unfold fev. cbn [local_disc d_dim d_tab]. apply Rsum_zero. intros l' Hl'. apply in_seq in Hl'.
  rewrite (field_unit D nb nc L j i l HL Hj Hi Hl j' i' l' Hj' Hi') by lia. unfold unit_field.
  destruct (Nat.eqb_spec j j'); cbn [andb]; [|ring]. destruct (Nat.eqb_spec i i'); cbn [andb]; [|ring]. destruct (Nat.eqb_spec l l'); cbn [andb]; [|ring].
  subst j' i' l'. destruct (Req_EM_T (d_tab D m (spc j) o l p k) 0) as [->|N]; [ring|].
  destruct (so_local _ _ HS m (spc j) o l p k Hp Hl N) as [Q|Q]; [congruence|]. rewrite Er, (no_ghosts S r HG) in Q. destruct Q.
Qed.
Lemma leval_unseen D S nb nc L r j i l f : split_ok D S -> lay_ok D nb nc L -> wf_lform nb nc f = true ->
  (j < nb)%nat -> (i < nc j)%nat -> (l < d_dim D (spc j))%nat -> sp_owner S (spc j) l <> r -> ~ ghosts_on S r ->
  leval (local_disc D S r) f (field_of L (unitv (dof L j i l))) = 0.
Proof.
  intros HS HL HW Hj Hi Hl Ho HG. unfold leval. apply Rsum_zero. intros t Ht. unfold wf_lform in HW. rewrite forallb_forall in HW. specialize (HW t Ht).
  unfold wf_lterm in HW. apply andb_prop in HW as [_ HA]. unfold leval_t. replace (integ _ _ _ _ _ _) with 0; [ring|]. symmetry. unfold integ.
  apply Rsum_zero. intros p Hp. replace (sumn _ _) with 0; [ring|]. symmetry. apply Rsum_zero. intros k _. replace (argval _ _ _ _ _ _ _ _) with 0; [ring|].
  symmetry. unfold argval. apply Rsum_zero. intros [x [v i']] Hin. destruct (wf_arg_all _ _ _ _ HA _ _ _ Hin) as [_ [B1 [_ B2]]].
  unfold pick. destruct (is_trial v); rewrite (unseen D S nb nc L r j i l HS HL Hj Hi Hl Ho HG) by assumption; ring.
Qed.
Lemma sumn_split n r f : (r < n)%nat -> sumn n f = f r + sumn n (fun k => if Nat.eqb k r then 0 else f k).
Proof.
  intro H. transitivity (sumn n (fun k => delta r k * f k) + sumn n (fun k => if Nat.eqb k r then 0 else f k)).
  - rewrite <- Rsum_plus. apply Rsum_ext. intro k. unfold delta. rewrite (Nat.eqb_sym k r). destruct (Nat.eqb r k); ring.
  - rewrite sumn_delta by exact H. reflexivity.
Qed.

(** What an owner holds after setup_rhs: its own cells' share.  The shares of the other
    ranks are missing. *)
Theorem C84_rhs : forall D S nb nc L nu f r, split_ok D S -> lay_ok D nb nc L -> numbers D S nb nc L nu -> (r < sp_n S)%nat ->
  let missing I := sumn (sp_n S) (fun r' => if Nat.eqb r' r then 0 else assemble_vec (local_disc D S r') L f I) in
  rhs_rank D S L nu r f = map (fun I => assemble_vec D L f I - missing I) (nu_own nu r) /\
  (wf_lform nb nc f = true -> (forall r', (r' < sp_n S)%nat -> ~ ghosts_on S r') -> rhs_rank D S L nu r f = vec_array nu r (assemble_vec D L f)).
Proof.
  intros D S nb nc L nu f r HS HL HN Hr missing.
  assert (G : rhs_rank D S L nu r f = map (fun I => assemble_vec D L f I - missing I) (nu_own nu r)).
  { unfold rhs_rank. apply map_ext. intro I. unfold missing. unfold assemble_vec at 2. rewrite (leval_ranks D S HS).
    rewrite (sumn_split _ r) by exact Hr. unfold assemble_vec. ring. }
  split; [exact G|]. intros HW HG. rewrite G. unfold vec_array. apply map_ext_in. intros I HI.
  destruct (own_dof D S nb nc L nu r HN I HI) as [j [i [l [Hj [Hi [Hl [Ho ->]]]]]]].
  replace (missing _) with 0; [ring|]. symmetry. unfold missing. apply Rsum_zero. intros r' Hr'. apply in_seq in Hr'.
  destruct (Nat.eqb_spec r' r); [reflexivity|]. unfold assemble_vec. apply (leval_unseen D S nb nc); try assumption; [congruence|]. apply HG. lia.
Qed.

(** * Copying into the first slab, loading a solution *)
Section Object.
  Variables (E : env) (S : split) (mf mp : numbering).
  Notation c := (e_c E).
  Notation D := (e_D E).
  Hypothesis HE : env_ok E.
  Hypothesis HS : split_ok D S.
  Hypothesis Nf : numbers D S 4 (nc_full c) (e_Lf E) mf.
  Hypothesis Np : numbers D S 4 (nc_pre c) (e_Lp E) mp.

  Lemma slab0_valid : valid 4 4 (nc_pre c) (nc_full c) (slab_pairs c cnt0).
  Proof.
    intros jd id js is H. unfold slab_pairs in H. apply in_flat_map in H as [j [Hj H]]. apply in_map_iff in H as [ell [H He]].
    apply in_seq in Hj. apply in_seq in He. injection H as <- <- <- <-. pose proof (eo_N E HE) as HN.
    assert (Z.to_nat (shift_idx cnt0 j + z ell) = ell) as -> by (unfold shift_idx, cnt0, z; destruct (Nat.ltb j 2); cbn [k_iq k_iqs]; lia).
    unfold nc_pre, nc_full. repeat split; try lia. nia.
  Qed.
  Lemma slab0_spaces s : exists jd id js is, In ((jd, id), (js, is)) (slab_pairs c cnt0) /\ spc js = s.
  Proof.
    assert (G : forall j, (j < 4)%nat -> exists is, In ((j, 0%nat), (j, is)) (slab_pairs c cnt0)).
    { intros j Hj. eexists. unfold slab_pairs. apply in_flat_map. exists j. split; [apply in_seq; lia|].
      apply in_map_iff. exists 0%nat. split; [reflexivity|]. apply in_seq. unfold ntime. lia. }
    destruct s; [destruct (G 0%nat ltac:(lia)) as [is H]; exists 0%nat, 0%nat, 0%nat, is|destruct (G 2%nat ltac:(lia)) as [is H]; exists 2%nat, 0%nat, 2%nat, is];
      (split; [exact H|reflexivity]).
  Qed.
  Lemma own_count r : length (nu_own mf r) <> 1%nat.
  Proof.
    destruct (Nf r) as [P _]. rewrite (Permutation_length P). unfold dofs_of.
    assert (G : forall nc' nodes, length (flat_map (fun j => flat_map (fun i => map (dof (e_Lf E) j i) (nodes (spc j))) (seq 0 (nc' j))) (seq 0 4))
       = (nc' 0%nat * length (nodes Vp) + nc' 1%nat * length (nodes Vp) + nc' 2%nat * length (nodes Vd) + nc' 3%nat * length (nodes Vd))%nat).
    { intros nc' nodes. assert (C : forall j, length (flat_map (fun i => map (dof (e_Lf E) j i) (nodes (spc j))) (seq 0 (nc' j))) = (nc' j * length (nodes (spc j)))%nat).
      { intro j. generalize (seq_length (nc' j) 0). generalize (seq 0 (nc' j)). intros l Hl. rewrite <- Hl. clear Hl. induction l as [|a l IH]; cbn; [reflexivity|].
        rewrite app_length, map_length, IH. reflexivity. }
      cbn [seq flat_map]. rewrite !app_length, !C. cbn. lia. }
    rewrite G. assert (E1 : nc_full c 0 = nc_full c 1) by reflexivity. assert (E2 : nc_full c 2 = nc_full c 3) by reflexivity.
    rewrite E1, E2. lia.
  Qed.
  Lemma ghost_count r : length (nu_gh mf r) = 0%nat <-> ~ ghosts_on S r.
  Proof.
    destruct (Nf r) as [_ P]. rewrite (Permutation_length P). pose proof (eo_N E HE) as HN. split.
    - intros H [s Hs]. apply length_zero_iff_nil in H. destruct (sp_ghost S r s) as [|g gs] eqn:EG; [congruence|].
      assert (Hin : exists j, (j < 4)%nat /\ spc j = s) by (destruct s; [exists 0%nat|exists 2%nat]; split; try lia; reflexivity).
      destruct Hin as [j [Hj Ej]].
      assert (X : In (dof (e_Lf E) j 0 g) (dofs_of 4 (nc_full c) (e_Lf E) (sp_ghost S r))).
      { apply in_dofs_of. exists j, 0%nat, g. repeat split; auto; [unfold nc_full, ntime; nia|]. rewrite Ej, EG. left. reflexivity. }
      rewrite H in X. destruct X.
    - intro H. pose proof (no_ghosts S r H) as NG. unfold dofs_of. apply length_zero_iff_nil.
      destruct (flat_map _ _) as [|x l] eqn:EX; [reflexivity|]. assert (X : In x (dofs_of 4 (nc_full c) (e_Lf E) (sp_ghost S r))) by (unfold dofs_of; rewrite EX; left; reflexivity).
      apply in_dofs_of in X as [j [i [g [_ [_ [X _]]]]]]. rewrite NG in X. destruct X.
  Qed.

  (** The loops that fill the first slab (apply_spacetime_matrix with =, the two
      preconditioners with +=): IndexError on every rank that has a ghost; the others hold
      their share of the serial result and go on to a collective operation. *)
  Theorem C84_first_slab : forall r add x w,
    (fst (copy_rank D S (e_Lp E) (e_Lf E) mp mf r add (slab_pairs c cnt0) (vec_array mf r x) (vec_array mp r w)) = Err IndexError <-> ghosts_on S r) /\
    (~ ghosts_on S r -> copy_rank D S (e_Lp E) (e_Lf E) mp mf r add (slab_pairs c cnt0) (vec_array mf r x) (vec_array mp r w)
       = (Ok tt, vec_array mp r (move add (e_Lp E) (e_Lf E) (slab_pairs c cnt0) x w))).
  Proof.
    intros r add x w.
    assert (F : ~ ghosts_on S r -> copy_rank D S (e_Lp E) (e_Lf E) mp mf r add (slab_pairs c cnt0) (vec_array mf r x) (vec_array mp r w)
       = (Ok tt, vec_array mp r (move add (e_Lp E) (e_Lf E) (slab_pairs c cnt0) x w))).
    { intro H. apply (copy_fine D S 4 4 (nc_pre c) (nc_full c)); try assumption; [apply (eo_p E HE)|apply (eo_f E HE)|apply no_ghosts; exact H|apply slab0_valid]. }
    split; [|exact F]. split.
    - intro H. destruct (ghosts_dec S r) as [G|G]; [exact G|]. rewrite (F G) in H. discriminate H.
    - intros [s G]. apply (copy_stops D S 4 4 (nc_pre c) (nc_full c)); try assumption; [apply (eo_p E HE)|apply (eo_f E HE)|apply slab0_valid|].
      destruct (slab0_spaces s) as [jd [id [js [is [H1 H2]]]]]. exists jd, id, js, is. split; [exact H1|]. rewrite H2. exact G.
  Qed.
  (** measured_errors, plot, plot_error, plot_para_view: ValueError instead *)
  Theorem C84_load : forall r u, load_rank mf r u = if ghosts_dec S r then Err ValueError else Ok (vec_array mf r u).
  Proof.
    intros r u. unfold load_rank, np_assign. replace (List.length (vec_array mf r u)) with (List.length (nu_own mf r)) by (unfold vec_array; rewrite map_length; reflexivity). pose proof (own_count r) as H1. pose proof (ghost_count r) as H2.
    destruct (ghosts_dec S r) as [G|G].
    - destruct (Nat.eqb_spec (length (nu_own mf r)) (length (nu_own mf r) + length (nu_gh mf r))) as [X|X].
      + exfalso. apply H2 in G; [exact G|]. lia.
      + destruct (Nat.eqb_spec (length (nu_own mf r)) 1); [contradiction|reflexivity].
    - apply H2 in G. rewrite G, Nat.add_0_r, Nat.eqb_refl. reflexivity.
  Qed.

  (** On a connected mesh, as soon as two processes have cells, some process fails in both. *)
  Theorem C84_refuted : connected D -> (exists p p', In p (d_pts D Dx) /\ In p' (d_pts D Dx) /\ sp_cell S Dx p <> sp_cell S Dx p') ->
    exists r, (r < sp_n S)%nat /\
      (forall add x w, fst (copy_rank D S (e_Lp E) (e_Lf E) mp mf r add (slab_pairs c cnt0) (vec_array mf r x) (vec_array mp r w)) = Err IndexError) /\
      (forall u, load_rank mf r u = Err ValueError).
  Proof.
    intros HC [p [p' [Hp [Hp' Hne]]]]. destruct (chain_ghosts D S p p' HS (HC p p' Hp Hp') Hne) as [r [Hr HG]].
    exists r. split; [exact Hr|]. split.
    - intros add x w. apply C84_first_slab. exact HG.
    - intro u. rewrite C84_load. destruct (ghosts_dec S r); [reflexivity|contradiction].
  Qed.

  (** One process, or any number of processes without common nodes: the steps agree with
      the serial model. *)
  Theorem C84_partial : (sp_n S = 1%nat \/ forall r, (r < sp_n S)%nat -> ~ ghosts_on S r) -> forall r, (r < sp_n S)%nat ->
    (forall add x w, copy_rank D S (e_Lp E) (e_Lf E) mp mf r add (slab_pairs c cnt0) (vec_array mf r x) (vec_array mp r w)
       = (Ok tt, vec_array mp r (move add (e_Lp E) (e_Lf E) (slab_pairs c cnt0) x w))) /\
    (forall u, load_rank mf r u = Ok (vec_array mf r u)) /\
    (forall f f', fem_lform 4 (nc_full c) f = Ok f' -> rhs_rank D S (e_Lf E) mf r f' = vec_array mf r (assemble_vec D (e_Lf E) f)).
  Proof.
    intros H r Hr. assert (NG : forall r, (r < sp_n S)%nat -> ~ ghosts_on S r).
    { destruct H as [H|H]; [|exact H]. intros r' Hr'. apply (alone_no_ghosts D S r' HS H). lia. }
    split; [intros; apply C84_first_slab; auto|]. split; [intro u; rewrite C84_load; destruct (ghosts_dec S r); [exfalso; apply (NG r Hr); assumption|reflexivity]|].
    intros f f' Hf. unfold fem_lform in Hf. destruct (wf_lform 4 (nc_full c) f) eqn:W; [|discriminate]. injection Hf as <-.
    apply (C84_rhs D S 4 (nc_full c)); try assumption. apply (eo_f E HE).
  Qed.
End Object.

(** * The interval with two cells on two processes *)
Definition exSplit : split := {| sp_n := 2;
  sp_cell := fun m p => match m with Dx => if Nat.ltb p 2 then 0 else 1 | Ds => p | DS => 0 end%nat;
  sp_owner := fun _ l => match l with 2 => 1 | _ => 0 end%nat;
  sp_ghost := fun r _ => match r with 0 => [2] | 1 => [1] | _ => [] end%nat |}.
Definition exNum (D : disc) (S : split) nb nc L : numbering :=
  mkNum (fun r => dofs_of nb nc L (owned D S r)) (fun r => dofs_of nb nc L (sp_ghost S r)).
Lemma exSplit_ok : split_ok exI exSplit.
Proof.
  constructor.
  - intros m p Hp. destruct m; cbn in Hp; cbn [exSplit sp_cell sp_n]; [destruct (Nat.ltb p 2)| |]; lia.
  - intros s l Hl. cbn in *. destruct l as [|[|[|]]]; lia.
  - intros r s l H. destruct r as [|[|r]]; cbn in H; [destruct H as [<-|[]]|destruct H as [<-|[]]|destruct H]; cbn; split; lia.
  - intros r s. destruct r as [|[|r]]; cbn; repeat constructor; intros [].
  - intros m s o l p k Hp Hl HT. cbn [exI d_dim] in Hl. assert (l = 0 \/ l = 1 \/ l = 2)%nat as Q by lia.
    destruct m; cbn in Hp; repeat destruct Hp as [<-|Hp]; try destruct Hp;
      destruct Q as [->|[->| ->]]; cbn in *; try (left; reflexivity); try (right; left; reflexivity);
      exfalso; apply HT; destruct o; reflexivity.
Qed.
Lemma exI_connected : connected exI.
Proof.
  assert (L01 : forall p p', In p (d_pts exI Dx) -> In p' (d_pts exI Dx) -> linked exI p p').
  { intros p p' Hp Hp'. split; [exact Hp|]. split; [exact Hp'|]. exists Vp, 1%nat, Grad, Grad, 0%nat, 0%nat.
    split; [cbn; lia|]. split.
    - cbn in Hp; repeat destruct Hp as [<-|Hp]; try destruct Hp; cbn; lra.
    - cbn in Hp'; repeat destruct Hp' as [<-|Hp']; try destruct Hp'; cbn; lra. }
  intros p p' Hp Hp'. apply rt_step. apply L01; assumption.
Qed.
Example C84_nonvacuous : exists E S mf mp, env_ok E /\ split_ok (e_D E) S /\ numbers (e_D E) S 4 (nc_full (e_c E)) (e_Lf E) mf
  /\ numbers (e_D E) S 4 (nc_pre (e_c E)) (e_Lp E) mp /\ connected (e_D E) /\ sp_n S = 2%nat
  /\ (exists p p', In p (d_pts (e_D E) Dx) /\ In p' (d_pts (e_D E) Dx) /\ sp_cell S Dx p <> sp_cell S Dx p')
  /\ ghosts_on S 0 /\ ghosts_on S 1.
Proof.
  destruct (exP_ok 1 1 2 false false) as [c HC]; try lia. pose proof (construct_inv _ _ HC) as HB.
  set (E := exE exI c).
  exists E, exSplit, (exNum exI exSplit 4 (nc_full c) (e_Lf E)), (exNum exI exSplit 4 (nc_pre c) (e_Lp E)).
  split; [apply exE_ok, (bu_N _ _ HB)|]. split; [exact exSplit_ok|].
  split; [intro r; split; apply Permutation_refl|]. split; [intro r; split; apply Permutation_refl|].
  split; [exact exI_connected|]. split; [reflexivity|]. split; [|split; exists Vp; discriminate].
  exists 0%nat, 3%nat. cbn. repeat split; auto; discriminate.
Qed.
(** the integral of 1 against the hat function in the middle: its owner holds half of it *)
Definition exLay : layout := mkLay 3 (fun _ _ => [0; 1; 2]%nat).
Definition exLf : lform := [mkL 1 WOne Dx (fun _ _ => 1) Val [(1, (Te 0, 0%Z))]].
Theorem C84_rhs_refuted : exists nu, lay_ok exI 1 (fun _ => 1%nat) exLay /\ numbers exI exSplit 1 (fun _ => 1%nat) exLay nu
  /\ wf_lform 1 (fun _ => 1%nat) exLf = true
  /\ assemble_vec exI exLay exLf 1%nat = 1 / 2 /\ nth 1 (nu_own nu 0) 9%nat = 1%nat /\ nth 1 (rhs_rank exI exSplit exLay nu 0 exLf) 0 = 1 / 4.
Proof.
  exists (exNum exI exSplit 1 (fun _ => 1%nat) exLay). split; [|split; [|split; [|split; [|split]]]].
  - constructor; cbn.
    + intros. reflexivity.
    + repeat constructor; cbn; intuition lia.
    + intro I. intuition lia.
  - intro r. split; apply Permutation_refl.
  - reflexivity.
  - unfold assemble_vec, exLf, leval, leval_t, integ, argval, fev, field_of, unitv, dof, Rsum, delta. cbn. unfold delta. cbn. lra.
  - reflexivity.
  - unfold rhs_rank. cbn [exNum nu_own dofs_of flat_map seq map app owned filter exSplit sp_owner d_dim exI Nat.eqb spc Nat.ltb Nat.leb exLay dof lay_sub nth].
    unfold assemble_vec, exLf, leval, leval_t, integ, argval, fev, field_of, unitv, dof, Rsum, delta. cbn. unfold delta. cbn. lra.
Qed.

Print Assumptions C84_matrices.
Print Assumptions C84_errors_reduced.
Print Assumptions C84_rhs.
Print Assumptions C84_first_slab.
Print Assumptions C84_load.
Print Assumptions C84_refuted.
Print Assumptions C84_partial.
Print Assumptions C84_rhs_refuted.
