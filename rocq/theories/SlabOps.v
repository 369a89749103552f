(** SlabOps.v -- copying between the vectors of fes and of the slab spaces, on
    the level of functions: copying in restricts a function to a slab, adding
    out adds the extension of a functional. *)
From Coq Require Import Reals List ZArith Lra Lia Bool.
From Verif Require Import Base TimeModel FormModel FormSpec FormProofs SpaceTimeForms SpaceTimeModel FormBlocks.
Import ListNotations.
Open Scope R_scope.

Definition pair_eqb (a b : nat * nat) : bool := Nat.eqb (fst a) (fst b) && Nat.eqb (snd a) (snd b).
Lemma pair_eqb_spec a b : reflect (a = b) (pair_eqb a b).
Proof.
  destruct a as [a1 a2], b as [b1 b2]. unfold pair_eqb; cbn.
  destruct (Nat.eqb_spec a1 b1); destruct (Nat.eqb_spec a2 b2); cbn; constructor; congruence.
Qed.

Section Move.
  Variables (D : disc) (nd ns : nat) (cd cs : nat -> nat) (Ld Ls : layout).
  Hypothesis Hd : lay_ok D nd cd Ld.
  Hypothesis Hs : lay_ok D ns cs Ls.

  Definition setter (add : bool) := if add then scatter_add else scatter.
  Lemma set1_hit add w j i vals l :
    (j < nd)%nat -> (i < cd j)%nat -> (l < d_dim D (spc j))%nat -> length vals = d_dim D (spc j) ->
    field_of Ld (setter add w (lay_sub Ld j i) vals) j i l
    = (if add then field_of Ld w j i l else 0) + nth l vals 0.
  Proof.
    intros Hj Hi Hl Hv. unfold field_of, dof.
    assert (Hn : NoDup (lay_sub Ld j i)) by (eapply lay_sub_nodup; eauto).
    assert (HL : length (lay_sub Ld j i) = d_dim D (spc j)) by (apply (wl_len _ _ _ _ Hd); assumption).
    destruct add; cbn [setter].
    - rewrite scatter_add_nth; try lia; auto.
    - rewrite scatter_nth; try lia; auto. ring.
  Qed.
  Lemma set1_miss add w j i j' i' vals l :
    (j < nd)%nat -> (i < cd j)%nat -> (j' < nd)%nat -> (i' < cd j')%nat -> (l < d_dim D (spc j'))%nat ->
    (j', i') <> (j, i) ->
    field_of Ld (setter add w (lay_sub Ld j i) vals) j' i' l = field_of Ld w j' i' l.
  Proof.
    intros Hj Hi Hj' Hi' Hl Hne. unfold field_of.
    assert (Ho : ~ In (dof Ld j' i' l) (lay_sub Ld j i)).
    { intro Hin. destruct (In_nth _ _ 0%nat Hin) as [k [Hk E]].
      rewrite (wl_len _ _ _ _ Hd) in Hk by assumption.
      destruct (dof_inj D nd cd Ld j i k j' i' l Hd Hj Hi Hk Hj' Hi' Hl E) as [-> [-> _]]. congruence. }
    destruct add; cbn [setter]; [apply scatter_add_out|apply scatter_out]; exact Ho.
  Qed.

  Definition valid (prs : pairs) : Prop := forall jd id js is, In ((jd, id), (js, is)) prs ->
    (jd < nd)%nat /\ (id < cd jd)%nat /\ (js < ns)%nat /\ (is < cs js)%nat /\ spc jd = spc js.
  Lemma move_cons add jd id js is prs src dst :
    move add Ld Ls (((jd, id), (js, is)) :: prs) src dst
    = move add Ld Ls prs src (setter add dst (lay_sub Ld jd id) (gather src (lay_sub Ls js is))).
  Proof. reflexivity. Qed.
  Lemma move_miss add prs src dst j i l :
    valid prs -> (j < nd)%nat -> (i < cd j)%nat -> (l < d_dim D (spc j))%nat ->
    ~ In (j, i) (map fst prs) ->
    field_of Ld (move add Ld Ls prs src dst) j i l = field_of Ld dst j i l.
  Proof.
    intros Hv Hj Hi Hl. revert dst Hv. induction prs as [|[[jd id] [js is]] prs IH]; intros dst Hv Hn; [reflexivity|].
    rewrite move_cons. rewrite IH.
    - destruct (Hv jd id js is (or_introl eq_refl)) as [A [B _]]. apply set1_miss; auto.
      intro E. apply Hn. left. rewrite E. reflexivity.
    - intros a b c d H. apply Hv. right. exact H.
    - intro H. apply Hn. right. exact H.
  Qed.
  Lemma move_hit add prs src dst jd id js is l :
    valid prs -> NoDup (map fst prs) -> In ((jd, id), (js, is)) prs -> (l < d_dim D (spc jd))%nat ->
    field_of Ld (move add Ld Ls prs src dst) jd id l
    = (if add then field_of Ld dst jd id l else 0) + field_of Ls src js is l.
  Proof.
    intros Hv Hn Hin Hl. destruct (Hv _ _ _ _ Hin) as [A [B [C [E F]]]].
    revert dst Hv Hn Hin. induction prs as [|[[jd' id'] [js' is']] prs IH]; intros dst Hv Hn Hin; [destruct Hin|].
    rewrite move_cons. cbn [map fst] in Hn. inversion Hn as [|? ? N1 N2]; subst.
    assert (Hv' : valid prs) by (intros a b c d H; apply Hv; right; exact H).
    destruct Hin as [Hin|Hin].
    - injection Hin; intros; subst. rewrite move_miss by assumption.
      rewrite set1_hit; auto.
      + f_equal. unfold field_of, dof. apply nth_gather. rewrite (wl_len _ _ _ _ Hs) by assumption.
        rewrite <- F. exact Hl.
      + rewrite length_gather, (wl_len _ _ _ _ Hs) by assumption. rewrite F. reflexivity.
    - rewrite IH by assumption. f_equal. destruct add; [|reflexivity].
      destruct (Hv jd' id' js' is' (or_introl eq_refl)) as [A' [B' _]]. apply set1_miss; auto.
      intro X; apply N1. rewrite <- X. change (jd, id) with (fst ((jd, id), (js, is))). apply in_map. exact Hin.
  Qed.
End Move.

(** * Embedding of a small space into a big one: component (j, i) of the small
      space is component (j, up j i) of the big one *)
Definition emb (up : nat -> nat -> nat) (idx : list (nat * nat)) : pairs :=
  map (fun '(j, i) => ((j, i), (j, up j i))) idx.
Definition pull (up : nat -> nat -> nat) (Y : field) : field := fun j i => Y j (up j i).
Definition unit_field (j i l : nat) : field := fun j' i' l' =>
  if Nat.eqb j j' && Nat.eqb i i' && Nat.eqb l l' then 1 else 0.

Lemma field_unit D nb nc L j i l :
  lay_ok D nb nc L -> (j < nb)%nat -> (i < nc j)%nat -> (l < d_dim D (spc j))%nat ->
  feq D nb nc (field_of L (unitv (dof L j i l))) (unit_field j i l).
Proof.
  intros H Hj Hi Hl j' i' l' Hj' Hi' Hl'. unfold field_of, unitv, unit_field, delta.
  destruct (Nat.eqb_spec (dof L j i l) (dof L j' i' l')) as [E|E].
  - destruct (dof_inj D nb nc L j i l j' i' l' H Hj Hi Hl Hj' Hi' Hl' E) as [-> [-> ->]].
    rewrite !Nat.eqb_refl. reflexivity.
  - destruct (Nat.eqb_spec j j'); cbn; [|reflexivity].
    destruct (Nat.eqb_spec i i'); cbn; [|reflexivity].
    destruct (Nat.eqb_spec l l'); cbn; [|reflexivity]. subst. congruence.
Qed.

Lemma in_flip prs a b : In (a, b) (flip_pairs prs) <-> In (b, a) prs.
Proof.
  unfold flip_pairs. rewrite in_map_iff. split.
  - intros [[x y] [E H]]. injection E; intros; subst. exact H.
  - intro H. exists (b, a). auto.
Qed.

Section Emb.
  Variables (D : disc) (nf ns : nat) (cf cs : nat -> nat) (Lf Ls : layout).
  Hypothesis Hf : lay_ok D nf cf Lf.
  Hypothesis Hs : lay_ok D ns cs Ls.
  Variable up : nat -> nat -> nat.
  Variable idx : list (nat * nat).
  Hypothesis Hidx : forall j i, In (j, i) idx -> (j < ns)%nat /\ (i < cs j)%nat.
  Hypothesis Hnd : NoDup idx.
  Hypothesis Hnf : (ns <= nf)%nat.
  Hypothesis Hup : forall j i, In (j, i) idx -> (up j i < cf j)%nat.
  Hypothesis Hinj : forall j i i', In (j, i) idx -> In (j, i') idx -> up j i = up j i' -> i = i'.

  Lemma in_emb j i j' i' : In ((j, i), (j', i')) (emb up idx) <-> In (j, i) idx /\ j' = j /\ i' = up j i.
  Proof.
    unfold emb. rewrite in_map_iff. split.
    - intros [[a b] [E H]]. injection E; intros; subst. auto.
    - intros [H [-> ->]]. exists (j, i). auto.
  Qed.
  Lemma emb_fst : map fst (emb up idx) = idx.
  Proof. unfold emb. rewrite map_map. erewrite map_ext; [apply map_id|]. intros [a b]; reflexivity. Qed.
  Lemma valid_in : valid ns nf cs cf (emb up idx).
  Proof.
    intros a b a' b' H. apply in_emb in H. destruct H as [H [-> ->]].
    destruct (Hidx _ _ H). pose proof (Hup _ _ H). repeat split; auto. lia.
  Qed.
  Lemma valid_out : valid nf ns cf cs (flip_pairs (emb up idx)).
  Proof.
    intros a b a' b' H. apply (proj1 (in_flip _ _ _)) in H. destruct (valid_in _ _ _ _ H) as [A [B [C [E F]]]].
    repeat split; auto.
  Qed.
  Lemma out_keys : NoDup (map fst (flip_pairs (emb up idx))).
  Proof.
    unfold flip_pairs, emb. rewrite !map_map.
    rewrite (map_ext _ (fun ji => (fst ji, up (fst ji) (snd ji)))) by (intros [a b]; reflexivity).
    clear Hidx Hup. induction idx as [|[a b] l IH]; cbn [map]; [constructor|].
    inversion Hnd; subst. constructor.
    - intro H. apply in_map_iff in H. destruct H as [[a' b'] [E H]]. cbn in E. injection E; intros E1 E2; subst a'.
      assert (b = b') by (apply (Hinj a); [left; reflexivity|right; exact H|congruence]). subst. contradiction.
    - apply IH; auto. intros j i i' H H'. apply Hinj; right; assumption.
  Qed.

  (** vec_small[dofs] = vec_big[dofs] *)
  Lemma copy_in_spec add x w j i l :
    In (j, i) idx -> (l < d_dim D (spc j))%nat ->
    field_of Ls (move add Ls Lf (emb up idx) x w) j i l
    = (if add then field_of Ls w j i l else 0) + pull up (field_of Lf x) j i l.
  Proof.
    intros H Hl. unfold pull. rewrite (move_hit D ns nf cs cf Ls Lf Hs Hf add _ x w j i j (up j i) l); auto.
    - apply valid_in.
    - rewrite emb_fst. exact Hnd.
    - apply in_emb. auto.
  Qed.
  (** vec_big[dofs] = vec_small[dofs] *)
  Lemma copy_out_hit add v out j i l :
    In (j, i) idx -> (l < d_dim D (spc j))%nat ->
    field_of Lf (move add Lf Ls (flip_pairs (emb up idx)) v out) j (up j i) l
    = (if add then field_of Lf out j (up j i) l else 0) + field_of Ls v j i l.
  Proof.
    intros H Hl. rewrite (move_hit D nf ns cf cs Lf Ls Hf Hs add _ v out j (up j i) j i l); auto.
    - apply valid_out.
    - apply out_keys.
    - apply in_flip, in_emb. auto.
  Qed.
  Lemma copy_out_miss add v out j k l :
    (j < nf)%nat -> (k < cf j)%nat -> (l < d_dim D (spc j))%nat ->
    (forall i, In (j, i) idx -> k <> up j i) ->
    field_of Lf (move add Lf Ls (flip_pairs (emb up idx)) v out) j k l = field_of Lf out j k l.
  Proof.
    intros Hj Hk Hl Hm. apply (move_miss D nf ns cf cs); auto.
    - apply valid_out.
    - intro H. apply in_map_iff in H. destruct H as [[[a b] [a' b']] [E H]]. cbn in E. injection E; intros; subst.
      apply (proj1 (in_flip _ _ _)) in H. apply in_emb in H. destruct H as [H [-> ->]]. apply (Hm _ H). reflexivity.
  Qed.

  (** Adding out: if the entries of [v] are the values of a linear functional
      at the basis functions of the small space, then out gains its values at
      the restrictions of the basis functions of the big space *)
  Hypothesis Hcov : forall j i, (j < ns)%nat -> (i < cs j)%nat -> In (j, i) idx.
  Lemma in_dec_up j k : {i | In (j, i) idx /\ k = up j i} + {forall i, In (j, i) idx -> k <> up j i}.
  Proof.
    assert (G : forall l, {i | In (j, i) l /\ k = up j i} + {forall i, In (j, i) l -> k <> up j i}).
    { induction l as [|[a b] l IH]; [right; intros i []|].
      destruct IH as [[i [H E]]|H]; [left; exists i; split; [right; exact H|exact E]|].
      destruct (Nat.eq_dec a j) as [->|Ha].
      - destruct (Nat.eq_dec k (up j b)) as [E|E]; [left; exists b; split; [left; reflexivity|exact E]|].
        right. intros i [X|X]; [injection X; intros; subst; exact E|apply H; exact X].
      - right. intros i [X|X]; [congruence|apply H; exact X]. }
    apply G.
  Qed.
  Lemma add_out_spec (phi : field -> R) v out I :
    (forall X X', feq D ns cs X X' -> phi X = phi X') -> phi (fun _ _ _ => 0) = 0 ->
    (forall J, (J < lay_dim Ls)%nat -> v J = phi (field_of Ls (unitv J))) ->
    (I < lay_dim Lf)%nat ->
    move true Lf Ls (flip_pairs (emb up idx)) v out I
    = out I + phi (pull up (field_of Lf (unitv I))).
  Proof.
    intros Hext H0 Hv HI.
    destruct (dof_surj D nf cf Lf I Hf HI) as [j [k [l [Hj [Hk [Hl ->]]]]]].
    change (field_of Lf (move true Lf Ls (flip_pairs (emb up idx)) v out) j k l
      = field_of Lf out j k l + phi (pull up (field_of Lf (unitv (dof Lf j k l))))).
    destruct (in_dec_up j k) as [[i [Hi ->]]|Hm].
    - rewrite copy_out_hit by assumption. f_equal.
      destruct (Hidx _ _ Hi) as [A B].
      transitivity (phi (field_of Ls (unitv (dof Ls j i l)))).
      { apply Hv. eapply dof_lt; eauto. }
      apply Hext. intros j' i' l' Hj' Hi' Hl'.
      rewrite (field_unit D ns cs Ls j i l Hs A B Hl j' i' l' Hj' Hi' Hl').
      assert (Hin : In (j', i') idx) by (apply Hcov; assumption).
      unfold pull. rewrite (field_unit D nf cf Lf j (up j i) l Hf Hj Hk Hl j' (up j' i') l'); auto; [|lia].
      unfold unit_field. destruct (Nat.eqb_spec j j') as [<-|]; cbn; [|reflexivity].
      replace (Nat.eqb (up j i) (up j i')) with (Nat.eqb i i'); [reflexivity|].
      destruct (Nat.eqb_spec i i') as [->|Hne]; [symmetry; apply Nat.eqb_refl|].
      symmetry. apply Nat.eqb_neq. intro E. apply Hne. eapply Hinj; eauto.
    - rewrite copy_out_miss by assumption. rewrite <- (Rplus_0_r (field_of Lf out j k l)) at 1. f_equal.
      rewrite <- H0. apply Hext. intros j' i' l' Hj' Hi' Hl'.
      assert (Hin : In (j', i') idx) by (apply Hcov; assumption).
      unfold pull. rewrite (field_unit D nf cf Lf j k l Hf Hj Hk Hl j' (up j' i') l'); auto; [|lia].
      unfold unit_field. destruct (Nat.eqb_spec j j') as [<-|]; cbn; [|reflexivity].
      destruct (Nat.eqb_spec k (up j i')) as [E|]; [|reflexivity]. exfalso. apply (Hm _ Hin E).
  Qed.
  Lemma copy_in_feq x w :
    feq D ns cs (field_of Ls (move false Ls Lf (emb up idx) x w)) (pull up (field_of Lf x)).
  Proof.
    intros j i l Hj Hi Hl. rewrite copy_in_spec by auto. ring.
  Qed.
  (** applying a matrix of the small space between copying in and adding out *)
  Lemma mult_slab_spec f x w out I :
    wf_bform ns cs f = true -> (I < lay_dim Lf)%nat ->
    move true Lf Ls (flip_pairs (emb up idx))
      (mult (lay_dim Ls) (assemble D Ls f) (move false Ls Lf (emb up idx) x w)) out I
    = out I + eval D f (pull up (field_of Lf x)) (pull up (field_of Lf (unitv I))).
  Proof.
    intros Hw HI.
    rewrite (add_out_spec (fun Y => eval D f (pull up (field_of Lf x)) Y)); auto.
    - intros X X' HX. apply (eval_ext D ns cs); auto. apply feq_refl.
    - pose proof (eval_linY D f ([] : list nat) (fun _ => 0) (fun _ => fun _ _ _ => 0)
        (pull up (field_of Lf x)) (wf_bform_proper _ _ _ Hw)) as E. exact E.
    - intros J HJ. rewrite (mult_assemble D ns cs) by assumption.
      apply (eval_ext D ns cs); auto; [apply copy_in_feq|apply feq_refl].
  Qed.
End Emb.

(** * The index sets used by the methods *)
Section Idx.
  Variable c : config.
  Definition slab_idx : list (nat * nat) := flat_map (fun j => map (fun l => (j, l)) (seq 0 (ntime c j))) (seq 0 4).
  Definition coup_idx : list (nat * nat) := flat_map (fun j => map (fun i => (j, i)) (seq 0 2)) (seq 0 2).
  Definition up_slab (n j i : nat) : nat := (n * ntime c j + i)%nat.
  Definition up_coup (n j i : nat) : nat := (n * S (c_q c) - 1 + i)%nat.
  Lemma map_flat_map {A B C} (f : B -> C) (g : A -> list B) l :
    map f (flat_map g l) = flat_map (fun a => map f (g a)) l.
  Proof. induction l; cbn; [reflexivity|]. rewrite map_app, IHl. reflexivity. Qed.
  Lemma slab_pairs_emb n : slab_pairs c (cntn c n) = emb (up_slab n) slab_idx.
  Proof.
    unfold emb, slab_idx. rewrite map_flat_map. unfold slab_pairs.
    rewrite !flat_map_concat_map. f_equal. apply map_ext; intro j. rewrite map_map.
    apply map_ext; intro i. do 2 f_equal. unfold up_slab, shift_idx, cntn, ntime, sto, z; cbn [k_iq k_iqs].
    destruct (Nat.ltb j 2); lia.
  Qed.
  Lemma coup_pairs_emb n : (0 < n)%nat -> coup_pairs (cntn c n) = emb (up_coup n) coup_idx.
  Proof.
    intro Hn. unfold emb, coup_idx. rewrite map_flat_map. unfold coup_pairs.
    rewrite !flat_map_concat_map. f_equal. apply map_ext; intro j. rewrite map_map.
    apply map_ext; intro i. do 2 f_equal. unfold up_coup, cntn, z; cbn [k_cq]. nia.
  Qed.
  Lemma in_slab_idx j i : In (j, i) slab_idx <-> (j < 4)%nat /\ (i < nc_pre c j)%nat.
  Proof.
    unfold slab_idx, nc_pre. rewrite in_flat_map. split.
    - intros [x [Hx H]]. apply in_map_iff in H. destruct H as [y [E H]]. injection E; intros; subst.
      apply in_seq in Hx. apply in_seq in H. lia.
    - intros [H1 H2]. exists j. split; [apply in_seq; lia|]. apply in_map_iff. exists i. split; [reflexivity|apply in_seq; lia].
  Qed.
  Lemma in_coup_idx j i : In (j, i) coup_idx <-> (j < 2)%nat /\ (i < nc_coup j)%nat.
  Proof.
    unfold coup_idx, nc_coup. rewrite in_flat_map. split.
    - intros [x [Hx H]]. apply in_map_iff in H. destruct H as [y [E H]]. injection E; intros; subst.
      apply in_seq in Hx. apply in_seq in H. lia.
    - intros [H1 H2]. exists j. split; [apply in_seq; lia|]. apply in_map_iff. exists i. split; [reflexivity|apply in_seq; lia].
  Qed.
  Lemma NoDup_flat_map_pairs (nt : nat -> nat) m a :
    NoDup (flat_map (fun j => map (fun l => (j, l)) (seq 0 (nt j))) (seq a m)).
  Proof.
    revert a; induction m as [|m IH]; intro a; cbn [seq flat_map]; [constructor|].
    assert (G : forall (l1 l2 : list (nat * nat)), NoDup l1 -> NoDup l2 -> (forall x, In x l1 -> ~ In x l2) -> NoDup (l1 ++ l2)).
    { induction l1 as [|x l1 IH1]; cbn; intros l2 H1 H2 H; [exact H2|]. inversion H1; subst. constructor.
      - intro X. apply in_app_or in X. destruct X as [X|X]; [contradiction|]. apply (H x); auto.
      - apply IH1; auto. }
    apply G; [|apply IH|].
    - apply FinFun.Injective_map_NoDup; [|apply seq_NoDup]. intros x y E. congruence.
    - intros [x y] H1 H2. apply in_map_iff in H1. destruct H1 as [z1 [E _]]. injection E; intros; subst.
      apply in_flat_map in H2. destruct H2 as [w [Hw H2]]. apply in_map_iff in H2. destruct H2 as [z2 [E2 _]].
      injection E2; intros; subst. apply in_seq in Hw. lia.
  Qed.
  Lemma nodup_slab_idx : NoDup slab_idx.
  Proof. apply NoDup_flat_map_pairs. Qed.
  Lemma nodup_coup_idx : NoDup coup_idx.
  Proof. apply (NoDup_flat_map_pairs (fun _ => 2%nat)). Qed.
  Lemma up_slab_lt n j i : (n < c_N c)%nat -> In (j, i) slab_idx -> (up_slab n j i < nc_full c j)%nat.
  Proof.
    intros Hn H. apply in_slab_idx in H. destruct H as [Hj Hi]. unfold up_slab, nc_full, nc_pre in *. nia.
  Qed.
  Lemma up_coup_lt n j i : (0 < n)%nat -> (n < c_N c)%nat -> In (j, i) coup_idx -> (up_coup n j i < nc_full c j)%nat.
  Proof.
    intros H0 Hn H. apply in_coup_idx in H. destruct H as [Hj Hi].
    unfold up_coup, nc_full, nc_coup, ntime, sto in *. destruct (Nat.ltb_spec j 2); nia.
  Qed.
End Idx.
