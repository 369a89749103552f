(** FloatApplyProofs.v -- what the loops of apply_spacetime_matrix add up, for any type of
    numbers, and the rounding error of a signed sum of products. *)
From Coq Require Import ZArith Reals List Bool Lia Lra.
From Coq Require Import Floats.SpecFloat.
From Flocq Require Import Core IEEE754.BinarySingleNaN Relative Plus_error.
From Verif Require Import Base FormModel FormSpec FormProofs SpaceTimeForms FormBlocks SpaceTimeModel SlabOps ApplyProofs
  FloatModel FloatRound FloatSamples FloatTime FloatLocal FloatErrors FloatErrorsProofs FloatApply.
Import ListNotations.
Local Open Scope R_scope.

(** * The loops *)
Section Loops.
  Context {V : Type}.
  Variables (zero : V) (add : V -> V -> V).
  Notation val L v j i l := (v (dof L j i l)).

  Lemma puts_out idx : forall (v : nat -> V) vals k, ~ In k idx -> puts v idx vals k = v k.
  Proof.
    induction idx as [|i idx IH]; intros v vals k H; [reflexivity|]. destruct vals as [|x vals]; [reflexivity|].
    cbn. rewrite IH by (intro; apply H; right; assumption). unfold put1. destruct (Nat.eqb_spec k i); [|reflexivity].
    exfalso. apply H. left. congruence.
  Qed.
  Lemma puts_nth d idx : forall (v : nat -> V) vals l, NoDup idx -> List.length vals = List.length idx -> (l < List.length idx)%nat ->
    puts v idx vals (nth l idx 0%nat) = nth l vals d.
  Proof.
    induction idx as [|i idx IH]; intros v vals l N HL Hl; [cbn in Hl; lia|]. destruct vals as [|x vals]; [discriminate|].
    inversion N as [|? ? N1 N2]; subst. destruct l as [|l]; cbn.
    - rewrite puts_out by exact N1. unfold put1. rewrite Nat.eqb_refl. reflexivity.
    - apply IH; [exact N2|cbn in HL; lia|cbn in Hl; lia].
  Qed.

  Section Copies.
    Variables (D : disc) (nd ns : nat) (cd cs : nat -> nat) (Ld Ls : layout).
    Hypothesis Hd : lay_ok D nd cd Ld.
    Hypothesis Hs : lay_ok D ns cs Ls.
    Let set1 (acc : bool) (w : nat -> V) (jd id : nat) (vals : list V) : nat -> V :=
      puts w (lay_sub Ld jd id) (if acc then map2 add (map w (lay_sub Ld jd id)) vals else vals).
    Lemma nth_map2 {A B C} (f : A -> B -> C) da db dc : forall la lb l, (l < List.length la)%nat -> (l < List.length lb)%nat ->
      nth l (map2 f la lb) dc = f (nth l la da) (nth l lb db).
    Proof.
      induction la as [|a la IH]; intros [|b lb] l H1 H2; cbn in H1, H2; try lia. destruct l as [|l]; [reflexivity|]. cbn. apply IH; lia.
    Qed.
    Lemma len_map2 {A B C} (f : A -> B -> C) : forall la lb, List.length la = List.length lb -> List.length (map2 f la lb) = List.length la.
    Proof. induction la as [|a la IH]; intros [|b lb] H; try discriminate; [reflexivity|]. cbn. rewrite IH by (injection H; auto). reflexivity. Qed.
    Lemma set1_hit acc w j i vals l : (j < nd)%nat -> (i < cd j)%nat -> (l < d_dim D (spc j))%nat -> List.length vals = d_dim D (spc j) ->
      val Ld (set1 acc w j i vals) j i l = if acc then add (val Ld w j i l) (nth l vals zero) else nth l vals zero.
    Proof.
      intros Hj Hi Hl Hv. unfold dof, set1. assert (Hn : NoDup (lay_sub Ld j i)) by (eapply lay_sub_nodup; eauto).
      assert (HL : List.length (lay_sub Ld j i) = d_dim D (spc j)) by (apply (wl_len _ _ _ _ Hd); assumption).
      destruct acc.
      - rewrite (puts_nth zero); try lia; auto; [|rewrite len_map2; rewrite map_length; lia].
        rewrite (nth_map2 add (w 0%nat) zero zero) by (rewrite ?map_length; lia). rewrite map_nth. reflexivity.
      - rewrite (puts_nth zero); try lia; auto.
    Qed.
    Lemma set1_miss acc w j i j' i' vals l :
      (j < nd)%nat -> (i < cd j)%nat -> (j' < nd)%nat -> (i' < cd j')%nat -> (l < d_dim D (spc j'))%nat -> (j', i') <> (j, i) ->
      val Ld (set1 acc w j i vals) j' i' l = val Ld w j' i' l.
    Proof.
      intros Hj Hi Hj' Hi' Hl Hne. unfold set1. apply puts_out. intro Hin. destruct (In_nth _ _ 0%nat Hin) as [k [Hk E]].
      rewrite (wl_len _ _ _ _ Hd) in Hk by assumption.
      destruct (dof_inj D nd cd Ld j i k j' i' l Hd Hj Hi Hk Hj' Hi' Hl E) as [-> [-> _]]. congruence.
    Qed.
    Lemma copies_cons acc jd id js is prs src dst :
      copies add acc Ld Ls (((jd, id), (js, is)) :: prs) src dst = copies add acc Ld Ls prs src (set1 acc dst jd id (map src (lay_sub Ls js is))).
    Proof. reflexivity. Qed.
    Lemma copies_miss acc prs src dst j i l : valid nd ns cd cs prs -> (j < nd)%nat -> (i < cd j)%nat -> (l < d_dim D (spc j))%nat ->
      ~ In (j, i) (map fst prs) -> val Ld (copies add acc Ld Ls prs src dst) j i l = val Ld dst j i l.
    Proof.
      intros Hv Hj Hi Hl. revert dst Hv. induction prs as [|[[jd id] [js is]] prs IH]; intros dst Hv Hn; [reflexivity|].
      rewrite copies_cons, IH.
      - destruct (Hv jd id js is (or_introl eq_refl)) as [A [B _]]. apply set1_miss; auto. intro E. apply Hn. left. rewrite E. reflexivity.
      - intros a b c d H. apply Hv. right. exact H.
      - intro H. apply Hn. right. exact H.
    Qed.
    Lemma copies_hit acc prs src dst jd id js is l :
      valid nd ns cd cs prs -> NoDup (map fst prs) -> In ((jd, id), (js, is)) prs -> (l < d_dim D (spc jd))%nat ->
      val Ld (copies add acc Ld Ls prs src dst) jd id l = if acc then add (val Ld dst jd id l) (val Ls src js is l) else val Ls src js is l.
    Proof.
      intros Hv Hn Hin Hl. destruct (Hv _ _ _ _ Hin) as [A [B [C [E F]]]].
      revert dst Hv Hn Hin. induction prs as [|[[jd' id'] [js' is']] prs IH]; intros dst Hv Hn Hin; [destruct Hin|].
      rewrite copies_cons. cbn [map fst] in Hn. inversion Hn as [|? ? N1 N2]; subst.
      assert (Hv' : valid nd ns cd cs prs) by (intros a b c d H; apply Hv; right; exact H).
      destruct Hin as [Hin|Hin].
      - injection Hin; intros; subst. rewrite copies_miss by assumption.
        assert (HL : List.length (lay_sub Ls js is) = d_dim D (spc jd)) by (rewrite (wl_len _ _ _ _ Hs) by assumption; rewrite F; reflexivity).
        rewrite set1_hit; auto; [|rewrite map_length; exact HL].
        assert (X : nth l (map src (lay_sub Ls js is)) zero = val Ls src js is l); [|rewrite X; reflexivity].
        unfold dof. rewrite (nth_indep _ zero (src 0%nat)) by (rewrite map_length; lia). apply map_nth.
      - rewrite IH by assumption. destruct acc; [|reflexivity]. f_equal.
        destruct (Hv jd' id' js' is' (or_introl eq_refl)) as [A' [B' _]]. apply set1_miss; auto.
        intro X; apply N1. rewrite <- X. change (jd, id) with (fst ((jd, id), (js, is))). apply in_map. exact Hin.
    Qed.
  End Copies.

  Variable E : env.
  Notation c := (e_c E).
  Notation D := (e_D E).
  Hypothesis HE : env_ok E.
  (** the result of an operator at the dofs depends on the dofs only *)
  Definition local (dim : nat) (m : (nat -> V) -> nat -> V) : Prop :=
    forall v v', (forall J, (J < dim)%nat -> v J = v' J) -> forall I, (I < dim)%nat -> m v I = m v' I.
  Variables (mA mB : (nat -> V) -> nat -> V).
  Hypothesis HA : local (lay_dim (e_Lp E)) mA.
  Hypothesis HB : local (lay_dim (e_Lc E)) mB.
  Variable x : nat -> V.
  Lemma dof_lt nb nc L j i l : lay_ok D nb nc L -> (j < nb)%nat -> (i < nc j)%nat -> (l < d_dim D (spc j))%nat -> (dof L j i l < lay_dim L)%nat.
  Proof.
    intros H Hj Hi Hl. apply (wl_range _ _ _ _ H). apply (in_all_dofs nb nc L j i); auto. unfold dof. apply nth_In.
    rewrite (wl_len _ _ _ _ H) by assumption. exact Hl.
  Qed.
  Lemma dof_of nb nc L J : lay_ok D nb nc L -> (J < lay_dim L)%nat -> exists j i l, (j < nb)%nat /\ (i < nc j)%nat /\ (l < d_dim D (spc j))%nat /\ J = dof L j i l.
  Proof.
    intros H HJ. apply (wl_range _ _ _ _ H) in HJ. unfold all_dofs in HJ. apply in_flat_map in HJ as [j [Hj HJ]]. apply in_flat_map in HJ as [i [Hi HJ]].
    apply in_seq in Hj. apply in_seq in Hi. destruct (In_nth _ _ 0%nat HJ) as [l [Hl El]]. rewrite (wl_len _ _ _ _ H) in Hl by lia.
    exists j, i, l. repeat split; try lia. symmetry. exact El.
  Qed.

  (** the values of a slab, and those at both sides of the time between two slabs *)
  Definition slab_part (n : nat) : nat -> V := copies add false (e_Lp E) (e_Lf E) (slab_pairs c (cntn c n)) x (fun _ => zero).
  Definition jump_part (n : nat) : nat -> V := copies add false (e_Lc E) (e_Lf E) (coup_pairs (cntn c n)) x (fun _ => zero).
  Section Slab.
    Variable n : nat.
    Hypothesis Hn : (n < c_N c)%nat.
    Lemma slab_valid : valid 4 4 (nc_pre c) (nc_full c) (slab_pairs c (cntn c n)).
    Proof.
      rewrite slab_pairs_emb. apply (valid_in 4 4 (nc_full c) (nc_pre c)); [intros j i H; apply in_slab_idx in H; exact H|lia|].
      intros j i H. apply up_slab_lt; auto.
    Qed.
    Lemma slab_keys : NoDup (map fst (slab_pairs c (cntn c n))).
    Proof. rewrite slab_pairs_emb, emb_fst. apply nodup_slab_idx. Qed.
    Lemma slab_flip_valid : valid 4 4 (nc_full c) (nc_pre c) (flip_pairs (slab_pairs c (cntn c n))).
    Proof. intros a b a' b' H. apply (proj1 (in_flip _ _ _)) in H. destruct (slab_valid _ _ _ _ H) as [X1 [X2 [X3 [X4 X5]]]]. repeat split; auto. Qed.
    Lemma slab_flip_keys : NoDup (map fst (flip_pairs (slab_pairs c (cntn c n)))).
    Proof. rewrite slab_pairs_emb. apply out_keys; [apply nodup_slab_idx|]. intros j i i' _ _ H. unfold up_slab in H. lia. Qed.
    Lemma slab_in j i : (j < 4)%nat -> (i < ntime c j)%nat -> In ((j, i), (j, n * ntime c j + i)%nat) (slab_pairs c (cntn c n)).
    Proof. intros Hj Hi. rewrite slab_pairs_emb. apply in_emb. split; [apply in_slab_idx; auto|]. auto. Qed.
    Lemma slab_copy v j i l : (j < 4)%nat -> (i < ntime c j)%nat -> (l < d_dim D (spc j))%nat ->
      val (e_Lp E) (copies add false (e_Lp E) (e_Lf E) (slab_pairs c (cntn c n)) x v) j i l = val (e_Lf E) x j (n * ntime c j + i) l.
    Proof.
      intros Hj Hi Hl. rewrite (copies_hit D 4 4 (nc_pre c) (nc_full c) _ _ (eo_p _ HE) (eo_f _ HE) false _ _ _ j i j (n * ntime c j + i)%nat l); auto.
      - apply slab_valid.
      - apply slab_keys.
      - apply slab_in; auto.
    Qed.
    Lemma slab_same v J : (J < lay_dim (e_Lp E))%nat -> copies add false (e_Lp E) (e_Lf E) (slab_pairs c (cntn c n)) x v J = slab_part n J.
    Proof.
      intro HJ. destruct (dof_of 4 (nc_pre c) _ J (eo_p _ HE) HJ) as [j [i [l [Hj [Hi [Hl ->]]]]]]. unfold slab_part. rewrite !slab_copy by assumption. reflexivity.
    Qed.
    Lemma slab_add v out n' j i l : (n' < c_N c)%nat -> (j < 4)%nat -> (i < ntime c j)%nat -> (l < d_dim D (spc j))%nat ->
      val (e_Lf E) (copies add true (e_Lf E) (e_Lp E) (flip_pairs (slab_pairs c (cntn c n))) v out) j (n' * ntime c j + i) l =
      if Nat.eqb n' n then add (val (e_Lf E) out j (n' * ntime c j + i) l) (val (e_Lp E) v j i l) else val (e_Lf E) out j (n' * ntime c j + i) l.
    Proof.
      intros Hn' Hj Hi Hl. destruct (Nat.eqb_spec n' n) as [->|Hne].
      - rewrite (copies_hit D 4 4 (nc_full c) (nc_pre c) _ _ (eo_f _ HE) (eo_p _ HE) true _ _ _ j (n * ntime c j + i)%nat j i l); auto.
        + apply slab_flip_valid.
        + apply slab_flip_keys.
        + apply in_flip. apply slab_in; auto.
      - apply (copies_miss D 4 4 (nc_full c) (nc_pre c) _ _ (eo_f _ HE)); auto; [apply slab_flip_valid|unfold nc_full; nia|].
        intro H. apply in_map_iff in H as [[[a b] [a' b']] [X H]]. cbn in X. injection X as -> ->. apply (proj1 (in_flip _ _ _)) in H.
        rewrite slab_pairs_emb in H. apply in_emb in H as [H [X1 X2]]. apply in_slab_idx in H as [H1 H2]. unfold up_slab, nc_pre in *. subst j.
        destruct (Nat.lt_total n' n) as [L|[L|L]]; [nia|contradiction|nia].
    Qed.
    Hypothesis Hn0 : (0 < n)%nat.
    Lemma jump_valid : valid 2 4 nc_coup (nc_full c) (coup_pairs (cntn c n)).
    Proof.
      rewrite coup_pairs_emb by exact Hn0. apply (valid_in 4 2 (nc_full c) nc_coup); [intros j i H; apply in_coup_idx in H; exact H|lia|].
      intros j i H. apply up_coup_lt; auto.
    Qed.
    Lemma jump_keys : NoDup (map fst (coup_pairs (cntn c n))).
    Proof. rewrite coup_pairs_emb by exact Hn0. rewrite emb_fst. apply nodup_coup_idx. Qed.
    Lemma jump_flip_valid : valid 4 2 (nc_full c) nc_coup (flip_pairs (coup_pairs (cntn c n))).
    Proof. intros a b a' b' H. apply (proj1 (in_flip _ _ _)) in H. destruct (jump_valid _ _ _ _ H) as [X1 [X2 [X3 [X4 X5]]]]. repeat split; auto. Qed.
    Lemma jump_flip_keys : NoDup (map fst (flip_pairs (coup_pairs (cntn c n)))).
    Proof. rewrite coup_pairs_emb by exact Hn0. apply out_keys; [apply nodup_coup_idx|]. intros j i i' _ _ H. unfold up_coup in H. lia. Qed.
    Lemma jump_in j i : (j < 2)%nat -> (i < 2)%nat -> In ((j, i), (j, n * S (c_q c) - 1 + i)%nat) (coup_pairs (cntn c n)).
    Proof. intros Hj Hi. rewrite coup_pairs_emb by exact Hn0. apply in_emb. split; [apply in_coup_idx; auto|]. auto. Qed.
    Lemma jump_copy v j i l : (j < 2)%nat -> (i < 2)%nat -> (l < d_dim D (spc j))%nat ->
      val (e_Lc E) (copies add false (e_Lc E) (e_Lf E) (coup_pairs (cntn c n)) x v) j i l = val (e_Lf E) x j (n * S (c_q c) - 1 + i) l.
    Proof.
      intros Hj Hi Hl. rewrite (copies_hit D 2 4 nc_coup (nc_full c) _ _ (eo_c _ HE) (eo_f _ HE) false _ _ _ j i j (n * S (c_q c) - 1 + i)%nat l); auto.
      - apply jump_valid.
      - apply jump_keys.
      - apply jump_in; auto.
    Qed.
    Lemma jump_same v J : (J < lay_dim (e_Lc E))%nat -> copies add false (e_Lc E) (e_Lf E) (coup_pairs (cntn c n)) x v J = jump_part n J.
    Proof.
      intro HJ. destruct (dof_of 2 nc_coup _ J (eo_c _ HE) HJ) as [j [i [l [Hj [Hi [Hl ->]]]]]]. unfold jump_part. rewrite !jump_copy by assumption. reflexivity.
    Qed.
    Lemma jump_add v out n' j i l : (n' < c_N c)%nat -> (j < 4)%nat -> (i < ntime c j)%nat -> (l < d_dim D (spc j))%nat ->
      val (e_Lf E) (copies add true (e_Lf E) (e_Lc E) (flip_pairs (coup_pairs (cntn c n))) v out) j (n' * ntime c j + i) l =
      if Nat.ltb j 2 && Nat.eqb (S n') n && Nat.eqb i (c_q c) then add (val (e_Lf E) out j (n' * ntime c j + i) l) (val (e_Lc E) v j 0 l)
      else if Nat.ltb j 2 && Nat.eqb n' n && Nat.eqb i 0 then add (val (e_Lf E) out j (n' * ntime c j + i) l) (val (e_Lc E) v j 1 l)
      else val (e_Lf E) out j (n' * ntime c j + i) l.
    Proof.
      intros Hn' Hj Hi Hl.
      assert (Q : forall k, (j < 2)%nat -> (k < 2)%nat -> (n' * ntime c j + i)%nat = (n * S (c_q c) - 1 + k)%nat ->
        val (e_Lf E) (copies add true (e_Lf E) (e_Lc E) (flip_pairs (coup_pairs (cntn c n))) v out) j (n' * ntime c j + i) l =
        add (val (e_Lf E) out j (n' * ntime c j + i) l) (val (e_Lc E) v j k l)).
      { intros k Hj2 Hk Ek. rewrite (copies_hit D 4 2 (nc_full c) nc_coup _ _ (eo_f _ HE) (eo_c _ HE) true _ _ _ j (n' * ntime c j + i)%nat j k l); auto.
        - apply jump_flip_valid.
        - apply jump_flip_keys.
        - apply in_flip. rewrite Ek. apply jump_in; auto. }
      assert (NT : (j < 2)%nat -> ntime c j = S (c_q c)). { intro H. unfold ntime, sto. destruct (Nat.ltb_spec j 2); [reflexivity|lia]. }
      destruct (Nat.ltb_spec j 2) as [Hj2|Hj2]; cbn [andb].
      - specialize (NT Hj2).
        destruct (Nat.eqb_spec (S n') n) as [En|En]; cbn [andb].
        + destruct (Nat.eqb_spec i (c_q c)) as [Ei|Ei].
          * apply Q; [exact Hj2|lia|]. rewrite NT, Ei. subst n. lia.
          * destruct (Nat.eqb_spec n' n); [lia|]. cbn [andb].
            apply (copies_miss D 4 2 (nc_full c) nc_coup _ _ (eo_f _ HE)); auto; [apply jump_flip_valid|unfold nc_full; nia|].
            intro H. apply in_map_iff in H as [[[a b] [a' b']] [X H]]. cbn in X. injection X as -> ->. apply (proj1 (in_flip _ _ _)) in H.
            rewrite coup_pairs_emb in H by exact Hn0. apply in_emb in H as [H [_ X2]]. apply in_coup_idx in H as [H1 H2]. unfold up_coup, nc_coup in *. rewrite NT in *. subst n. nia.
        + destruct (Nat.eqb_spec n' n) as [En2|En2]; cbn [andb].
          * destruct (Nat.eqb_spec i 0) as [Ei|Ei].
            -- apply Q; [exact Hj2|lia|]. rewrite NT. subst n' i. nia.
            -- apply (copies_miss D 4 2 (nc_full c) nc_coup _ _ (eo_f _ HE)); auto; [apply jump_flip_valid|unfold nc_full; nia|].
               intro H. apply in_map_iff in H as [[[a b] [a' b']] [X H]]. cbn in X. injection X as -> ->. apply (proj1 (in_flip _ _ _)) in H.
               rewrite coup_pairs_emb in H by exact Hn0. apply in_emb in H as [H [_ X2]]. apply in_coup_idx in H as [H1 H2]. unfold up_coup, nc_coup in *. rewrite NT in *. subst n'. nia.
          * apply (copies_miss D 4 2 (nc_full c) nc_coup _ _ (eo_f _ HE)); auto; [apply jump_flip_valid|unfold nc_full; nia|].
            intro H. apply in_map_iff in H as [[[a b] [a' b']] [X H]]. cbn in X. injection X as -> ->. apply (proj1 (in_flip _ _ _)) in H.
            rewrite coup_pairs_emb in H by exact Hn0. apply in_emb in H as [H [_ X2]]. apply in_coup_idx in H as [H1 H2]. unfold up_coup, nc_coup in *. rewrite NT in *.
            destruct (Nat.lt_total n' n) as [L|[L|L]]; [|contradiction|nia].
            assert (S n' < n)%nat by lia. nia.
      - apply (copies_miss D 4 2 (nc_full c) nc_coup _ _ (eo_f _ HE)); auto; [apply jump_flip_valid|unfold nc_full; nia|].
        intro H. apply in_map_iff in H as [[[a b] [a' b']] [X H]]. cbn in X. injection X as -> ->. apply (proj1 (in_flip _ _ _)) in H.
        rewrite coup_pairs_emb in H by exact Hn0. apply in_emb in H as [H [X1 _]]. apply in_coup_idx in H as [H1 _]. lia.
    Qed.
  End Slab.

  (** the entry of component i of block j in slab n after the first m slabs *)
  Definition entry_after (m n j i l : nat) : V :=
    if Nat.ltb n m then
      let a := add zero (val (e_Lp E) (mA (slab_part n)) j i l) in
      let a := if Nat.ltb 0 n && Nat.ltb j 2 && Nat.eqb i 0 then add a (val (e_Lc E) (mB (jump_part n)) j 1 l) else a in
      if Nat.ltb (S n) m && Nat.ltb j 2 && Nat.eqb i (c_q c) then add a (val (e_Lc E) (mB (jump_part (S n))) j 0 l) else a
    else zero.
  Lemma pass_step m v1 w1 out : (m < c_N c)%nat ->
    (forall n j i l, (n < c_N c)%nat -> (j < 4)%nat -> (i < ntime c j)%nat -> (l < d_dim D (spc j))%nat -> val (e_Lf E) out j (n * ntime c j + i) l = entry_after m n j i l) ->
    exists v1' w1' out', pass add E mA mB x m (cntn c m) (v1, w1, out) = (v1', w1', out') /\
    (forall n j i l, (n < c_N c)%nat -> (j < 4)%nat -> (i < ntime c j)%nat -> (l < d_dim D (spc j))%nat -> val (e_Lf E) out' j (n * ntime c j + i) l = entry_after (S m) n j i l).
  Proof.
    intros Hm HO. unfold pass.
    set (v1' := copies add false (e_Lp E) (e_Lf E) (slab_pairs c (cntn c m)) x v1).
    set (out1 := copies add true (e_Lf E) (e_Lp E) (flip_pairs (slab_pairs c (cntn c m))) (mA v1') out).
    assert (A1 : forall j i l, (j < 4)%nat -> (i < ntime c j)%nat -> (l < d_dim D (spc j))%nat -> val (e_Lp E) (mA v1') j i l = val (e_Lp E) (mA (slab_part m)) j i l).
    { intros j i l Hj Hi Hl. apply HA; [intros J HJ; apply slab_same; assumption|]. apply (dof_lt 4 (nc_pre c)); auto. apply (eo_p _ HE). }
    assert (O1 : forall n j i l, (n < c_N c)%nat -> (j < 4)%nat -> (i < ntime c j)%nat -> (l < d_dim D (spc j))%nat ->
      val (e_Lf E) out1 j (n * ntime c j + i) l = if Nat.eqb n m then add zero (val (e_Lp E) (mA (slab_part m)) j i l) else entry_after m n j i l).
    { intros n j i l Hn Hj Hi Hl. unfold out1. rewrite slab_add by assumption. rewrite HO, A1 by assumption.
      destruct (Nat.eqb_spec n m) as [->|]; [|reflexivity]. unfold entry_after. rewrite Nat.ltb_irrefl. reflexivity. }
    destruct (Nat.ltb_spec 0 m) as [H0|H0].
    - set (w1' := copies add false (e_Lc E) (e_Lf E) (coup_pairs (cntn c m)) x w1).
      eexists _, _, _. split; [reflexivity|]. intros n j i l Hn Hj Hi Hl. rewrite jump_add by assumption.
      assert (B1 : forall k, (j < 2)%nat -> (k < 2)%nat -> val (e_Lc E) (mB w1') j k l = val (e_Lc E) (mB (jump_part m)) j k l).
      { intros k Hj2 Hk. apply HB; [intros J HJ; apply jump_same; assumption|]. apply (dof_lt 2 nc_coup); auto. apply (eo_c _ HE). }
      rewrite O1 by assumption. unfold entry_after.
      destruct (Nat.ltb_spec j 2) as [Hj2|Hj2]; cbn [andb]; rewrite ?andb_false_r; cbn [andb].
      + destruct (Nat.eqb_spec (S n) m) as [E1|E1]; cbn [andb].
        * destruct (Nat.eqb_spec n m); [lia|]. destruct (Nat.ltb_spec n (S m)); [|lia]. destruct (Nat.ltb_spec n m); [|lia].
          destruct (Nat.ltb_spec (S n) (S m)); [|lia]. destruct (Nat.ltb_spec (S n) m); [lia|]. cbn [andb].
          destruct (Nat.eqb_spec i (c_q c)) as [Ei|Ei]; [|reflexivity]. rewrite B1 by lia. rewrite E1. reflexivity.
        * destruct (Nat.eqb_spec n m) as [->|E2]; cbn [andb].
          -- destruct (Nat.ltb_spec m (S m)); [|lia]. destruct (Nat.ltb_spec (S m) (S m)); [lia|]. destruct (Nat.ltb_spec 0 m); [|lia]. cbn [andb].
             destruct (Nat.eqb_spec i 0) as [Ei|Ei]; [|reflexivity]. rewrite B1 by lia. reflexivity.
          -- destruct (Nat.ltb_spec n m); destruct (Nat.ltb_spec n (S m)); try lia; [|reflexivity].
             destruct (Nat.ltb_spec (S n) (S m)); destruct (Nat.ltb_spec (S n) m); try lia. reflexivity.
      + destruct (Nat.eqb_spec n m) as [->|E2].
        * destruct (Nat.ltb_spec m (S m)); [|lia]. reflexivity.
        * destruct (Nat.ltb_spec n m); destruct (Nat.ltb_spec n (S m)); try lia; reflexivity.
    - assert (m = 0%nat) by lia. subst m. eexists _, _, _. split; [reflexivity|]. intros n j i l Hn Hj Hi Hl. rewrite O1 by assumption. unfold entry_after.
      destruct (Nat.eqb_spec n 0) as [->|E2].
      + reflexivity.
      + destruct (Nat.ltb_spec n 0); destruct (Nat.ltb_spec n 1); try lia. reflexivity.
  Qed.
  Lemma passes_run k : forall m v1 w1 out, (m + k = c_N c)%nat ->
    (forall n j i l, (n < c_N c)%nat -> (j < 4)%nat -> (i < ntime c j)%nat -> (l < d_dim D (spc j))%nat -> val (e_Lf E) out j (n * ntime c j + i) l = entry_after m n j i l) ->
    forall n j i l, (n < c_N c)%nat -> (j < 4)%nat -> (i < ntime c j)%nat -> (l < d_dim D (spc j))%nat ->
    val (e_Lf E) (snd (passes add E mA mB x (seq m k) (cntn c m) (v1, w1, out))) j (n * ntime c j + i) l = entry_after (c_N c) n j i l.
  Proof.
    induction k as [|k IH]; intros m v1 w1 out Hm HO.
    - cbn [seq passes snd]. rewrite Nat.add_0_r in Hm. subst m. exact HO.
    - cbn [seq passes]. destruct (pass_step m v1 w1 out ltac:(lia) HO) as [v1' [w1' [out' [Hp HO']]]]. rewrite Hp, cnt_next_n.
      apply IH; [lia|exact HO'].
  Qed.
  (** the result, whatever the scratch vectors contain *)
  Lemma loops_entry v1 w1 n j i l : (n < c_N c)%nat -> (j < 4)%nat -> (i < ntime c j)%nat -> (l < d_dim D (spc j))%nat ->
    val (e_Lf E) (apply_loops zero add E mA mB x v1 w1) j (n * ntime c j + i) l = entry_after (c_N c) n j i l.
  Proof.
    intros Hn Hj Hi Hl. unfold apply_loops. rewrite (cnt0_n c). apply passes_run; auto.
  Qed.
End Loops.

(** * Signed sums of products *)
Definition finite (x : spec_float) : Prop := x <> S754_nan /\ x <> S754_infinity true /\ x <> S754_infinity false.
Definition eta : R := bpow radix2 (-1075).
Lemma eta_pos : 0 < eta. Proof. apply bpow_gt_0. Qed.
Lemma b2sf_double (b : dbl) : double (B2SF b). Proof. unfold double. destruct b as [s|s| |s m e H]; try reflexivity. exact H. Qed.
Lemma finite_dbl x : double x -> finite x -> is_dbl x (fr x).
Proof. intros H [A [B C]]. apply finite_of; assumption. Qed.
Lemma dbl_finite x a : is_dbl x a -> finite x.
Proof. intros [b [<- [F _]]]. destruct b; try discriminate; repeat split; discriminate. Qed.
Lemma dbl_double x a : is_dbl x a -> double x.
Proof. intros [b [<- _]]. apply b2sf_double. Qed.
Lemma add_double x y : double x -> double y -> double (fadd x y).
Proof. intros H1 H2. destruct (double_b _ H1) as [a <-]. destruct (double_b _ H2) as [b <-]. rewrite add_eq. apply b2sf_double. Qed.
Lemma mul_double x y : double x -> double y -> double (fmul x y).
Proof. intros H1 H2. destruct (double_b _ H1) as [a <-]. destruct (double_b _ H2) as [b <-]. rewrite mul_eq. apply b2sf_double. Qed.
Lemma b_finite (b : dbl) : is_finite b = true <-> finite (B2SF b).
Proof.
  split.
  - intro H. destruct b; try discriminate; repeat split; discriminate.
  - intros [A [B C]]. destruct b as [s|s| |]; try reflexivity; [destruct s; [exfalso; apply B|exfalso; apply C]; reflexivity|exfalso; apply A; reflexivity].
Qed.
(** a finite sum or product has finite arguments, and is the rounded one *)
Lemma add_inv x y : double x -> double y -> finite (fadd x y) -> finite x /\ finite y /\ fr (fadd x y) = rnd (fr x + fr y).
Proof.
  intros H1 H2. destruct (double_b _ H1) as [a <-]. destruct (double_b _ H2) as [b <-]. rewrite add_eq. intro H. apply (proj2 (b_finite _)) in H.
  assert (Fa : is_finite a = true). { destruct a as [s|s| |]; try reflexivity; destruct b as [s'|s'| |]; try discriminate; cbn in H; destruct s; try destruct s'; discriminate. }
  assert (Fb : is_finite b = true). { destruct b as [s|s| |]; try reflexivity; destruct a as [s'|s'| |]; try discriminate; cbn in H; destruct s; try destruct s'; discriminate. }
  split; [apply b_finite, Fa|]. split; [apply b_finite, Fb|].
  pose proof (Bplus_correct 53 1024 _ _ mode_NE a b Fa Fb) as C.
  match type of C with context [Rlt_bool ?u ?v] => change u with (Rabs (rnd (B2R a + B2R b))) in C; change v with top in C end.
  rewrite !SF2R_B2SF. destruct (Rlt_bool_spec (Rabs (rnd (B2R a + B2R b))) top) as [L|L].
  - exact (proj1 C).
  - exfalso. destruct C as [C _]. destruct (Bplus mode_NE a b) as [s|s| |s m e Hb]; try discriminate; unfold binary_overflow in C; destruct (overflow_to_inf mode_NE _); cbn in C; discriminate.
Qed.
Lemma mul_inv x y : double x -> double y -> finite (fmul x y) -> finite x /\ finite y /\ fr (fmul x y) = rnd (fr x * fr y).
Proof.
  intros H1 H2. destruct (double_b _ H1) as [a <-]. destruct (double_b _ H2) as [b <-]. rewrite mul_eq. intro H. apply (proj2 (b_finite _)) in H.
  assert (Fa : is_finite a = true). { destruct a as [s|s| |]; try reflexivity; destruct b as [s'|s'| |]; discriminate. }
  assert (Fb : is_finite b = true). { destruct b as [s|s| |]; try reflexivity; destruct a as [s'|s'| |]; discriminate. }
  split; [apply b_finite, Fa|]. split; [apply b_finite, Fb|].
  pose proof (Bmult_correct 53 1024 _ _ mode_NE a b) as C.
  match type of C with context [Rlt_bool ?u ?v] => change u with (Rabs (rnd (B2R a * B2R b))) in C; change v with top in C end.
  rewrite !SF2R_B2SF. destruct (Rlt_bool_spec (Rabs (rnd (B2R a * B2R b))) top) as [L|L].
  - exact (proj1 C).
  - exfalso. destruct (Bmult mode_NE a b) as [s|s| |s m e Hb]; try discriminate; unfold binary_overflow in C; destruct (overflow_to_inf mode_NE _); cbn in C; discriminate.
Qed.
(** one rounding *)
Lemma rnd_sum a b : dfmt a -> dfmt b -> Rabs (rnd (a + b) - (a + b)) <= u * Rabs (a + b).
Proof.
  intros Fa Fb. destruct (FLT_plus_error_N_ex radix2 (-1074) 53 (fun z => negb (Z.even z)) a b Fa Fb) as [eps [E1 E2]].
  change (round radix2 (FLT_exp (-1074) 53) (Znearest (fun z => negb (Z.even z))) (a + b)) with (rnd (a + b)) in E2. rewrite E2.
  assert (Eu : u_ro radix2 53 = u). { unfold u_ro. rewrite <- u_eq. replace (/ 2) with (bpow radix2 (-1)) by (cbn; lra). rewrite <- bpow_plus. reflexivity. }
  rewrite Eu in E1. pose proof u_pos.
  assert (E3 : Rabs eps <= u).
  { apply Rle_trans with (1 := E1). apply Rmult_le_reg_r with (1 + u); [lra|]. unfold Rdiv. rewrite Rmult_assoc, Rinv_l by lra.
    assert (0 <= u * u) by (apply Rmult_le_pos; lra). lra. }
  replace ((a + b) * (1 + eps) - (a + b)) with (eps * (a + b)) by ring. rewrite Rabs_mult. apply Rmult_le_compat_r; [apply Rabs_pos|exact E3].
Qed.
Lemma rnd_mul p : Rabs (rnd p - p) <= u * Rabs p + eta.
Proof.
  destruct (error_N_FLT radix2 (-1074) 53 eq_refl (fun z => negb (Z.even z)) p) as [eps [et [H1 [H2 [_ H4]]]]].
  change (round radix2 (FLT_exp (-1074) 53) (Znearest (fun z => negb (Z.even z))) p) with (rnd p) in H4. rewrite H4.
  assert (Eu : / 2 * bpow radix2 (- (53) + 1) = u) by (rewrite <- u_eq; replace (/ 2) with (bpow radix2 (-1)) by (cbn; lra); rewrite <- bpow_plus; reflexivity).
  assert (Ee : / 2 * bpow radix2 (-1074) = eta) by (unfold eta; replace (/ 2) with (bpow radix2 (-1)) by (cbn; lra); rewrite <- bpow_plus; reflexivity).
  rewrite Eu in H1. rewrite Ee in H2.
  replace (p * (1 + eps) + et - p) with (eps * p + et) by ring. apply Rle_trans with (1 := Rabs_triang _ _). rewrite Rabs_mult.
  apply Rplus_le_compat; [apply Rmult_le_compat_r; [apply Rabs_pos|exact H1]|exact H2].
Qed.

(** [f] computes [e] by at most [k] roundings in a row of sums with [m] products; [a]: the sum
    of the absolute values.  [fin]: all the inputs are finite; [nn]: there is a nan among them *)
Definition app (f : spec_float) (e a : R) (k m : nat) (fin nn : Prop) : Prop :=
  double f /\ Rabs e <= a
  /\ (finite f -> fin /\ Rabs (fr f - e) <= ((1 + u) ^ k - 1) * a + INR m * eta * (1 + u) ^ k)
  /\ (fin -> (1 + u) ^ k * (a + INR m * eta) < top -> finite f)
  /\ (nn -> f = S754_nan).
Lemma pow_ge1 k : 1 <= (1 + u) ^ k. Proof. apply pow_R1_Rle. pose proof u_pos. lra. Qed.
Lemma pow_mono k k' : (k <= k')%nat -> (1 + u) ^ k <= (1 + u) ^ k'. Proof. intro H. apply Rle_pow; [pose proof u_pos; lra|exact H]. Qed.
Lemma app_mono f e a a' k k' m m' fin nn : (k <= k')%nat -> (m <= m')%nat -> a <= a' -> app f e a k m fin nn -> app f e a' k' m' fin nn.
Proof.
  intros Hk Hm Ha [A [B [C [D F]]]]. pose proof (pow_ge1 k). pose proof (pow_mono k k' Hk). pose proof (Rabs_pos e). pose proof (le_INR _ _ Hm). pose proof (pos_INR m). pose proof eta_pos.
  assert (INR m * eta <= INR m' * eta) by (apply Rmult_le_compat_r; lra). assert (0 <= INR m * eta) by (apply Rmult_le_pos; lra).
  split; [exact A|]. split; [lra|]. split; [|split; [|exact F]].
  - intro Hf. destruct (C Hf) as [C1 C2]. split; [exact C1|]. apply Rle_trans with (1 := C2). apply Rplus_le_compat; apply Rmult_le_compat; lra.
  - intros Hf HB. apply D; [exact Hf|]. apply Rle_lt_trans with (2 := HB). apply Rmult_le_compat; lra.
Qed.
Lemma app_le f e a a' k k' m m' fin nn fin' nn' : (k <= k')%nat -> (m <= m')%nat -> a = a' -> (fin <-> fin') -> (nn <-> nn') -> app f e a k m fin nn -> app f e a' k' m' fin' nn'.
Proof.
  intros Hk Hm -> H1 H2 H. destruct (app_mono _ _ _ a' _ k' _ m' _ _ Hk Hm (Rle_refl _) H) as [A [B [C [D F]]]].
  split; [exact A|]. split; [exact B|]. split; [|split].
  - intro X. destruct (C X) as [C1 C2]. split; [apply H1, C1|exact C2].
  - intros X. apply D, H1, X.
  - intro X. apply F, H2, X.
Qed.
Lemma app_size f e a k m fin nn : app f e a k m fin nn -> finite f -> Rabs (fr f) <= (1 + u) ^ k * (a + INR m * eta).
Proof.
  intros [A [B [C _]]] Hf. destruct (C Hf) as [_ C2].
  replace (fr f) with (e + (fr f - e)) by ring. apply Rle_trans with (1 := Rabs_triang _ _).
  replace ((1 + u) ^ k * (a + INR m * eta)) with (a + (((1 + u) ^ k - 1) * a + INR m * eta * (1 + u) ^ k)) by ring. lra.
Qed.
Lemma app_mul v x : double v -> double x -> app (fmul v x) (fr v * fr x) (Rabs (fr v) * Rabs (fr x)) 1 1 (finite v /\ finite x) (v = S754_nan \/ x = S754_nan).
Proof.
  intros Hv Hx. pose proof u_pos. pose proof eta_pos. pose proof (rnd_mul (fr v * fr x)) as R0. rewrite Rabs_mult in R0.
  assert (P : 0 <= Rabs (fr v) * Rabs (fr x)) by (apply Rmult_le_pos; apply Rabs_pos).
  assert (P2 : 0 <= u * eta) by (apply Rmult_le_pos; lra).
  split; [apply mul_double; assumption|]. split; [rewrite Rabs_mult; lra|]. cbn [pow INR]. split; [|split].
  - intro H1. destruct (mul_inv _ _ Hv Hx H1) as [A [B ->]]. split; [auto|]. lra.
  - intros [A B] HT. apply dbl_finite with (a := rnd (fr v * fr x)). apply fmul_ok; [apply finite_dbl; assumption..|].
    apply Rle_lt_trans with (2 := HT). replace (rnd (fr v * fr x)) with (fr v * fr x + (rnd (fr v * fr x) - fr v * fr x)) by ring.
    apply Rle_trans with (1 := Rabs_triang _ _). rewrite Rabs_mult. lra.
  - intros [->| ->]; [apply mul_nan_l|apply mul_nan_r].
Qed.
Lemma app_zero : app (fz 0) 0 0 0 0 True False.
Proof.
  pose proof (fz_ok 0 ltac:(lia)) as F. split; [apply dbl_double with (1 := F)|]. split; [rewrite Rabs_R0; lra|]. split; [|split].
  - intros _. split; [exact I|]. rewrite (dbl_fr _ _ F). cbn [pow INR]. replace (0 - 0) with 0 by ring. rewrite Rabs_R0. lra.
  - intros _ _. apply dbl_finite with (1 := F).
  - intros [].
Qed.
Lemma app_add f1 e1 a1 k1 m1 fin1 nn1 f2 e2 a2 k2 m2 fin2 nn2 :
  app f1 e1 a1 k1 m1 fin1 nn1 -> app f2 e2 a2 k2 m2 fin2 nn2 ->
  app (fadd f1 f2) (e1 + e2) (a1 + a2) (S (Nat.max k1 k2)) (m1 + m2) (fin1 /\ fin2) (nn1 \/ nn2).
Proof.
  intros H1 H2. set (k := Nat.max k1 k2).
  apply (app_mono _ _ _ a1 _ k _ m1) in H1; [|subst k; lia|lia|lra]. apply (app_mono _ _ _ a2 _ k _ m2) in H2; [|subst k; lia|lia|lra]. clearbody k.
  pose proof (app_size _ _ _ _ _ _ _ H1) as S1. pose proof (app_size _ _ _ _ _ _ _ H2) as S2.
  destruct H1 as [A1 [B1 [C1 [D1 F1]]]]. destruct H2 as [A2 [B2 [C2 [D2 F2]]]].
  pose proof u_pos as U. pose proof eta_pos as T. pose proof (pow_ge1 k) as K. unfold app. rewrite plus_INR. pose proof (pos_INR m1) as M1. pose proof (pos_INR m2) as M2.
  assert (Z1 : 0 <= INR m1 * eta) by (apply Rmult_le_pos; lra). assert (Z2 : 0 <= INR m2 * eta) by (apply Rmult_le_pos; lra).
  pose proof (Rabs_pos e1) as P1. pose proof (Rabs_pos e2) as P2.
  assert (RS : finite f1 -> finite f2 -> Rabs (rnd (fr f1 + fr f2) - (fr f1 + fr f2)) <= u * Rabs (fr f1 + fr f2)).
  { intros X1 X2. apply rnd_sum; eapply is_dbl_fmt; apply finite_dbl; assumption. }
  split; [apply add_double; assumption|]. split; [apply Rle_trans with (1 := Rabs_triang _ _); lra|]. split; [|split].
  - intro Hf. destruct (add_inv _ _ A1 A2 Hf) as [X1 [X2 ->]]. destruct (C1 X1) as [C1a C1b]. destruct (C2 X2) as [C2a C2b]. split; [auto|].
    specialize (RS X1 X2).
    assert (SE : Rabs (fr f1 + fr f2 - (e1 + e2)) <= ((1 + u) ^ k - 1) * (a1 + a2) + (INR m1 + INR m2) * eta * (1 + u) ^ k).
    { replace (fr f1 + fr f2 - (e1 + e2)) with ((fr f1 - e1) + (fr f2 - e2)) by ring. apply Rle_trans with (1 := Rabs_triang _ _). lra. }
    assert (SA : Rabs (fr f1 + fr f2) <= Rabs (fr f1 + fr f2 - (e1 + e2)) + (a1 + a2)).
    { replace (fr f1 + fr f2) with ((fr f1 + fr f2 - (e1 + e2)) + (e1 + e2)) at 1 by ring. apply Rle_trans with (1 := Rabs_triang _ _). pose proof (Rabs_triang e1 e2). lra. }
    set (dd := Rabs (fr f1 + fr f2 - (e1 + e2))) in *.
    replace (rnd (fr f1 + fr f2) - (e1 + e2)) with ((rnd (fr f1 + fr f2) - (fr f1 + fr f2)) + (fr f1 + fr f2 - (e1 + e2))) by ring.
    apply Rle_trans with (1 := Rabs_triang _ _). fold dd.
    apply Rle_trans with (u * (dd + (a1 + a2)) + dd).
    { apply Rplus_le_compat_r. apply Rle_trans with (1 := RS). apply Rmult_le_compat_l; lra. }
    apply Rle_trans with ((1 + u) * (((1 + u) ^ k - 1) * (a1 + a2) + (INR m1 + INR m2) * eta * (1 + u) ^ k) + u * (a1 + a2)).
    { replace (u * (dd + (a1 + a2)) + dd) with ((1 + u) * dd + u * (a1 + a2)) by ring. apply Rplus_le_compat_r, Rmult_le_compat_l; lra. }
    cbn [pow]. right. ring.
  - intros [G1 G2] HT.
    assert (HT' : (1 + u) ^ k * (a1 + a2 + (INR m1 + INR m2) * eta) < top).
    { apply Rle_lt_trans with (2 := HT). cbn [pow]. rewrite Rmult_assoc. rewrite <- (Rmult_1_l ((1 + u) ^ k * _)) at 1. apply Rmult_le_compat_r; [|lra].
      apply Rmult_le_pos; [lra|]. lra. }
    assert (X1 : finite f1). { apply D1; [exact G1|]. apply Rle_lt_trans with (2 := HT'). apply Rmult_le_compat_l; [lra|]. lra. }
    assert (X2 : finite f2). { apply D2; [exact G2|]. apply Rle_lt_trans with (2 := HT'). apply Rmult_le_compat_l; [lra|]. lra. }
    apply dbl_finite with (a := rnd (fr f1 + fr f2)). apply fadd_ok; [apply finite_dbl; assumption..|]. apply Rle_lt_trans with (2 := HT).
    specialize (RS X1 X2). specialize (S1 X1). specialize (S2 X2).
    assert (SS : Rabs (fr f1 + fr f2) <= (1 + u) ^ k * (a1 + a2 + (INR m1 + INR m2) * eta)) by (apply Rle_trans with (1 := Rabs_triang _ _); lra).
    replace (rnd (fr f1 + fr f2)) with ((fr f1 + fr f2) + (rnd (fr f1 + fr f2) - (fr f1 + fr f2))) by ring.
    apply Rle_trans with (1 := Rabs_triang _ _). apply Rle_trans with ((1 + u) * Rabs (fr f1 + fr f2)); [lra|].
    cbn [pow]. rewrite Rmult_assoc. apply Rmult_le_compat_l; lra.
  - intros [X|X]; [rewrite (F1 X); apply add_nan_l|rewrite (F2 X); apply add_nan_r].
Qed.

(** ** A row *)
Definition row_double (row : list (nat * spec_float)) : Prop := List.Forall (fun p => double (snd p)) row.
Definition row_finite (y : nat -> spec_float) (row : list (nat * spec_float)) : Prop := List.Forall (fun p => finite (snd p) /\ finite (y (fst p))) row.
Definition row_nan (y : nat -> spec_float) (row : list (nat * spec_float)) : Prop := List.Exists (fun p => snd p = S754_nan \/ y (fst p) = S754_nan) row.
Lemma row_app y row : row_double row -> (forall p, In p row -> double (y (fst p))) ->
  app (fold_left (fun s '(j, v) => fadd s (fmul v (y j))) row (fz 0)) (Rsum row (fun p => fr (snd p) * fr (y (fst p))))
    (Rsum row (fun p => Rabs (fr (snd p)) * Rabs (fr (y (fst p))))) (S (List.length row)) (List.length row) (row_finite y row) (row_nan y row).
Proof.
  intros Hr Hy.
  assert (G : forall row0 k, row_double row0 -> (forall p, In p row0 -> double (y (fst p))) -> forall f e a m fin nn, (1 <= k)%nat ->
    app f e a k m fin nn ->
    app (fold_left (fun s '(j, v) => fadd s (fmul v (y j))) row0 f) (e + Rsum row0 (fun p => fr (snd p) * fr (y (fst p))))
      (a + Rsum row0 (fun p => Rabs (fr (snd p)) * Rabs (fr (y (fst p))))) (k + List.length row0) (m + List.length row0)
      (fin /\ row_finite y row0) (nn \/ row_nan y row0)).
  { induction row0 as [|[j v] row0 IH]; intros k Hr0 Hy0 f e a m fin nn Hk H.
    - rewrite !Rsum_nil, !Rplus_0_r. apply (app_le _ _ a a k (k + 0) m (m + 0) fin nn); try lia; auto.
      + split; [intro X; split; [exact X|constructor]|intros [X _]; exact X].
      + split; [auto|intros [X|X]; [exact X|inversion X]].
    - inversion Hr0 as [|? ? V0 V1]; subst. cbn [snd] in V0.
      assert (Y0 : double (y j)) by (apply (Hy0 (j, v)); left; reflexivity).
      cbn [fold_left]. rewrite !Rsum_cons. cbn [fst snd].
      pose proof (app_add _ _ _ _ _ _ _ _ _ _ _ _ _ _ H (app_mul v (y j) V0 Y0)) as HA.
      eapply (app_mono _ _ _ _ _ (S k) _ (m + 1)) in HA; [|lia|lia|apply Rle_refl].
      pose proof (IH (S k) V1 (fun p Hp => Hy0 p (or_intror Hp)) _ _ _ (m + 1)%nat _ _ ltac:(lia) HA) as HB.
      replace (e + (fr v * fr (y j) + Rsum row0 (fun p => fr (snd p) * fr (y (fst p))))) with
        (e + fr v * fr (y j) + Rsum row0 (fun p => fr (snd p) * fr (y (fst p)))) by ring.
      eapply app_le; [..|exact HB]; [cbn [List.length]; lia|cbn [List.length]; lia|ring| |].
      + split.
        * intros [[X1 [X2 X3]] X4]. split; [exact X1|]. constructor; [split; assumption|exact X4].
        * intros [X1 X2]. inversion X2; subst. auto.
      + split.
        * intros [[X|X]|X]; [left; exact X|right; constructor; exact X|right; apply Exists_cons_tl; exact X].
        * intros [X|X]; [auto|]. inversion X; subst; auto. }
  pose proof (G row 1%nat Hr Hy _ _ _ _ _ _ (le_n _) (app_mono _ _ _ 0 _ 1 _ 0 _ _ (le_S _ _ (le_n _)) (le_n _) (Rle_refl _) app_zero)) as HG.
  rewrite !Rplus_0_l in HG. eapply app_le; [..|exact HG]; [cbn; lia|cbn; lia|reflexivity|tauto|tauto].
Qed.
