(** Props_Mesh.v -- properties C56 to C61 and C65: the mesh functions. *)
From Coq Require Import Reals List ZArith Lra Lia Bool String Permutation Sorting.Sorted FunctionalExtensionality.
From Verif Require Import QuadProofs Base MarchLoops MeshModel.
Import ListNotations.
Open Scope R_scope.
Open Scope monad_scope.

(** * C57: the check of the node numbers *)
(** node numbers are sequential: some order of 1, 2, ..., n *)
Definition sequential (idx : list Z) : Prop := Permutation idx (map Z.of_nat (seq 1 (List.length idx))).

Lemma insert_perm idx p l : Permutation (insert_pos idx p l) (p :: l).
Proof.
  induction l as [|q l IH]; cbn; [reflexivity|]. destruct (Z.leb _ _); [reflexivity|].
  rewrite IH. apply perm_swap.
Qed.
Lemma argsort_perm idx : Permutation (argsort idx) (seq 0 (List.length idx)).
Proof.
  unfold argsort. induction (seq 0 (List.length idx)) as [|p l IH]; cbn [fold_right]; [reflexivity|].
  rewrite insert_perm, IH. reflexivity.
Qed.
Definition le_at (idx : list Z) (p q : nat) : Prop := (nth p idx 0 <= nth q idx 0)%Z.
Lemma insert_sorted idx p l : StronglySorted (le_at idx) l -> StronglySorted (le_at idx) (insert_pos idx p l).
Proof.
  induction l as [|q l IH]; intro H; cbn; [constructor; constructor|].
  inversion H as [|? ? H1 H2]; subst. destruct (Z.leb_spec (nth p idx 0) (nth q idx 0))%Z as [L|L].
  - constructor; [exact H|]. constructor; [exact L|]. eapply Forall_impl; [|exact H2]. intros a Ha. unfold le_at in *. lia.
  - constructor; [exact (IH H1)|]. apply List.Forall_forall. intros a Ha. apply (Permutation_in _ (insert_perm idx p l)) in Ha.
    destruct Ha as [<-|Ha]; [unfold le_at; lia|]. rewrite List.Forall_forall in H2. exact (H2 a Ha).
Qed.
Lemma argsort_sorted idx : StronglySorted (le_at idx) (argsort idx).
Proof.
  unfold argsort. induction (seq 0 (List.length idx)) as [|p l IH]; cbn [fold_right]; [constructor|]. apply insert_sorted, IH.
Qed.
Lemma map_nth_seq {A} (d : A) l : map (fun p => nth p l d) (seq 0 (List.length l)) = l.
Proof.
  induction l as [|a l IH]; [reflexivity|]. cbn [List.length seq map nth]. f_equal. rewrite <- seq_shift, map_map. exact IH.
Qed.
Lemma gather_perm {A} (d : A) l srt : Permutation srt (seq 0 (List.length l)) -> Permutation (gather_rows d l srt) l.
Proof. intro H. unfold gather_rows. rewrite H, map_nth_seq. reflexivity. Qed.
Lemma gather_sorted idx l : StronglySorted (le_at idx) l -> StronglySorted Z.le (gather_rows 0%Z idx l).
Proof.
  intro H. induction H as [|p l H IH HF]; cbn; constructor; [exact IH|]. apply List.Forall_forall. intros z Hz.
  apply in_map_iff in Hz. destruct Hz as [q [<- Hq]]. rewrite List.Forall_forall in HF. exact (HF q Hq).
Qed.
Lemma sorted_unique l : forall l', StronglySorted Z.le l -> StronglySorted Z.le l' -> Permutation l l' -> l = l'.
Proof.
  induction l as [|a l IH]; intros l' H H' P; [symmetry; apply Permutation_nil, P|].
  destruct l' as [|b l']; [symmetry in P; apply Permutation_nil in P; discriminate|].
  inversion H as [|? ? H1 H2]; subst. inversion H' as [|? ? H1' H2']; subst. rewrite List.Forall_forall in H2, H2'.
  assert (a = b).
  { pose proof (Permutation_in a P (or_introl eq_refl)) as Ia. symmetry in P. pose proof (Permutation_in b P (or_introl eq_refl)) as Ib.
    destruct Ia as [->|Ia]; [reflexivity|]. destruct Ib as [->|Ib]; [reflexivity|]. specialize (H2 _ Ib). specialize (H2' _ Ia). lia. }
  subst b. f_equal. apply IH; [assumption..|]. exact (Permutation_cons_inv P).
Qed.
Lemma seq_sorted n : forall a, StronglySorted Z.le (map Z.of_nat (seq a n)).
Proof.
  induction n as [|n IH]; intro a; cbn; constructor; [apply IH|]. apply List.Forall_forall. intros z Hz.
  apply in_map_iff in Hz. destruct Hz as [q [<- Hq]]. apply in_seq in Hq. lia.
Qed.
Lemma combine_eq (l : list Z) : forall l', List.length l = List.length l' ->
  forallb (fun '(a, b) => Z.eqb a b) (combine l l') = true <-> l = l'.
Proof.
  induction l as [|a l IH]; intros [|b l'] H; try discriminate; cbn; [split; reflexivity|].
  rewrite andb_true_iff, Z.eqb_eq. injection H as H. rewrite (IH l' H). split; [intros [-> ->]; reflexivity|intro E; injection E as -> ->; auto].
Qed.
Definition pred_all (idx : list Z) : list Z := map (fun z => (z - 1)%Z) idx.
Lemma pred_length idx : List.length (pred_all idx) = List.length idx.
Proof. apply map_length. Qed.
Lemma sequential_pred idx : sequential idx <-> Permutation (pred_all idx) (arange (List.length idx)).
Proof.
  unfold sequential, pred_all, arange. set (n := List.length idx).
  assert (E : map Z.of_nat (seq 1 n) = map (fun z => (z + 1)%Z) (map Z.of_nat (seq 0 n))).
  { rewrite <- seq_shift, !map_map. apply map_ext. intro. lia. }
  assert (E2 : map Z.of_nat (seq 0 n) = map (fun z => (z - 1)%Z) (map Z.of_nat (seq 1 n))).
  { rewrite E, !map_map. apply map_ext. intro. lia. }
  split; intro H.
  - rewrite H, <- E2. reflexivity.
  - rewrite E, <- H, map_map. rewrite <- (map_id idx) at 1. erewrite map_ext; [reflexivity|]. intro z. cbn. lia.
Qed.
Lemma check_iff idx : let i := pred_all idx in
  forallb (fun '(a, b) => Z.eqb a b) (combine (gather_rows 0%Z i (argsort i)) (arange (List.length i))) = true <-> sequential idx.
Proof.
  intro i. rewrite sequential_pred. fold i.
  assert (EL : List.length i = List.length idx) by apply pred_length. rewrite <- EL.
  pose proof (gather_perm 0%Z i (argsort i) (argsort_perm i)) as GP.
  rewrite combine_eq.
  - split; intro H; [rewrite <- H; symmetry; exact GP|].
    apply sorted_unique; [apply gather_sorted, argsort_sorted|apply seq_sorted|]. rewrite GP. exact H.
  - rewrite (Permutation_length GP). unfold arange. rewrite map_length, seq_length. reflexivity.
Qed.

(** * C58: the planar points *)
(** gmsh's answer for a list of nodes: number and three coordinates *)
Definition node : Type := (Z * (R * R * R))%type.
Definition tags (l : list node) : list Z := map fst l.
Definition flat (l : list node) : list R := flat_map (fun '(_, (x, y, z)) => [x; y; z]) l.
Definition planar (nd : node) : list R := let '(_, (x, y, _)) := nd in [x; y].

Lemma drop_third_cons x y z l : drop_third (x :: y :: z :: l) = x :: y :: drop_third l.
Proof.
  unfold drop_third.
  change (x :: y :: map snd (filter (fun '(i, _) => negb (Nat.eqb ((i + 1) mod 3) 0)) (combine (seq 3 (List.length l)) l)) =
          x :: y :: map snd (filter (fun '(i, _) => negb (Nat.eqb ((i + 1) mod 3) 0)) (combine (seq 0 (List.length l)) l))).
  f_equal. f_equal.
  assert (S3 : seq 3 (List.length l) = map (fun i => (3 + i)%nat) (seq 0 (List.length l))).
  { rewrite <- (map_map S (fun i => S (S i))), <- (map_map S S). rewrite !seq_shift. reflexivity. }
  rewrite S3. generalize (seq 0 (List.length l)). clear S3.
  assert (G : forall (l : list R) (sq : list nat),
    map snd (filter (fun '(i, _) => negb (Nat.eqb ((i + 1) mod 3) 0)) (combine (map (fun i => (3 + i)%nat) sq) l)) =
    map snd (filter (fun '(i, _) => negb (Nat.eqb ((i + 1) mod 3) 0)) (combine sq l))).
  { intro k. induction k as [|a k IH]; intros [|i sq]; try reflexivity. cbn [map combine filter].
    replace ((3 + i + 1) mod 3)%nat with ((i + 1) mod 3)%nat.
    - destruct (negb _); cbn [map]; rewrite IH; reflexivity.
    - replace (3 + i + 1)%nat with (i + 1 + 1 * 3)%nat by lia. rewrite Nat.mod_add by lia. reflexivity. }
  intro sq. apply G.
Qed.
Lemma drop_third_flat l : drop_third (flat l) = flat_map planar l.
Proof.
  induction l as [|[t [[x y] z]] l IH]; [reflexivity|]. cbn [flat flat_map app]. rewrite drop_third_cons. cbn. f_equal. f_equal. exact IH.
Qed.
Lemma reshape_planar l : reshape 2 (flat_map planar l) = Ok (map planar l).
Proof.
  assert (HL : List.length (flat_map planar l) = (List.length l * 2)%nat).
  { induction l as [|[t [[x y] z]] l IH]; [reflexivity|]. cbn [flat_map planar app List.length]. rewrite IH. cbn. lia. }
  unfold reshape. cbn [Nat.eqb]. rewrite HL, Nat.mod_mul by lia. cbn [Nat.eqb]. rewrite Nat.div_mul by lia. f_equal. clear HL.
  induction l as [|[t [[x y] z]] l IH]; [reflexivity|]. cbn [List.length chunks flat_map planar app firstn skipn map]. f_equal. exact IH.
Qed.

(** The check is inverted: the nodes are refused exactly when their numbers are
    sequential; all other numberings are accepted. *)
Theorem C57_refuted : forall l,
  (sequential (tags l) -> sorted_points (tags l) (flat l) = Err RuntimeError) /\
  (~ sequential (tags l) -> exists x, sorted_points (tags l) (flat l) = Ok x).
Proof.
  intro l. unfold sorted_points. rewrite drop_third_flat, reshape_planar. cbn [rbind].
  pose proof (check_iff (tags l)) as H. cbv zeta in H. fold (pred_all (tags l)).
  destruct (forallb _ _) eqn:E.
  - split; [reflexivity|]. intro K. exfalso. apply K, H. reflexivity.
  - split; [|eexists; reflexivity]. intro K. apply H in K. discriminate.
Qed.
(** with the numbers 1, 2, 3 gmsh gives a fresh mesh, the mesh functions always fail *)
Example C57_example : sorted_points (tags [(1%Z, (0, 0, 0)); (2%Z, (1, 0, 0)); (3%Z, (0, 1, 0))]) (flat [(1%Z, (0, 0, 0)); (2%Z, (1, 0, 0)); (3%Z, (0, 1, 0))]) = Err RuntimeError
  /\ exists x, sorted_points (tags [(1%Z, (0, 0, 0)); (3%Z, (1, 0, 0)); (4%Z, (0, 1, 0))]) (flat [(1%Z, (0, 0, 0)); (3%Z, (1, 0, 0)); (4%Z, (0, 1, 0))]) = Ok x.
Proof.
  split.
  - apply C57_refuted. unfold sequential. cbn. reflexivity.
  - apply C57_refuted. unfold sequential. cbn. intro H.
    assert (K : In 4%Z [1; 2; 3]%Z) by (apply (Permutation_in _ H); cbn; auto). cbn in K. lia.
Qed.

(** what is returned for accepted numberings: the points (x, y) in the order of the
    node numbers *)
Theorem C58_extraction : forall l x, sorted_points (tags l) (flat l) = Ok x ->
  exists l', Permutation l' l /\ StronglySorted Z.le (tags l') /\ x = map planar l'.
Proof.
  intros l x H. unfold sorted_points in H. rewrite drop_third_flat, reshape_planar in H. cbn [rbind] in H. fold (pred_all (tags l)) in H.
  destruct (forallb _ _); [discriminate|]. injection H as <-.
  set (d := (1%Z, (0, 0, 0)) : node). set (srt := argsort (pred_all (tags l))).
  assert (HP : Permutation srt (seq 0 (List.length l))).
  { unfold srt. rewrite argsort_perm, pred_length. unfold tags. rewrite map_length. reflexivity. }
  exists (gather_rows d l srt). split; [apply gather_perm, HP|]. split.
  - pose proof (gather_sorted _ _ (argsort_sorted (pred_all (tags l)))) as G. fold srt in G.
    unfold tags, gather_rows in *. rewrite map_map. revert G. generalize srt. clear.
    intro srt. assert (E : forall p, nth p (pred_all (map fst l)) 0%Z = (fst (nth p l d) - 1)%Z).
    { intro p. unfold pred_all. rewrite map_map. change 0%Z with ((fun x : node => (fst x - 1)%Z) d). rewrite map_nth. reflexivity. }
    rewrite (map_ext _ _ E). induction srt as [|p q IH]; cbn [map]; intro G; [constructor|]. inversion G as [|? ? G1 G2]; subst.
    constructor; [exact (IH G1)|]. apply List.Forall_forall. intros z Hz. apply in_map_iff in Hz. destruct Hz as [r [<- Hr]].
    rewrite List.Forall_forall in G2. specialize (G2 (fst (nth r l d) - 1)%Z). cbv beta in G2.
    assert (I : In (fst (nth r l d) - 1)%Z (map (fun p => (fst (nth p l d) - 1)%Z) q)) by (apply in_map_iff; exists r; auto).
    specialize (G2 I). lia.
  - unfold gather_rows. rewrite map_map. apply map_ext_in. intros p Hp. apply (Permutation_in _ HP) in Hp. apply in_seq in Hp.
    rewrite (nth_indep _ [] (planar d)) by (rewrite map_length; lia). apply map_nth.
Qed.
(** C58 as stated is false, as a consequence of the inverted check: a node whose number
    t would need row t - 1 never finds it there for all nodes -- the node with the
    largest number lies beyond the end of the point list. *)
Lemma distinct_range (l : list Z) : NoDup l -> (forall z, In z l -> (1 <= z <= Z.of_nat (List.length l))%Z) -> sequential l.
Proof.
  intros HN HR. unfold sequential. apply NoDup_Permutation_bis.
  - exact HN.
  - rewrite map_length, seq_length. reflexivity.
  - intros z Hz. specialize (HR z Hz). apply in_map_iff. exists (Z.to_nat z). split; [lia|]. apply in_seq. lia.
Qed.
Theorem C58_refuted : forall l x, NoDup (tags l) -> (forall z, In z (tags l) -> (1 <= z)%Z) -> sorted_points (tags l) (flat l) = Ok x ->
  exists t, In t (tags l) /\ (Z.of_nat (List.length x) <= t - 1)%Z.
Proof.
  intros l x HN HP H.
  assert (HL : List.length x = List.length (tags l)).
  { destruct (C58_extraction l x H) as [l' [P [_ ->]]]. unfold tags. rewrite !map_length. apply Permutation_length, P. }
  destruct (Exists_dec (fun t => (Z.of_nat (List.length x) <= t - 1)%Z) (tags l) (fun t => Z_le_dec _ _)) as [E|E].
  - apply List.Exists_exists in E. destruct E as [t Ht]. exists t. exact Ht.
  - exfalso. assert (S : sequential (tags l)).
    { apply distinct_range; [exact HN|]. intros z Hz. split; [exact (HP z Hz)|]. rewrite <- HL.
      destruct (Z_le_dec z (Z.of_nat (List.length x))) as [K|K]; [exact K|]. exfalso. apply E, List.Exists_exists. exists z. split; [exact Hz|lia]. }
    apply C57_refuted in S. congruence.
Qed.
Lemma chunks_nth {A} (k : nat) (d : A) n : forall l i p, (i < n)%nat -> (p < k)%nat -> nth p (nth i (chunks k n l) []) d = nth (i * k + p) l d.
Proof.
  induction n as [|n IH]; intros l i p Hi Hp; [lia|]. cbn [chunks]. destruct i as [|i]; cbn [nth].
  - cbn [Nat.mul Nat.add]. rewrite <- (firstn_skipn k l) at 2. destruct (Nat.lt_ge_cases p (List.length (firstn k l))) as [H|H].
    + rewrite app_nth1 by exact H. reflexivity.
    + rewrite firstn_length in H. rewrite !nth_overflow; [reflexivity|rewrite firstn_skipn; lia|rewrite firstn_length; lia].
  - rewrite IH by lia. rewrite <- (firstn_skipn k l) at 2.
    destruct (Nat.le_gt_cases (List.length l) k) as [H|H].
    + rewrite !nth_overflow; [reflexivity|rewrite firstn_skipn; nia|rewrite skipn_length; lia].
    + rewrite (app_nth2 (firstn k l)); rewrite firstn_length; [|nia]. f_equal. rewrite Nat.min_l by lia. lia.
Qed.
Lemma chunks_length {A} (k n : nat) : forall l : list A, List.length (chunks k n l) = n.
Proof. induction n as [|n IH]; intro l; [reflexivity|]. cbn. f_equal. apply IH. Qed.
(** The cells: entry [i] of cell [j] is the node number that gmsh lists at position
    [perm i] of that element, counted from 0.  An incomplete last element is refused. *)
Theorem C58_cells : forall num_nodes perm ty tags rest, let nn := num_nodes ty in
  (forall p, In p (perm nn) -> (p < nn)%nat) ->
  cells_of num_nodes perm [] = Err IndexError /\
  ((nn = 0 \/ List.length tags mod nn <> 0)%nat -> cells_of num_nodes perm ((ty, tags) :: rest) = Err ValueError) /\
  (forall n, (nn <> 0)%nat -> List.length tags = (n * nn)%nat -> exists cells,
     cells_of num_nodes perm ((ty, tags) :: rest) = Ok cells /\ List.length cells = n /\
     forall j i, (j < n)%nat -> (i < List.length (perm nn))%nat ->
       nth i (nth j cells []) 0%Z = (nth (j * nn + nth i (perm nn) 0)%nat tags 0 - 1)%Z).
Proof.
  intros num_nodes perm ty tags rest nn HP. split; [reflexivity|]. cbn [cells_of]. fold nn. unfold reshape. split.
  - intros [H|H]; [rewrite H; reflexivity|]. destruct (Nat.eqb nn 0); [reflexivity|]. apply Nat.eqb_neq in H. rewrite H. reflexivity.
  - intros n Hn HL. apply Nat.eqb_neq in Hn as Hb. rewrite Hb, HL, Nat.mod_mul, Nat.div_mul by exact Hn. cbn [Nat.eqb rbind].
    eexists. split; [reflexivity|]. split; [rewrite map_length; apply chunks_length|]. intros j i Hj Hi.
    set (f := fun row : list Z => _).
    rewrite (nth_indep _ [] (f [])) by (rewrite map_length, chunks_length; exact Hj). rewrite (map_nth f). unfold f.
    pose proof (HP _ (nth_In _ 0%nat Hi)) as Hp.
    set (g := fun p : nat => _). rewrite (nth_indep _ 0%Z (g 0%nat)) by (rewrite map_length; exact Hi). rewrite (map_nth g). unfold g.
    assert (Hr : (nth i (perm nn) 0 < List.length (nth j (chunks nn n tags) []))%nat).
    { clear - Hj Hp HL. revert tags j HL Hj. induction n as [|n IH]; intros tags j HL Hj; [lia|]. cbn [chunks]. destruct j as [|j]; cbn [nth].
      - rewrite firstn_length. nia.
      - apply IH; [rewrite skipn_length; nia|lia]. }
    rewrite (nth_indep _ 0%Z ((fun z => (z - 1)%Z) 0%Z)) by (rewrite map_length; exact Hr).
    rewrite (map_nth (fun z => (z - 1)%Z)). rewrite chunks_nth by assumption. reflexivity.
Qed.
(** The edges marked for refinement: all pairs of vertices of the cells. *)
Theorem C59_edges : forall v07 a m cells e, compute_incident_edges v07 a m cells = Ok e -> forall x y,
  In (x, y) e <-> exists c i j, In c cells /\ (i < j < List.length (nth c (m_cells m) []))%nat /\
                    x = nth i (nth c (m_cells m) []) 0%nat /\ y = nth j (nth c (m_cells m) []) 0%nat.
Proof.
  intros v07 a m cells e H x y.
  assert (He : e = flat_map (fun c => cell_edges (nth c (m_cells m) [])) cells) by (destruct v07, a; cbn in H; congruence).
  rewrite He, in_flat_map. split.
  - intros (c & Hc & K). unfold cell_edges in K. apply in_flat_map in K as (i & Hi & K). apply in_map_iff in K as (j & E & Hj).
    injection E as <- <-. apply in_seq in Hi. apply in_seq in Hj. exists c, i, j. repeat split; try assumption; lia.
  - intros (c & i & j & Hc & Hij & -> & ->). exists c. split; [exact Hc|]. apply in_flat_map. exists i. split; [apply in_seq; lia|].
    apply in_map_iff. exists j. split; [reflexivity|]. apply in_seq. lia.
Qed.
Example C58_nonvacuous : exists x,
  sorted_points (tags [(4%Z, (0, 1, 0)); (1%Z, (0, 0, 0)); (3%Z, (1, 0, 0))]) (flat [(4%Z, (0, 1, 0)); (1%Z, (0, 0, 0)); (3%Z, (1, 0, 0))]) = Ok x /\
  x = [[0; 0]; [1; 0]; [0; 1]].
Proof.
  destruct (C57_refuted [(4%Z, (0, 1, 0)); (1%Z, (0, 0, 0)); (3%Z, (1, 0, 0))]) as [_ H]. destruct H as [x H].
  - intro K. unfold sequential in K. cbn in K.
    assert (J : In 4%Z [1; 2; 3]%Z) by (apply (Permutation_in _ K); cbn; auto). cbn in J. lia.
  - exists x. split; [exact H|]. unfold sorted_points in H. rewrite drop_third_flat, reshape_planar in H. cbn in H. injection H as <-. reflexivity.
Qed.

(** * Runs of the mesh functions *)
(** the commands issued for each geometry *)
Definition cmds_convex : list geo :=
  [Rect 0 0 0 1 1 1; Rect 0.1 0.25 0 0.8 0.75 2; Cut [(2%nat, 1%Z)] [(2%nat, 2%Z)] 3; Rect 0.1 0.25 0 0.8 0.7 4;
   Fragment [(2%nat, 3%Z)] [(2%nat, 4%Z)]; Rect 0.1 0.95 0 0.8 0.05 6; Fragment [(2%nat, 3%Z)] [(2%nat, 4%Z); (2%nat, 6%Z)]].
Definition cmds_nonconvex : list geo :=
  [Rect 0.25 0.05 0 0.5 0.45 1; Rect 0.125 0.05 0 0.75 0.9 2; Rect 0 0 0 1 1 3; Fragment [(2%nat, 3%Z)] [(2%nat, 1%Z); (2%nat, 2%Z)]].
Definition cmds_disc (eta : R) : list geo :=
  [Rect 0 0 0 1 eta 1; Rect 0.1 0.25 0 0.8 (eta - 0.25) 2; Cut [(2%nat, 1%Z)] [(2%nat, 2%Z)] 3;
   Rect 0.1 0.25 0 0.8 (eta - 0.25) 4; Rect 0.1 (eta - 0.25) 0 0.8 (0.95 - (eta - 0.25)) 5; Rect 0 (eta - 0.25) 0 1 (1 - (eta - 0.25)) 6;
   Fragment [(2%nat, 3%Z)] [(2%nat, 4%Z); (2%nat, 5%Z); (2%nat, 6%Z)]].
Definition cmds_around : list geo :=
  [Rect 0 0 0 1 1 1; Rect 0.2 0.2 0 0.6 0.6 2; Cut [(2%nat, 1%Z)] [(2%nat, 2%Z)] 3; Rect 0.2 0.2 0 0.6 0.6 4; Fragment [(2%nat, 3%Z)] [(2%nat, 4%Z)]].

Notation st h g gr me o msh x := (mkG true h g gr me o msh x).

Section Runs.
  Variable auto_tag : list geo -> nat -> Z.
  Variable entities : list geo -> nat -> list Z.
  Variable com : list geo -> ent -> list R.
  Variable fragments : list geo -> list ent.
  Variable msh_file : R -> list geo -> list group -> mio.
  Variable nodes : gstate -> list Z * list R.
  Variable elements : gstate -> list (nat * list Z).
  Variable num_nodes : nat -> nat.
  Variable perm : nat -> list nat.
  Variable build : list (list R) -> list (list nat) -> mesh.
  Variable build_z : list (list R) -> list (list Z) -> res mesh.
  Variable model_mesh : gstate -> mesh.
  Variable refine : mesh -> list (nat * nat) -> mesh.
  Variable refine_uniform : mesh -> mesh.

  (** the groups made by the three loops *)
  Fixpoint numbered (its : Z) (l : list Z) : list group :=
    match l with [] => [] | t :: l' => mkGroup 2 [t] (Some its) :: numbered (its + 1)%Z l' end.
  Definition centred (g : list geo) (c1 c2 : list R) (m1 m2 m3 : Z) : list group :=
    map (fun t => mkGroup 2 [t] (Some (let c := com g (2%nat, t) in if allclose c c1 then m1 else if allclose c c2 then m2 else m3))) (entities g 2).
  Definition outline (g : list geo) : group := mkGroup 1 (filter (fun t => on_square (com g (1%nat, t))) (entities g 1)) (Some 1%Z).

  Fixpoint number_from (its : Z) (l : list ent) : M gstate unit :=
    match l with
    | [] => ret tt
    | e :: l' => do _ <- center_of_mass com e; add_group (mkGroup 2 [snd e] (Some its)) ;; number_from (its + 1)%Z l'
    end.
  Lemma number_from_run l : forall its h g gr me o msh x,
    number_from its (map (fun t => (2%nat, t)) l) (st h g gr me o msh x) = (Ok tt, st h g (gr ++ numbered its l) me o msh x).
  Proof.
    induction l as [|t l IH]; intros; cbn [map number_from numbered].
    - unfold ret. rewrite app_nil_r. reflexivity.
    - erewrite bind_ok by reflexivity. erewrite bind_ok by reflexivity. cbn [g_open g_factor g_geo g_groups g_meshed g_order g_msh g_xdmf].
      rewrite IH, <- app_assoc. reflexivity.
  Qed.
  Lemma number_surfaces_run h g gr me o msh x :
    number_surfaces entities com (st h g gr me o msh x) = (Ok tt, st h g (gr ++ numbered 1 (entities g 2)) me o msh x).
  Proof.
    change (number_surfaces entities com) with (do ss <- get_entities entities 2; number_from 1 ss).
    erewrite bind_ok by reflexivity. apply number_from_run.
  Qed.
  Fixpoint collect (l : list ent) : M gstate (list Z) :=
    match l with
    | [] => ret []
    | e :: l' => do c <- center_of_mass com e; do r <- collect l'; ret (if on_square c then snd e :: r else r)
    end.
  Lemma collect_run l : forall h g gr me o msh x,
    collect (map (fun t => (1%nat, t)) l) (st h g gr me o msh x) =
    (Ok (filter (fun t => on_square (com g (1%nat, t))) l), st h g gr me o msh x).
  Proof.
    induction l as [|t l IH]; intros; cbn [map collect filter]; [reflexivity|].
    erewrite bind_ok by reflexivity. erewrite bind_ok by apply IH. cbn [snd g_geo]. destruct (on_square _); reflexivity.
  Qed.
  Lemma boundary_group_run h g gr me o msh x :
    boundary_group entities com (st h g gr me o msh x) = (Ok tt, st h g (gr ++ [outline g]) me o msh x).
  Proof.
    change (boundary_group entities com) with
      (do ls <- get_entities entities 1; do bnd <- collect ls; add_group (mkGroup 1 bnd (Some 1%Z))).
    erewrite bind_ok by reflexivity. erewrite bind_ok by apply collect_run. reflexivity.
  Qed.
  Lemma mark_surfaces_run c1 c2 m1 m2 m3 h g gr me o msh x :
    mark_surfaces entities com c1 c2 m1 m2 m3 (st h g gr me o msh x) = (Ok tt, st h g (gr ++ centred g c1 c2 m1 m2 m3) me o msh x).
  Proof.
    unfold mark_surfaces. erewrite bind_ok by reflexivity. cbn [g_geo]. unfold centred. revert gr.
    induction (entities g 2) as [|t l IH]; intro gr; cbn [map for_each].
    - rewrite app_nil_r. reflexivity.
    - set (k := mkGroup 2 [t] _). erewrite (bind_ok _ _ _ tt (st h g (gr ++ [k]) me o msh x)).
      + rewrite IH, <- app_assoc. reflexivity.
      + erewrite bind_ok by reflexivity. cbn [g_geo]. unfold k. cbv zeta. cbn [snd].
        destruct (allclose _ c1); [reflexivity|]. destruct (allclose _ c2); reflexivity.
  Qed.

  Definition groups_convex : list group := centred cmds_convex [0.5; 0.6; 0] [0.5; 0.975; 0] 2 3 1 ++ [outline cmds_convex].
  Definition groups_nonconvex : list group := centred cmds_nonconvex [0.5; 0.275; 0] [0.5; 0.5; 0] 1 2 3 ++ [outline cmds_nonconvex].
  Definition groups_plain (g : list geo) : list group := numbered 1 (entities g 2) ++ [outline g].

  Lemma occ_run c h g gr me o msh x : occ c (st h g gr me o msh x) = (Ok tt, st h (g ++ [c]) gr me o msh x).
  Proof. reflexivity. Qed.
  Lemma bind_occ {B} c (f : unit -> M gstate B) h g gr me o msh x :
    bind (occ c) f (st h g gr me o msh x) = f tt (st h (g ++ [c]) gr me o msh x).
  Proof. reflexivity. Qed.
  Lemma geo_convex_run h msh x : geo_convex (st h [] [] false 1 msh x) = (Ok tt, st h cmds_convex [] false 1 msh x).
  Proof. unfold geo_convex. rewrite !bind_occ. cbn [app]. reflexivity. Qed.
  Lemma geo_nonconvex_run h msh x : geo_nonconvex (st h [] [] false 1 msh x) = (Ok tt, st h cmds_nonconvex [] false 1 msh x).
  Proof. unfold geo_nonconvex. rewrite !bind_occ. cbn [app]. reflexivity. Qed.
  Lemma geo_disc_run eta h msh x : geo_fitted_disc eta (st h [] [] false 1 msh x) = (Ok tt, st h (cmds_disc eta) [] false 1 msh x).
  Proof. unfold geo_fitted_disc. cbv zeta. rewrite !bind_occ. cbn [app]. reflexivity. Qed.
  Lemma geo_around_run h msh x : geo_all_around (st h [] [] false 1 msh x) = (Ok tt, st h cmds_around [] false 1 msh x).
  Proof. unfold geo_all_around. rewrite !bind_occ. cbn [app]. reflexivity. Qed.
  Lemma bind_init {B} (f : unit -> M gstate B) s : g_open s = false ->
    bind initialize f s = f tt (st 1 [] [] false 1 (g_msh s) (g_xdmf s)).
  Proof. intro H. unfold bind, initialize. rewrite H. reflexivity. Qed.
  Lemma bind_factor {B} k (f : unit -> M gstate B) h g gr me o msh x :
    bind (set_factor k) f (st h g gr me o msh x) = f tt (st k g gr me o msh x).
  Proof. reflexivity. Qed.
  Lemma bind_model {B} (f : unit -> M gstate B) h g gr me o msh x :
    bind model_add f (st h g gr me o msh x) = f tt (st h [] [] false 1 msh x).
  Proof. reflexivity. Qed.
  Lemma bind_generate {B} (f : unit -> M gstate B) h g gr me o msh x :
    bind generate f (st h g gr me o msh x) = f tt (st h g gr true o msh x).
  Proof. reflexivity. Qed.
  Lemma bind_write {B} (f : unit -> M gstate B) h g gr me o msh x :
    bind (write_msh msh_file) f (st h g gr me o msh x) = f tt (st h g gr me o (Some (msh_file h g gr)) x).
  Proof. reflexivity. Qed.
  Lemma bind_finalize {B} (f : unit -> M gstate B) h g gr me o msh x :
    bind finalize f (st h g gr me o msh x) = f tt (mkG false 1 [] [] false 1 msh x).
  Proof. reflexivity. Qed.
  Lemma bind_assoc {A B C S} (m : M S A) (f : A -> M S B) (k : B -> M S C) s :
    bind (bind m f) k s = bind m (fun a => bind (f a) k) s.
  Proof. unfold bind. destruct (m s) as [[a|e] s']; reflexivity. Qed.
  Lemma bind_ret {A B S} (a : A) (f : A -> M S B) s : bind (ret a) f s = f a s.
  Proof. reflexivity. Qed.

  (** the mesh read from the file written *)
  Definition mesh_of (F : mio) : mesh := build (map (firstn 2) (io_points F)) (io_cells F "triangle"%string).
  Lemma through_run {B} rank remote F (f : mesh -> M gstate B) s :
    (rank = 0%nat -> g_msh s = Some F) -> (rank <> 0%nat -> remote = Some (prune_z F)) ->
    exists s', bind (through_xdmf build rank remote) f s = f (mesh_of F) s' /\ g_open s' = g_open s /\ g_msh s' = g_msh s.
  Proof.
    intros H0 H1. destruct rank as [|r].
    - specialize (H0 eq_refl). destruct s. cbn in H0. subst. eexists. split; [reflexivity|]. split; reflexivity.
    - rewrite (H1 ltac:(discriminate)). exists s. split; [reflexivity|]. split; reflexivity.
  Qed.

  Definition file_convex h := msh_file h cmds_convex groups_convex.
  Definition file_nonconvex h := msh_file h cmds_nonconvex groups_nonconvex.
  Definition file_disc eta h := msh_file h (cmds_disc eta) (groups_plain (cmds_disc eta)).
  Definition file_around h := msh_file h cmds_around (groups_plain cmds_around).

  Lemma close_run v07 a n F rank remote h g gr me o msh x : (rank = 0%nat -> msh = Some F) -> (rank <> 0%nat -> remote = Some (prune_z F)) ->
    exists s', bind finalize (fun _ => bind (through_xdmf build rank remote) (fun m => lift (hierarchy refine v07 a n m))) (st h g gr me o msh x) =
                 (hierarchy refine v07 a n (mesh_of F), s') /\
               g_open s' = false /\ (rank = 0%nat -> g_msh s' = Some F).
  Proof.
    intros H0 H1. rewrite bind_finalize.
    destruct (through_run rank remote F (fun m => lift (hierarchy refine v07 a n m)) (mkG false 1 [] [] false 1 msh x) H0 H1) as [s' [E [E1 E2]]].
    exists s'. split; [exact E|]. split; [exact E1|]. intro K. rewrite E2. exact (H0 K).
  Qed.

  Ltac start s H := rewrite (bind_init _ s H), bind_factor.
  Ltac geometry run := rewrite bind_assoc; erewrite bind_ok by apply run; rewrite ?bind_assoc.
  Ltac step run := erewrite bind_ok by apply run; rewrite ?bind_assoc.
  Ltac others := rewrite bind_ret; apply close_run; [discriminate|assumption].
  Lemma run_hierarchy rank remote v07 n h s : g_open s = false -> (rank <> 0%nat -> remote = Some (prune_z (file_convex h))) ->
    exists s', get_mesh_hierarchy entities com msh_file build refine v07 rank remote n h s = (hierarchy refine v07 AMesh n (mesh_of (file_convex h)), s') /\
               g_open s' = false /\ (rank = 0%nat -> g_msh s' = Some (file_convex h)).
  Proof.
    intros HO HR. unfold get_mesh_hierarchy. start s HO. destruct rank as [|r]; cbn [Nat.eqb]; [|others].
    geometry geo_convex_run. unfold marks_convex. rewrite ?bind_assoc. step mark_surfaces_run. step boundary_group_run. rewrite bind_generate, bind_write.
    apply close_run; [reflexivity|exact HR].
  Qed.
  Lemma run_nonconvex rank remote v07 n h s : g_open s = false -> (rank <> 0%nat -> remote = Some (prune_z (file_nonconvex h))) ->
    exists s', get_mesh_hierarchy_nonconvex entities com msh_file build refine v07 rank remote n h s = (hierarchy refine v07 AMesh n (mesh_of (file_nonconvex h)), s') /\
               g_open s' = false /\ (rank = 0%nat -> g_msh s' = Some (file_nonconvex h)).
  Proof.
    intros HO HR. unfold get_mesh_hierarchy_nonconvex. start s HO. destruct rank as [|r]; cbn [Nat.eqb]; [|others].
    geometry geo_nonconvex_run. step mark_surfaces_run. step boundary_group_run. rewrite bind_generate, bind_write.
    apply close_run; [reflexivity|exact HR].
  Qed.
  Lemma run_around rank remote v07 n h s : g_open s = false -> (rank <> 0%nat -> remote = Some (prune_z (file_around h))) ->
    exists s', get_mesh_data_all_around entities com msh_file build refine v07 rank remote n h s =
                 (hierarchy refine v07 (if v07 then ATopology else AMesh) n (mesh_of (file_around h)), s') /\
               g_open s' = false /\ (rank = 0%nat -> g_msh s' = Some (file_around h)).
  Proof.
    intros HO HR. unfold get_mesh_data_all_around. start s HO. destruct rank as [|r]; cbn [Nat.eqb]; [|others].
    geometry geo_around_run. step number_surfaces_run. step boundary_group_run. rewrite bind_generate, bind_write.
    apply close_run; [reflexivity|exact HR].
  Qed.
  (** fitted_disc: the session stays open on the other ranks *)
  Lemma run_disc rank remote v07 n eta h s : g_open s = false -> (rank <> 0%nat -> remote = Some (prune_z (file_disc eta h))) ->
    exists s', get_mesh_hierarchy_fitted_disc entities com msh_file build refine v07 rank remote n eta h s = (hierarchy refine v07 AMesh n (mesh_of (file_disc eta h)), s') /\
               g_open s' = negb (Nat.eqb rank 0) /\ (rank = 0%nat -> g_msh s' = Some (file_disc eta h)).
  Proof.
    intros HO HR. unfold get_mesh_hierarchy_fitted_disc. start s HO.
    pose (f := fun m => lift (S := gstate) (hierarchy refine v07 AMesh n m)). destruct rank as [|r]; cbn [Nat.eqb].
    - geometry geo_disc_run. step number_surfaces_run. step boundary_group_run. rewrite bind_generate, ?bind_assoc, bind_write, ?bind_assoc, bind_finalize.
      destruct (through_run 0 remote (file_disc eta h) f (mkG false 1 [] [] false 1 (Some (file_disc eta h)) (g_xdmf s)) (fun _ => eq_refl) HR) as [s' [E [E1 E2]]].
      exists s'. split; [exact E|]. split; [exact E1|]. intros _. exact E2.
    - rewrite bind_ret.
      destruct (through_run (S r) remote (file_disc eta h) f (st h [] [] false 1 (g_msh s) (g_xdmf s)) ltac:(discriminate) HR) as [s' [E [E1 E2]]].
      exists s'. split; [exact E|]. split; [exact E1|]. discriminate.
  Qed.
  (** create_initial_mesh_convex: likewise; on the other ranks the state before does not matter *)
  Lemma run_initial rank remote h s : (rank = 0%nat -> g_open s = false) -> (rank <> 0%nat -> remote = Some (prune_z (file_convex h))) ->
    exists s', create_initial_mesh_convex entities com msh_file build rank remote h s = (Ok (mesh_of (file_convex h)), s') /\
               g_open s' = negb (Nat.eqb rank 0) /\ (rank = 0%nat -> g_msh s' = Some (file_convex h)).
  Proof.
    intros HO HR. unfold create_initial_mesh_convex.
    assert (HT : forall s0, (rank = 0%nat -> g_msh s0 = Some (file_convex h)) -> g_open s0 = negb (Nat.eqb rank 0) -> exists s', through_xdmf build rank remote s0 = (Ok (mesh_of (file_convex h)), s') /\
       g_open s' = negb (Nat.eqb rank 0) /\ (rank = 0%nat -> g_msh s' = Some (file_convex h))).
    { intros s0 K KO. destruct (through_run rank remote (file_convex h) ret s0 K HR) as [s' [E [E1 E2]]]. exists s'. split.
      - unfold ret in E. rewrite <- E. unfold bind. destruct (through_xdmf build rank remote s0) as [[?|?] ?]; reflexivity.
      - split; [rewrite E1; exact KO|]. intro Z. rewrite E2. exact (K Z). }
    destruct rank as [|r]; cbn [Nat.eqb].
    - start s (HO eq_refl). geometry geo_convex_run. unfold marks_convex. rewrite ?bind_assoc. step mark_surfaces_run. step boundary_group_run.
      rewrite bind_generate, ?bind_assoc, bind_write, ?bind_assoc, bind_finalize. apply HT; reflexivity.
    - unfold bind at 1. unfold initialize.
      assert (exists h0 g gr me o msh x, (if g_open s then s else st 1 [] [] false 1 (g_msh s) (g_xdmf s)) = st h0 g gr me o msh x) as (h0 & g & gr & me & o & msh & x & ->).
      { destruct s as [[|] ? ? ? ? ? ? ?]; repeat eexists. }
      rewrite bind_factor, bind_ret. apply HT; [discriminate|reflexivity].
  Qed.
  Lemma bind_auto {B} a b c d e (f : Z -> M gstate B) h g gr me o msh x :
    bind (add_rectangle_auto auto_tag a b c d e) f (st h g gr me o msh x) =
    f (auto_tag g 2) (st h (g ++ [Rect a b c d e (auto_tag g 2)]) gr me o msh x).
  Proof. reflexivity. Qed.
  Lemma bind_sync {B} (f : unit -> M gstate B) h g gr me o msh x :
    bind synchronize f (st h g gr me o msh x) = f tt (st h g gr me o msh x).
  Proof. reflexivity. Qed.
  Lemma sync_run h g gr me o msh x : synchronize (st h g gr me o msh x) = (Ok tt, st h g gr me o msh x).
  Proof. reflexivity. Qed.

  (** the commands of the inclusion geometries: tags t1, t2, .. chosen by gmsh *)
  Definition cmds_inclusion : list geo :=
    let g1 := [Rect (-1.5) (-1.5) 0 3 3 1; Rect (-1.25) (-1.25) 0 2.5 2.75 2; Cut [(2%nat, 1%Z)] [(2%nat, 2%Z)] 3] in
    let t1 := auto_tag g1 2 in
    let g2 := g1 ++ [Rect (-0.5) (-0.5) 0 1 1 t1; Disk 0 0 0 1 1 2] in
    let t2 := auto_tag g2 2 in
    g2 ++ [Rect (-1.25) (-1.25) 0 2.5 2.75 t2; Fragment [(2%nat, 3%Z)] [(2%nat, t1); (2%nat, 2%Z); (2%nat, t2)]].
  Definition cmds_square (x_l x_r y_l y_r eta : R) : list geo :=
    let g1 := [Rect (-1.5) (-1.5) 0 3 (1.5 + eta) 1; Rect (-1.25) (-1.25) 0 2.5 (1.15 + eta) 2; Cut [(2%nat, 1%Z)] [(2%nat, 2%Z)] 3] in
    let t1 := auto_tag g1 2 in
    if Rlt_dec eta 1.5 then
      let g2 := g1 ++ [Rect x_l y_l 0 (x_r - x_l) (eta - y_l) t1] in let t2 := auto_tag g2 2 in
      let g3 := g2 ++ [Rect x_l eta 0 (x_r - x_l) (y_r - eta) t2] in let t3 := auto_tag g3 2 in
      let g4 := g3 ++ [Rect (-0.75) (-0.75) 0 1.5 1.5 t3] in let t4 := auto_tag g4 2 in
      g4 ++ [Rect (-1.5) eta 0 3 (1.5 - eta) t4; Fragment [(2%nat, 3%Z)] [(2%nat, t1); (2%nat, t3); (2%nat, t2); (2%nat, t4)]]
    else
      let g2 := g1 ++ [Rect x_l y_l 0 (x_r - x_l) (y_r - y_l) t1] in let t2 := auto_tag g2 2 in
      let g3 := g2 ++ [Rect (-0.75) (-0.75) 0 1.5 1.5 t2] in let t3 := auto_tag g3 2 in
      g3 ++ [Rect (-1.25) (-1.25) 0 2.5 2.75 t3; Fragment [(2%nat, 3%Z)] [(2%nat, t1); (2%nat, t2); (2%nat, t3)]].
  Definition cmds_bottom (eta : R) : list geo :=
    [Rect 0 0 0 1 0.25 1; Rect 0 0.25 0 0.25 (eta - 0.25) 2; Rect 0.75 0.25 0 0.25 (eta - 0.25) 3; Rect 0.25 0.25 0 0.5 (eta - 0.25) 4;
     Rect 0.25 eta 0 0.5 (0.9 - eta) 5; Rect 0 eta 0 0.25 (1 - eta) 6; Rect 0.25 eta 0 0.5 (1 - eta) 7; Rect 0.75 eta 0 0.25 (1 - eta) 8;
     Fragment [(2%nat, 1%Z)] [(2%nat, 4%Z); (2%nat, 2%Z); (2%nat, 3%Z); (2%nat, 5%Z); (2%nat, 6%Z); (2%nat, 7%Z); (2%nat, 8%Z)]].
  Lemma geo_inclusion_run h msh x : geo_inclusion auto_tag (st h [] [] false 1 msh x) = (Ok tt, st h cmds_inclusion [] false 1 msh x).
  Proof. unfold geo_inclusion. rewrite !bind_occ, bind_auto, bind_occ, bind_sync, bind_auto, bind_occ, sync_run. cbn [app]. reflexivity. Qed.
  Lemma geo_square_run a b c d eta h msh x :
    geo_inclusion_square auto_tag a b c d eta (st h [] [] false 1 msh x) = (Ok tt, st h (cmds_square a b c d eta) [] false 1 msh x).
  Proof.
    unfold geo_inclusion_square, cmds_square. rewrite !bind_occ. cbn [app]. destruct (Rlt_dec eta 1.5).
    - rewrite bind_assoc, bind_auto, bind_assoc, bind_auto, bind_assoc, bind_auto, bind_assoc, bind_auto, bind_assoc, bind_sync, bind_assoc, bind_occ, bind_sync, sync_run. cbn [app]. reflexivity.
    - rewrite bind_assoc, bind_auto, bind_assoc, bind_auto, bind_assoc, bind_auto, bind_assoc, bind_sync, bind_occ, sync_run. cbn [app]. reflexivity.
  Qed.
  Lemma geo_bottom_run eta h msh x : geo_bottom eta (st h [] [] false 1 msh x) = (Ok tt, st h (cmds_bottom eta) [] false 1 msh x).
  Proof. unfold geo_bottom. rewrite !bind_occ. rewrite bind_sync, bind_occ, sync_run. cbn [app]. reflexivity. Qed.

  (** the state in which the three functions ask gmsh for the nodes *)
  Definition asked (rank : nat) (h : R) (g : list geo) (gr : list group) (order : nat) (s : gstate) : gstate :=
    if Nat.eqb rank 0 then st h g gr true order (Some (msh_file h g gr)) (g_xdmf s) else st h [] [] false order (g_msh s) (g_xdmf s).
  Notation fromn := (from_nodes nodes elements num_nodes perm build_z).
  (** the same, after the nodes have been asked for *)
  Definition finish (undef : bool) (s1 : gstate) : res mesh * gstate :=
    match sorted_points (fst (nodes s1)) (snd (nodes s1)) with
    | Err e => (Err e, s1)
    | Ok x => match cells_of num_nodes perm (elements s1) with
              | Err e => (Err e, s1)
              | Ok c => (if undef then Err NameError else build_z x c, closed s1)
              end
    end.
  Lemma from_nodes_run order undef h g gr me msh x : fromn order undef (st h g gr me 1 msh x) = finish undef (st h g gr me order msh x).
  Proof.
    unfold from_nodes, finish. erewrite (bind_ok (set_order order)) by reflexivity. erewrite bind_ok by reflexivity.
    cbn [g_open g_factor g_geo g_groups g_meshed g_order g_msh g_xdmf].
    destruct (sorted_points _ _) as [pts|e]; [|reflexivity]. erewrite bind_lift_ok by reflexivity. erewrite bind_ok by reflexivity.
    destruct (cells_of _ _ _) as [c|e]; [|reflexivity]. erewrite bind_lift_ok by reflexivity. rewrite bind_finalize.
    destruct undef; reflexivity.
  Qed.
  Lemma run_inclusion rank h order s : g_open s = false ->
    get_mesh_inclusion auto_tag entities com msh_file nodes elements num_nodes perm build_z rank h order s =
    finish false (asked rank h cmds_inclusion (groups_plain cmds_inclusion) order s).
  Proof.
    intro HO. unfold get_mesh_inclusion. rewrite (bind_init _ s HO), bind_model, bind_factor. unfold asked. destruct rank as [|r]; cbn [Nat.eqb].
    - geometry geo_inclusion_run. step number_surfaces_run. step boundary_group_run. rewrite bind_generate, ?bind_assoc, bind_write.
      apply from_nodes_run.
    - rewrite bind_ret. apply from_nodes_run.
  Qed.
  Lemma run_square rank h a b c d eta s : g_open s = false ->
    get_mesh_inclusion_square auto_tag entities com msh_file nodes elements num_nodes perm build_z rank h a b c d eta s =
    finish true (asked rank h (cmds_square a b c d eta) (groups_plain (cmds_square a b c d eta)) 1 s).
  Proof.
    intro HO. unfold get_mesh_inclusion_square. rewrite (bind_init _ s HO), bind_model, bind_factor. unfold asked. destruct rank as [|r]; cbn [Nat.eqb].
    - geometry geo_square_run. step number_surfaces_run. step boundary_group_run. rewrite bind_generate, ?bind_assoc, bind_write.
      apply from_nodes_run.
    - rewrite bind_ret. apply from_nodes_run.
  Qed.
  Lemma run_bottom rank h eta s : g_open s = false ->
    get_mesh_bottom_data entities com msh_file nodes elements num_nodes perm build_z rank h eta s =
    finish false (asked rank h (cmds_bottom eta) (numbered 1 (entities (cmds_bottom eta) 2)) 1 s).
  Proof.
    intro HO. unfold get_mesh_bottom_data. rewrite (bind_init _ s HO), bind_model, bind_factor. unfold asked. destruct rank as [|r]; cbn [Nat.eqb].
    - geometry geo_bottom_run. step number_surfaces_run. rewrite bind_generate, ?bind_assoc, bind_write.
      apply from_nodes_run.
    - rewrite bind_ret. apply from_nodes_run.
  Qed.

  (** * C56, C59: the hierarchies *)
  Definition d0 : mesh := mkMesh [] [].
  (** the edges of all cells of a mesh *)
  Definition all_edges (m : mesh) : list (nat * nat) := flat_map cell_edges (m_cells m).
  (** the edges of the cells whose vertices all have x >= 0 *)
  Definition right_edges (m : mesh) : list (nat * nat) :=
    flat_map cell_edges (filter (fun c => forallb (fun v => refine_all (nth v (m_pts m) [])) c) (m_cells m)).
  (** n + 1 meshes, the first m, each next one the refinement of the previous *)
  Definition refined (n : nat) (m : mesh) (ms : list mesh) : Prop :=
    List.length ms = S n /\ nth 0 ms d0 = m /\ (forall i, (i < n)%nat -> nth (S i) ms d0 = refine (nth i ms d0) (right_edges (nth i ms d0))).

  Lemma located_edges m : flat_map (fun c => cell_edges (nth c (m_cells m) [])) (locate_cells m refine_all) = right_edges m.
  Proof.
    unfold locate_cells, right_edges. set (P := fun c : list nat => forallb (fun v => refine_all (nth v (m_pts m) [])) c).
    change (flat_map (fun c => cell_edges (nth c (m_cells m) [])) (filter (fun c => P (nth c (m_cells m) [])) (seq 0 (List.length (m_cells m)))) = flat_map cell_edges (filter P (m_cells m))).
    assert (G : forall sq, flat_map (fun c => cell_edges (nth c (m_cells m) [])) (filter (fun c => P (nth c (m_cells m) [])) sq) =
                           flat_map cell_edges (filter P (map (fun c => nth c (m_cells m) []) sq))).
    { induction sq as [|c sq IH]; [reflexivity|]. cbn [filter map]. destruct (P _); cbn [flat_map]; rewrite IH; reflexivity. }
    rewrite G, map_nth_seq. reflexivity.
  Qed.
  Definition suits (v07 : bool) (a : first_arg) : Prop := match v07, a with false, AMesh | true, ATopology => True | _, _ => False end.
  Lemma hierarchy_ok v07 a n : suits v07 a -> forall m, exists ms, hierarchy refine v07 a n m = Ok ms /\ refined n m ms.
  Proof.
    intro HS.
    assert (HC : forall m cells, compute_incident_edges v07 a m cells = Ok (flat_map (fun c => cell_edges (nth c (m_cells m) [])) cells)).
    { intros. destruct v07, a; try contradiction; reflexivity. }
    unfold hierarchy. induction n as [|n IH]; intro m.
    - exists [m]. cbn. split; [reflexivity|]. split; [reflexivity|]. split; [reflexivity|]. intros i Hi. lia.
    - cbn [refinements]. rewrite HC, located_edges. cbn [rbind]. destruct (IH (refine m (right_edges m))) as [ms [E [EL [E0 EI]]]].
      destruct (refinements refine v07 a n (refine m (right_edges m))) as [l|e]; [|discriminate]. cbn [rbind] in *. injection E as <-.
      exists (m :: refine m (right_edges m) :: l). split; [reflexivity|]. split; [cbn [List.length] in *; lia|]. split; [reflexivity|].
      intros [|i] Hi; [reflexivity|]. apply (EI i). lia.
  Qed.
  Lemma hierarchy_bad n m : hierarchy refine true AMesh (S n) m = Err TypeError.
  Proof. reflexivity. Qed.

  (** All ranks get the same n + 1 meshes from a closed session, up to dolfinx 0.6;
      get_mesh_data_all_around also with dolfinx 0.7. *)
  Theorem C56_partial : forall rank remote n h s, g_open s = false ->
    ((rank <> 0%nat -> remote = Some (prune_z (file_convex h))) ->
     exists ms s', get_mesh_hierarchy entities com msh_file build refine false rank remote n h s = (Ok ms, s') /\ refined n (mesh_of (file_convex h)) ms) /\
    ((rank <> 0%nat -> remote = Some (prune_z (file_nonconvex h))) ->
     exists ms s', get_mesh_hierarchy_nonconvex entities com msh_file build refine false rank remote n h s = (Ok ms, s') /\ refined n (mesh_of (file_nonconvex h)) ms) /\
    (forall eta, (rank <> 0%nat -> remote = Some (prune_z (file_disc eta h))) ->
     exists ms s', get_mesh_hierarchy_fitted_disc entities com msh_file build refine false rank remote n eta h s = (Ok ms, s') /\ refined n (mesh_of (file_disc eta h)) ms) /\
    (forall v07, (rank <> 0%nat -> remote = Some (prune_z (file_around h))) ->
     exists ms s', get_mesh_data_all_around entities com msh_file build refine v07 rank remote n h s = (Ok ms, s') /\ refined n (mesh_of (file_around h)) ms).
  Proof.
    intros rank remote n h s HO. split; [|split; [|split]].
    - intro HR. destruct (run_hierarchy rank remote false n h s HO HR) as [s' [E _]]. destruct (hierarchy_ok false AMesh n Logic.I (mesh_of (file_convex h))) as [ms [E2 HF]].
      exists ms, s'. rewrite E, E2. split; [reflexivity|exact HF].
    - intro HR. destruct (run_nonconvex rank remote false n h s HO HR) as [s' [E _]]. destruct (hierarchy_ok false AMesh n Logic.I (mesh_of (file_nonconvex h))) as [ms [E2 HF]].
      exists ms, s'. rewrite E, E2. split; [reflexivity|exact HF].
    - intros eta HR. destruct (run_disc rank remote false n eta h s HO HR) as [s' [E _]]. destruct (hierarchy_ok false AMesh n Logic.I (mesh_of (file_disc eta h))) as [ms [E2 HF]].
      exists ms, s'. rewrite E, E2. split; [reflexivity|exact HF].
    - intros v07 HR. destruct (run_around rank remote v07 n h s HO HR) as [s' [E _]].
      destruct (hierarchy_ok v07 (if v07 then ATopology else AMesh) n ltac:(destruct v07; exact Logic.I) (mesh_of (file_around h))) as [ms [E2 HF]].
      exists ms, s'. rewrite E, E2. split; [reflexivity|exact HF].
  Qed.
  (** With dolfinx 0.7 the first three fail as soon as one refinement is asked for: they
      pass the mesh where its topology is expected. *)
  Theorem C56_refuted : forall rank remote n h s, g_open s = false ->
    ((rank <> 0%nat -> remote = Some (prune_z (file_convex h))) ->
     exists s', get_mesh_hierarchy entities com msh_file build refine true rank remote (S n) h s = (Err TypeError, s')) /\
    ((rank <> 0%nat -> remote = Some (prune_z (file_nonconvex h))) ->
     exists s', get_mesh_hierarchy_nonconvex entities com msh_file build refine true rank remote (S n) h s = (Err TypeError, s')) /\
    (forall eta, (rank <> 0%nat -> remote = Some (prune_z (file_disc eta h))) ->
     exists s', get_mesh_hierarchy_fitted_disc entities com msh_file build refine true rank remote (S n) eta h s = (Err TypeError, s')).
  Proof.
    intros rank remote n h s HO. split; [|split].
    - intro HR. destruct (run_hierarchy rank remote true (S n) h s HO HR) as [s' [E _]]. exists s'. rewrite E, hierarchy_bad. reflexivity.
    - intro HR. destruct (run_nonconvex rank remote true (S n) h s HO HR) as [s' [E _]]. exists s'. rewrite E, hierarchy_bad. reflexivity.
    - intros eta HR. destruct (run_disc rank remote true (S n) eta h s HO HR) as [s' [E _]]. exists s'. rewrite E, hierarchy_bad. reflexivity.
  Qed.
  (** get_mesh_convex: n meshes, the j-th generated with scale h / 2^j; all ranks *)
  Theorem C56_convex : forall rank remote n h s, (rank = 0%nat -> g_open s = false) ->
    (rank <> 0%nat -> forall j, (j < n)%nat -> remote j = Some (prune_z (file_convex (h / 2 ^ j)))) ->
    exists s', get_mesh_convex entities com msh_file build rank remote n h s = (Ok (map (fun j => mesh_of (file_convex (h / 2 ^ j))) (seq 0 n)), s').
  Proof.
    intros rank remote n h s HO HR. unfold get_mesh_convex.
    assert (G : forall n j s, (rank = 0%nat -> g_open s = false) -> (rank <> 0%nat -> forall i, (j <= i < j + n)%nat -> remote i = Some (prune_z (file_convex (h / 2 ^ i)))) ->
      exists s', mesh_convex_from entities com msh_file build rank remote j n h s = (Ok (map (fun j => mesh_of (file_convex (h / 2 ^ j))) (seq j n)), s')).
    { clear. induction n as [|n IH]; intros j s HO HR; cbn [mesh_convex_from seq map]; [exists s; reflexivity|].
      destruct (run_initial rank (remote j) (h / 2 ^ j) s HO) as [s1 [E1 [E2 _]]]; [intro K; apply HR; [exact K|lia]|].
      erewrite bind_ok by exact E1.
      destruct (IH (S j) s1) as [s2 E3]; [intros ->; exact E2|intros K i Hi; apply HR; [exact K|lia]|].
      erewrite bind_ok by exact E3. exists s2. reflexivity. }
    apply (G n 0%nat s HO). intros K j Hj. apply HR; [exact K|lia].
  Qed.
  (** the three-dimensional hierarchy: on every rank, n + 1 meshes, uniformly refined; the
      session is still open at the end *)
  Definition cmds_3d : list geo :=
    [Box 0 0 0 1 1 1 1; Box 0.2 0.2 0.2 0.6 0.6 0.6 2; Cut [(3%nat, 1%Z)] [(3%nat, 2%Z)] 3; Box 0.2 0.2 0.2 0.6 0.6 0.6 4;
     Fragment [(3%nat, 3%Z)] [(3%nat, 4%Z)]; Fragment [(2%nat, 3%Z)] [(2%nat, 4%Z)]].
  Theorem C56_3d : forall n h s, exists s',
    get_3d_mesh_data_all_around entities com fragments model_mesh refine_uniform n h s =
      (Ok (map (fun i => Nat.iter i refine_uniform (model_mesh s')) (seq 0 (S n))), s') /\
    g_open s' = true /\ g_meshed s' = true /\ g_factor s' = h /\ g_geo s' = (if g_open s then g_geo s else []) ++ cmds_3d.
  Proof.
    intros n h s. unfold get_3d_mesh_data_all_around. unfold bind at 1. unfold initialize.
    assert (exists h0 g gr me o msh x, (if g_open s then s else st 1 [] [] false 1 (g_msh s) (g_xdmf s)) = st h0 g gr me o msh x /\ g = (if g_open s then g_geo s else []))
      as (h0 & g & gr & me & o & msh & x & -> & Eg).
    { destruct s as [[|] ? ? ? ? ? ? ?]; repeat eexists. }
    rewrite <- Eg. clear Eg.
    rewrite bind_factor, !bind_occ, bind_get. cbv zeta. rewrite bind_sync.
    assert (G : forall (ov : list ent) gr g, exists gr', for_each ov (fun e => add_group (mkGroup 3 [snd e] None)) (st h g gr me o msh x) = (Ok tt, st h g gr' me o msh x)).
    { induction ov as [|e ov IH]; intros; cbn [for_each]; [eexists; reflexivity|]. erewrite bind_ok by reflexivity. apply IH. }
    edestruct G as [gr' E]. erewrite bind_ok by exact E. erewrite bind_ok by apply number_surfaces_run. rewrite bind_generate, bind_get.
    match goal with |- context [model_mesh ?y] => exists y end.
    split; [|split; [reflexivity|split; [reflexivity|split; [reflexivity|]]]].
    2: { cbn [g_geo]. unfold cmds_3d. rewrite <- !app_assoc. reflexivity. }
    unfold ret. f_equal. f_equal. cbn [seq map]. f_equal.
    match goal with |- context [model_mesh ?y] => generalize (model_mesh y) end.
    intro m. clear. revert m. rewrite <- seq_shift. induction n as [|n IH]; intro m; [reflexivity|].
    cbn [seq map]. f_equal. rewrite IH. rewrite <- seq_shift, !map_map. apply map_ext. intro i. clear. cbn [Nat.iter nat_rect].
    induction i as [|i IH]; [reflexivity|]. cbn [nat_rect Nat.iter] in *. f_equal. exact IH.
  Qed.

  (** If no vertex lies left of x = 0, the edges refined are those of all cells; and if
      refinement only adds midpoints of vertices, this holds in the whole hierarchy. *)
  Definition right_of_zero (m : mesh) : Prop := forall p, In p (m_pts m) -> 0 <= nth 0 p 0.
  Lemma right_all m : right_of_zero m -> right_edges m = all_edges m.
  Proof.
    intro H. unfold right_edges, all_edges. f_equal. rewrite (filter_ext _ (fun _ => true)).
    - induction (m_cells m) as [|c l IH]; [reflexivity|]. cbn. f_equal. exact IH.
    - intro c. apply forallb_forall. intros v _. unfold refine_all. destruct (Rle_dec _ _) as [?|K]; [reflexivity|]. exfalso. apply K.
      destruct (nth_in_or_default v (m_pts m) []) as [J| ->]; [exact (H _ J)|cbn; lra].
  Qed.
  Definition midpoints_only : Prop := forall m e p, In p (m_pts (refine m e)) ->
    In p (m_pts m) \/ exists a b, In a (m_pts m) /\ In b (m_pts m) /\ nth 0 p 0 = (nth 0 a 0 + nth 0 b 0) / 2.
  Theorem C59 : forall n m ms, midpoints_only -> right_of_zero m -> refined n m ms ->
    forall i, (i < n)%nat -> nth (S i) ms d0 = refine (nth i ms d0) (all_edges (nth i ms d0)).
  Proof.
    intros n m ms HM H0 [_ [E0 EI]].
    assert (HR : forall i, (i <= n)%nat -> right_of_zero (nth i ms d0)).
    { induction i as [|i IH]; intro Hi; [rewrite E0; exact H0|]. rewrite (EI i) by lia. intros p Hp.
      specialize (IH ltac:(lia)). destruct (HM _ _ _ Hp) as [K|(a & b & Ka & Kb & ->)]; [exact (IH p K)|].
      specialize (IH a Ka) as Ia. specialize (IH b Kb) as Ib. lra. }
    intros i Hi. rewrite (EI i Hi), right_all; [reflexivity|]. apply HR. lia.
  Qed.

  (** * C57 for the three functions; C60: the session at the end *)
  Notation inclusion := (get_mesh_inclusion auto_tag entities com msh_file nodes elements num_nodes perm build_z).
  Notation square := (get_mesh_inclusion_square auto_tag entities com msh_file nodes elements num_nodes perm build_z).
  Notation bottom := (get_mesh_bottom_data entities com msh_file nodes elements num_nodes perm build_z).
  Lemma finish_bad undef s1 l : nodes s1 = (tags l, flat l) -> sequential (tags l) -> finish undef s1 = (Err RuntimeError, s1).
  Proof. intros E HS. unfold finish. rewrite E. cbn [fst snd]. apply C57_refuted in HS. rewrite HS. reflexivity. Qed.
  Lemma asked_open rank h g gr order s : g_open (asked rank h g gr order s) = true.
  Proof. unfold asked. destruct (Nat.eqb rank 0); reflexivity. Qed.
  Lemma asked_empty rank h g gr order s : rank <> 0%nat -> g_meshed (asked rank h g gr order s) = false.
  Proof. intro H. unfold asked. destruct rank; [contradiction|reflexivity]. Qed.
  (** gmsh numbers the nodes 1 .. n: the three functions fail, and leave gmsh open *)
  Theorem C57_functions_refuted : forall rank h s, g_open s = false ->
    (forall s1, g_open s1 = true -> exists l, nodes s1 = (tags l, flat l) /\ sequential (tags l)) ->
    (forall order, exists s', inclusion rank h order s = (Err RuntimeError, s') /\ g_open s' = true) /\
    (forall a b c d eta, exists s', square rank h a b c d eta s = (Err RuntimeError, s') /\ g_open s' = true) /\
    (forall eta, exists s', bottom rank h eta s = (Err RuntimeError, s') /\ g_open s' = true).
  Proof.
    intros rank h s HO HN. split; [|split]; intros; [rewrite run_inclusion by exact HO|rewrite run_square by exact HO|rewrite run_bottom by exact HO];
      match goal with |- context [finish ?u ?a] => assert (K : g_open a = true) by apply asked_open; destruct (HN a K) as [l [E HS]]; exists a;
        rewrite (finish_bad u a l E HS); split; [reflexivity|exact K] end.
  Qed.
  (** on all ranks but the first there are no nodes, and the functions always fail *)
  Theorem C57_other_ranks_refuted : forall rank h s, g_open s = false -> rank <> 0%nat ->
    (forall s1, g_meshed s1 = false -> nodes s1 = ([], [])) ->
    (forall order, fst (inclusion rank h order s) = Err RuntimeError) /\
    (forall a b c d eta, fst (square rank h a b c d eta s) = Err RuntimeError) /\
    (forall eta, fst (bottom rank h eta s) = Err RuntimeError).
  Proof.
    intros rank h s HO HR HN. split; [|split]; intros; [rewrite run_inclusion by exact HO|rewrite run_square by exact HO|rewrite run_bottom by exact HO];
      (rewrite (finish_bad _ _ []); [reflexivity|apply HN, asked_empty, HR|unfold sequential; cbn; constructor]).
  Qed.
  (** where get_mesh_inclusion_square gets past the check, it refers to an unknown name *)
  Theorem C57_square_never_returns : forall rank h a b c d eta s, g_open s = false -> exists e, fst (square rank h a b c d eta s) = Err e.
  Proof.
    intros. rewrite run_square by assumption. unfold finish. destruct (sorted_points _ _); [|eexists; reflexivity].
    destruct (cells_of _ _ _); eexists; reflexivity.
  Qed.
  (** what the other two return for other numberings: cells renumbered from 0 and permuted,
      points sorted; then gmsh is closed *)
  Theorem C58_functions : forall rank h s m s', g_open s = false ->
    (forall order, inclusion rank h order s = (Ok m, s') -> exists s1 x c, sorted_points (fst (nodes s1)) (snd (nodes s1)) = Ok x /\
       cells_of num_nodes perm (elements s1) = Ok c /\ build_z x c = Ok m /\ g_open s' = false /\ g_order s1 = order /\ g_factor s1 = h /\ (rank = 0%nat -> g_geo s1 = cmds_inclusion)) /\
    (forall eta, bottom rank h eta s = (Ok m, s') -> exists s1 x c, sorted_points (fst (nodes s1)) (snd (nodes s1)) = Ok x /\
       cells_of num_nodes perm (elements s1) = Ok c /\ build_z x c = Ok m /\ g_open s' = false /\ g_order s1 = 1%nat /\ g_factor s1 = h /\ (rank = 0%nat -> g_geo s1 = cmds_bottom eta)).
  Proof.
    intros rank h s m s' HO. split; intros p H; [rewrite run_inclusion in H by exact HO|rewrite run_bottom in H by exact HO];
      (unfold finish in H; match type of H with context [sorted_points (fst (nodes ?a)) _] => exists a end;
       destruct (sorted_points _ _) as [x|]; [|discriminate]; destruct (cells_of _ _ _) as [c|]; [|discriminate];
       exists x, c; injection H as H <-; split; [reflexivity|]; split; [reflexivity|]; split; [exact H|]; split; [reflexivity|];
       unfold asked; destruct rank; cbn; split; [reflexivity|split;[reflexivity|intro K; (reflexivity || discriminate K)]|reflexivity|split;[reflexivity|intro K; (reflexivity || discriminate K)]]).
  Qed.

  Lemma through_open {B} rank remote (f : mesh -> res B) s :
    g_open (snd (bind (through_xdmf build rank remote) (fun m => lift (f m)) s)) = g_open s.
  Proof.
    unfold through_xdmf. rewrite bind_assoc. destruct rank as [|r]; cbn [Nat.eqb].
    - destruct (g_msh s) as [F|] eqn:E.
      + destruct s. cbn in E. subst. reflexivity.
      + unfold bind, get. rewrite E. reflexivity.
    - rewrite bind_ret. destruct remote as [F|]; reflexivity.
  Qed.
  (** get_mesh_hierarchy, get_mesh_hierarchy_nonconvex and get_mesh_data_all_around close
      gmsh on every rank, whatever happens afterwards *)
  Theorem C60_partial : forall rank remote v07 n h s, g_open s = false ->
    g_open (snd (get_mesh_hierarchy entities com msh_file build refine v07 rank remote n h s)) = false /\
    g_open (snd (get_mesh_hierarchy_nonconvex entities com msh_file build refine v07 rank remote n h s)) = false /\
    g_open (snd (get_mesh_data_all_around entities com msh_file build refine v07 rank remote n h s)) = false.
  Proof.
    intros rank remote v07 n h s HO. split; [|split].
    - unfold get_mesh_hierarchy. start s HO. destruct rank as [|r]; cbn [Nat.eqb].
      + geometry geo_convex_run. unfold marks_convex. rewrite ?bind_assoc. step mark_surfaces_run. step boundary_group_run. rewrite bind_generate, bind_write, bind_finalize. apply through_open.
      + rewrite bind_ret, bind_finalize. apply through_open.
    - unfold get_mesh_hierarchy_nonconvex. start s HO. destruct rank as [|r]; cbn [Nat.eqb].
      + geometry geo_nonconvex_run. step mark_surfaces_run. step boundary_group_run. rewrite bind_generate, bind_write, bind_finalize. apply through_open.
      + rewrite bind_ret, bind_finalize. apply through_open.
    - unfold get_mesh_data_all_around. start s HO. destruct rank as [|r]; cbn [Nat.eqb].
      + geometry geo_around_run. step number_surfaces_run. step boundary_group_run. rewrite bind_generate, bind_write, bind_finalize. apply through_open.
      + rewrite bind_ret, bind_finalize. apply through_open.
  Qed.
  (** create_initial_mesh_convex (so get_mesh_convex) and get_mesh_hierarchy_fitted_disc
      close gmsh on rank 0 only, the three-dimensional function nowhere *)
  Theorem C60_refuted : forall rank remote v07 n h s, g_open s = false -> rank <> 0%nat ->
    (remote = Some (prune_z (file_convex h)) -> g_open (snd (create_initial_mesh_convex entities com msh_file build rank remote h s)) = true) /\
    (forall eta, remote = Some (prune_z (file_disc eta h)) ->
       g_open (snd (get_mesh_hierarchy_fitted_disc entities com msh_file build refine v07 rank remote n eta h s)) = true).
  Proof.
    intros rank remote v07 n h s HO HR. split.
    - intro E. destruct (run_initial rank remote h s (fun _ => HO) (fun _ => E)) as [s' [E1 [E2 _]]]. rewrite E1. cbn [snd]. rewrite E2.
      destruct rank; [contradiction|reflexivity].
    - intros eta E. destruct (run_disc rank remote v07 n eta h s HO (fun _ => E)) as [s' [E1 [E2 _]]]. rewrite E1. cbn [snd]. rewrite E2.
      destruct rank; [contradiction|reflexivity].
  Qed.
  Theorem C60_3d_refuted : forall n h s,
    g_open (snd (get_3d_mesh_data_all_around entities com fragments model_mesh refine_uniform n h s)) = true.
  Proof. intros n h s. destruct (C56_3d n h s) as [s' [E [HO _]]]. rewrite E. exact HO. Qed.
  (** consequence: after the three-dimensional function the next mesh on rank 0 is
      generated from both geometries together *)
  Theorem C60_3d_consequence : forall remote h k n s, g_open s = false ->
    exists gr, g_msh (snd (create_initial_mesh_convex entities com msh_file build 0 remote h
                            (snd (get_3d_mesh_data_all_around entities com fragments model_mesh refine_uniform n k s)))) =
               Some (msh_file h (cmds_3d ++ cmds_convex) gr).
  Proof.
    intros remote h k n s HO. destruct (C56_3d n k s) as [s' [E [HO' [_ [_ HG]]]]]. rewrite E. cbn [snd]. rewrite HO in HG. cbn [app] in HG.
    unfold create_initial_mesh_convex. unfold bind at 1. unfold initialize. rewrite HO'. destruct s' as [op f g gr me o msh x]. cbn in HO', HG. subst.
    rewrite bind_factor. cbn [Nat.eqb]. rewrite bind_assoc. unfold geo_convex. rewrite !bind_assoc.
    rewrite bind_occ, bind_assoc, bind_occ, bind_assoc, bind_occ, bind_assoc, bind_occ, bind_assoc, bind_occ, bind_assoc, bind_occ, bind_assoc, bind_occ, bind_sync.
    unfold marks_convex. rewrite ?bind_assoc. step mark_surfaces_run. step boundary_group_run. rewrite bind_generate, ?bind_assoc, bind_write, ?bind_assoc, bind_finalize.
    rewrite <- !app_assoc. eexists. reflexivity.
  Qed.

  (** * C61: the markers *)
  (** the markers of the groups of dimension d that contain entity t *)
  Definition markers (d : nat) (gs : list group) (t : Z) : list (option Z) :=
    map gr_marker (filter (fun g => Nat.eqb (gr_dim g) d && existsb (Z.eqb t) (gr_tags g)) gs).
  Definition boundary_lines (gs : list group) : list Z := flat_map gr_tags (filter (fun g => Nat.eqb (gr_dim g) 1) gs).
  (** the tolerance of np.isclose: a within 1e-8 + 1e-5 |b| of b *)
  Definition near (a b : R) : Prop := Rabs (a - b) <= 1e-8 + 1e-5 * Rabs b.
  Lemma isclose_iff a b : isclose a b = true <-> near a b.
  Proof. unfold isclose, near. destruct (Rle_dec _ _) as [K|K]; split; auto; discriminate. Qed.
  Lemma on_square_iff c : on_square c = true <-> near (nth 0 c 0) 0 \/ near (nth 0 c 0) 1 \/ near (nth 1 c 0) 0 \/ near (nth 1 c 0) 1.
  Proof. unfold on_square. rewrite !orb_true_iff, !isclose_iff. tauto. Qed.
  Lemma markers_map (f : Z -> option Z) l t : NoDup l -> In t l -> markers 2 (map (fun t => mkGroup 2 [t] (f t)) l) t = [f t].
  Proof.
    unfold markers. induction l as [|a l IH]; intros HN HI; [contradiction|]. inversion HN as [|? ? Ha HN']; subst.
    cbn [map filter gr_dim gr_tags Nat.eqb andb existsb]. rewrite orb_false_r. destruct (Z.eqb_spec t a) as [->|NE].
    - cbn [map gr_marker]. f_equal. clear - Ha. induction l as [|b l IH]; [reflexivity|].
      cbn [map filter gr_dim gr_tags Nat.eqb andb existsb]. rewrite orb_false_r. destruct (Z.eqb_spec a b) as [->|NE]; [exfalso; apply Ha; left; reflexivity|].
      apply IH. intro K. apply Ha. right. exact K.
    - destruct HI as [->|HI]; [contradiction|]. exact (IH HN' HI).
  Qed.
  Lemma markers_app d a b t : markers d (a ++ b) t = markers d a t ++ markers d b t.
  Proof. unfold markers. rewrite filter_app, map_app. reflexivity. Qed.
  Lemma boundary_app a b : boundary_lines (a ++ b) = boundary_lines a ++ boundary_lines b.
  Proof. unfold boundary_lines. rewrite filter_app, flat_map_app. reflexivity. Qed.
  Lemma boundary_map (f : Z -> option Z) l : boundary_lines (map (fun t => mkGroup 2 [t] (f t)) l) = [].
  Proof. unfold boundary_lines. induction l as [|a l IH]; [reflexivity|exact IH]. Qed.
  Lemma boundary_numbered l : forall its, boundary_lines (numbered its l) = [].
  Proof. unfold boundary_lines. induction l as [|a l IH]; intro its; [reflexivity|apply IH]. Qed.
  Lemma markers_numbered l : forall its t, NoDup l -> In t l ->
    exists i, (i < List.length l)%nat /\ nth i l 0%Z = t /\ markers 2 (numbered its l) t = [Some (its + Z.of_nat i)%Z].
  Proof.
    induction l as [|a l IH]; intros its t HN HI; [contradiction|]. inversion HN as [|? ? Ha HN']; subst.
    unfold markers. cbn [numbered filter gr_dim gr_tags Nat.eqb andb existsb]. rewrite orb_false_r. destruct (Z.eqb_spec t a) as [->|NE].
    - exists 0%nat. split; [cbn; lia|]. split; [reflexivity|]. cbn [map gr_marker]. f_equal; [f_equal; lia|].
      clear - Ha. generalize (its + 1)%Z. induction l as [|b l IH]; intro z; [reflexivity|].
      cbn [numbered filter gr_dim gr_tags Nat.eqb andb existsb]. rewrite orb_false_r. destruct (Z.eqb_spec a b) as [->|NE]; [exfalso; apply Ha; left; reflexivity|].
      apply IH. intro K. apply Ha. right. exact K.
    - destruct HI as [->|HI]; [contradiction|]. destruct (IH (its + 1)%Z t HN' HI) as [i [Hi [Ei E]]]. exists (S i).
      split; [cbn; lia|]. split; [exact Ei|]. unfold markers in E. rewrite E. f_equal. f_equal. lia.
  Qed.
  Lemma outline_markers g t : markers 2 [outline g] t = [].
  Proof. reflexivity. Qed.
  Lemma outline_lines g t : In t (boundary_lines [outline g]) <-> In t (entities g 1) /\ on_square (com g (1%nat, t)) = true.
  Proof. unfold boundary_lines, outline. cbn [filter gr_dim Nat.eqb flat_map gr_tags]. rewrite app_nil_r. apply filter_In. Qed.

  (** marker of a centre: m1 near c1, m2 near c2, otherwise m3 *)
  Definition all_near (c d : list R) : Prop := List.Forall (fun '(a, b) => near a b) (combine c d).
  Definition marked_by (c c1 c2 : list R) (m1 m2 m3 m : Z) : Prop :=
    (all_near c c1 -> m = m1) /\ (~ all_near c c1 -> all_near c c2 -> m = m2) /\ (~ all_near c c1 -> ~ all_near c c2 -> m = m3).
  Lemma allclose_iff c d : allclose c d = true <-> all_near c d.
  Proof.
    unfold allclose, all_near. rewrite forallb_forall, List.Forall_forall. split; intros H [a b] HI; specialize (H _ HI); apply isclose_iff; exact H.
  Qed.
  Lemma marked_choice c c1 c2 m1 m2 m3 : marked_by c c1 c2 m1 m2 m3 (if allclose c c1 then m1 else if allclose c c2 then m2 else m3).
  Proof.
    pose proof (allclose_iff c c1) as A1. pose proof (allclose_iff c c2) as A2. unfold marked_by.
    destruct (allclose c c1); destruct (allclose c c2); intuition discriminate.
  Qed.
  (** the physical groups in the mesh file of the convex and the non-convex functions:
      every surface has exactly one marker, that of its centre; the lines collected
      are those whose centre has a coordinate near 0 or 1 *)
  Definition well_marked (g : list geo) (gs : list group) (c1 c2 : list R) (m1 m2 m3 : Z) : Prop :=
    (forall t, In t (entities g 2) -> exists m, markers 2 gs t = [Some m] /\ marked_by (com g (2%nat, t)) c1 c2 m1 m2 m3 m) /\
    (forall t, In t (boundary_lines gs) <-> In t (entities g 1) /\
       (let c := com g (1%nat, t) in near (nth 0 c 0) 0 \/ near (nth 0 c 0) 1 \/ near (nth 1 c 0) 0 \/ near (nth 1 c 0) 1)) /\
    map gr_marker (filter (fun g => Nat.eqb (gr_dim g) 1) gs) = [Some 1%Z].
  Lemma centred_well g c1 c2 m1 m2 m3 : NoDup (entities g 2) -> well_marked g (centred g c1 c2 m1 m2 m3 ++ [outline g]) c1 c2 m1 m2 m3.
  Proof.
    intro HN. unfold well_marked, centred. split; [|split].
    - intros t Ht. eexists. rewrite markers_app, outline_markers, app_nil_r.
      split; [apply (markers_map (fun t => Some (let c := com g (2%nat, t) in if allclose c c1 then m1 else if allclose c c2 then m2 else m3))); assumption|].
      apply marked_choice.
    - intro t. rewrite boundary_app. rewrite (boundary_map (fun t => Some (let c := com g (2%nat, t) in if allclose c c1 then m1 else if allclose c c2 then m2 else m3))).
      cbn [app]. rewrite outline_lines, on_square_iff. reflexivity.
    - rewrite filter_app. cbn [filter outline gr_dim Nat.eqb]. rewrite map_app. cbn [map gr_marker].
      induction (entities g 2) as [|a l IH]; [reflexivity|]. apply IH. inversion HN; assumption.
  Qed.
  Theorem C61_partial : forall remote v07 n h s, g_open s = false ->
    (NoDup (entities cmds_convex 2) ->
     exists gs, g_msh (snd (get_mesh_hierarchy entities com msh_file build refine v07 0 remote n h s)) = Some (msh_file h cmds_convex gs) /\
       g_msh (snd (create_initial_mesh_convex entities com msh_file build 0 remote h s)) = Some (msh_file h cmds_convex gs) /\
       well_marked cmds_convex gs [0.5; 0.6; 0] [0.5; 0.975; 0] 2 3 1) /\
    (NoDup (entities cmds_nonconvex 2) ->
     exists gs, g_msh (snd (get_mesh_hierarchy_nonconvex entities com msh_file build refine v07 0 remote n h s)) = Some (msh_file h cmds_nonconvex gs) /\
       well_marked cmds_nonconvex gs [0.5; 0.275; 0] [0.5; 0.5; 0] 1 2 3).
  Proof.
    intros remote v07 n h s HO. split; intro HN.
    - exists groups_convex. destruct (run_hierarchy 0 remote v07 n h s HO ltac:(intro K; contradiction)) as [s1 [E1 [_ F1]]].
      destruct (run_initial 0 remote h s (fun _ => HO) ltac:(intro K; contradiction)) as [s2 [E2 [_ F2]]].
      rewrite E1, E2. split; [exact (F1 eq_refl)|]. split; [exact (F2 eq_refl)|]. apply centred_well, HN.
    - exists groups_nonconvex. destruct (run_nonconvex 0 remote v07 n h s HO ltac:(intro K; contradiction)) as [s1 [E1 [_ F1]]].
      rewrite E1. split; [exact (F1 eq_refl)|]. apply centred_well, HN.
  Qed.
  (** the other functions number the surfaces 1, 2, 3, .. *)
  Theorem C61_numbered : forall remote v07 n h s, g_open s = false ->
    (NoDup (entities cmds_around 2) ->
     exists gs, g_msh (snd (get_mesh_data_all_around entities com msh_file build refine v07 0 remote n h s)) = Some (msh_file h cmds_around gs) /\
       forall i, (i < List.length (entities cmds_around 2))%nat -> markers 2 gs (nth i (entities cmds_around 2) 0%Z) = [Some (1 + Z.of_nat i)%Z]) /\
    (forall eta, NoDup (entities (cmds_disc eta) 2) ->
     exists gs, g_msh (snd (get_mesh_hierarchy_fitted_disc entities com msh_file build refine v07 0 remote n eta h s)) = Some (msh_file h (cmds_disc eta) gs) /\
       forall i, (i < List.length (entities (cmds_disc eta) 2))%nat -> markers 2 gs (nth i (entities (cmds_disc eta) 2) 0%Z) = [Some (1 + Z.of_nat i)%Z]).
  Proof.
    assert (G : forall g i, NoDup (entities g 2) -> (i < List.length (entities g 2))%nat -> markers 2 (groups_plain g) (nth i (entities g 2) 0%Z) = [Some (1 + Z.of_nat i)%Z]).
    { intros g i HN Hi. unfold groups_plain. rewrite markers_app, outline_markers, app_nil_r.
      destruct (markers_numbered (entities g 2) 1%Z (nth i (entities g 2) 0%Z) HN (nth_In _ _ Hi)) as [j [Hj [Ej E]]]. rewrite E.
      rewrite (proj1 (NoDup_nth (entities g 2) 0%Z) HN j i Hj Hi Ej). reflexivity. }
    intros remote v07 n h s HO. split.
    - intro HN. exists (groups_plain cmds_around). destruct (run_around 0 remote v07 n h s HO ltac:(intro K; contradiction)) as [s1 [E1 [_ F1]]].
      rewrite E1. split; [exact (F1 eq_refl)|]. intros i Hi. apply G; assumption.
    - intros eta HN. exists (groups_plain (cmds_disc eta)). destruct (run_disc 0 remote v07 n eta h s HO ltac:(intro K; contradiction)) as [s1 [E1 [_ F1]]].
      rewrite E1. split; [exact (F1 eq_refl)|]. intros i Hi. apply G; assumption.
  Qed.
End Runs.

(** ** the centres of the regions *)
(** a region as a combination of rectangles x, y, dx, dy with weight +1 (added) or -1
    (cut out); its centre of mass from areas and first moments *)
Definition region : Type := list (R * (R * R * R * R)).
Definition moment (f : R -> R -> R) (r : region) : R :=
  fold_right (fun '(w, (x, y, dx, dy)) acc => w * (dx * dy) * f (x + dx / 2) (y + dy / 2) + acc) 0 r.
Definition centre (r : region) : list R := let a := moment (fun _ _ => 1) r in [moment (fun x _ => x) r / a; moment (fun _ y => y) r / a; 0].
Lemma near_refl a : near a a.
Proof. unfold near. rewrite Rminus_diag_eq, Rabs_R0 by reflexivity. pose proof (Rabs_pos a). decimals. lra. Qed.
Lemma all_near_refl c : all_near c c.
Proof. unfold all_near. induction c as [|a c IH]; constructor; [apply near_refl|exact IH]. Qed.
Lemma not_near_second c d x y z x' y' z' : c = [x; y; z] -> d = [x'; y'; z'] -> ~ near y y' -> ~ all_near c d.
Proof. intros -> -> H K. apply H. inversion K as [|? ? _ K2]; subst. inversion K2; subst. assumption. Qed.
Lemma far a b : 1e-8 + 1e-5 * Rabs b < Rabs (a - b) -> ~ near a b.
Proof. unfold near. lra. Qed.

Definition convex_omega : region := [(1, (0, 0, 1, 1)); (-1, (0.1, 0.25, 0.8, 0.75))].
Definition convex_b : region := [(1, (0.1, 0.25, 0.8, 0.7))].
Definition convex_rest : region := [(1, (0.1, 0.95, 0.8, 0.05))].
Definition nonconvex_omega : region := [(1, (0.25, 0.05, 0.5, 0.45))].
Definition nonconvex_b : region := [(1, (0.125, 0.05, 0.75, 0.9)); (-1, (0.25, 0.05, 0.5, 0.45))].
Definition nonconvex_rest : region := [(1, (0, 0, 1, 1)); (-1, (0.125, 0.05, 0.75, 0.9))].
Lemma centres : centre convex_omega = [0.5; 0.3125; 0] /\ centre convex_b = [0.5; 0.6; 0] /\ centre convex_rest = [0.5; 0.975; 0] /\
  centre nonconvex_omega = [0.5; 0.275; 0] /\ centre nonconvex_b = [0.5; 0.6125; 0] /\ centre nonconvex_rest = [0.5; 0.5; 0].
Proof.
  unfold centre, moment, convex_omega, convex_b, convex_rest, nonconvex_omega, nonconvex_b, nonconvex_rest. cbn [fold_right]. decimals.
  repeat split; (f_equal; [|f_equal]); field.
Qed.
(** omega 1, B without omega 2, the rest 3: right for the convex geometry *)
Theorem C61_convex_regions : forall m,
  (marked_by (centre convex_omega) [0.5; 0.6; 0] [0.5; 0.975; 0] 2 3 1 m -> m = 1%Z) /\
  (marked_by (centre convex_b) [0.5; 0.6; 0] [0.5; 0.975; 0] 2 3 1 m -> m = 2%Z) /\
  (marked_by (centre convex_rest) [0.5; 0.6; 0] [0.5; 0.975; 0] 2 3 1 m -> m = 3%Z).
Proof.
  intro m. destruct centres as [-> [-> [-> _]]]. split; [|split]; intros [H1 [H2 H3]].
  - apply H3; eapply not_near_second; try reflexivity; apply far; rewrite Rabs_right by (decimals; lra); rewrite Rabs_left by (decimals; lra); decimals; lra.
  - apply H1, all_near_refl.
  - apply H2; [|apply all_near_refl]. eapply not_near_second; try reflexivity. apply far. rewrite !Rabs_right by (decimals; lra). decimals. lra.
Qed.
(** ... but not for the non-convex one: B without omega and the rest are exchanged *)
Theorem C61_refuted : forall m,
  (marked_by (centre nonconvex_omega) [0.5; 0.275; 0] [0.5; 0.5; 0] 1 2 3 m -> m = 1%Z) /\
  (marked_by (centre nonconvex_b) [0.5; 0.275; 0] [0.5; 0.5; 0] 1 2 3 m -> m = 3%Z) /\
  (marked_by (centre nonconvex_rest) [0.5; 0.275; 0] [0.5; 0.5; 0] 1 2 3 m -> m = 2%Z).
Proof.
  intro m. destruct centres as [_ [_ [_ [-> [-> ->]]]]]. split; [|split]; intros [H1 [H2 H3]].
  - apply H1, all_near_refl.
  - apply H3; eapply not_near_second; try reflexivity; apply far; rewrite !Rabs_right by (decimals; lra); decimals; lra.
  - apply H2; [|apply all_near_refl]. eapply not_near_second; try reflexivity. apply far. rewrite !Rabs_right by (decimals; lra). decimals. lra.
Qed.
(** ** straight boundary lines *)
(** A line with both ends in the unit square, whose coordinates are 0, 1 or at least
    3e-5 away from 0 and 1, is collected exactly if it lies on one side. *)
Definition mid (a b : R * R) : list R := [(fst a + fst b) / 2; (snd a + snd b) / 2; 0].
Definition unit_coord (x : R) : Prop := x = 0 \/ x = 1 \/ 3e-5 <= x <= 1 - 3e-5.
Lemma Rabs_split x e : Rabs x <= e -> - e <= x <= e.
Proof. unfold Rabs. destruct (Rcase_abs x); lra. Qed.
Lemma near0_mid a b : unit_coord a -> unit_coord b -> near ((a + b) / 2) 0 <-> a = 0 /\ b = 0.
Proof.
  intros Ha Hb. unfold near. rewrite Rabs_R0, Rminus_0_r. split.
  - intro H. apply Rabs_split in H. revert Ha Hb H. unfold unit_coord. decimals. intros. lra.
  - intros [-> ->]. replace ((0 + 0) / 2) with 0 by field. rewrite Rabs_R0. decimals. lra.
Qed.
Lemma near1_mid a b : unit_coord a -> unit_coord b -> near ((a + b) / 2) 1 <-> a = 1 /\ b = 1.
Proof.
  intros Ha Hb. unfold near. rewrite Rabs_R1. split.
  - intro H. apply Rabs_split in H. revert Ha Hb H. unfold unit_coord. decimals. intros. lra.
  - intros [-> ->]. replace ((1 + 1) / 2 - 1) with 0 by field. rewrite Rabs_R0. decimals. lra.
Qed.
Theorem C61_lines : forall a b, unit_coord (fst a) -> unit_coord (snd a) -> unit_coord (fst b) -> unit_coord (snd b) ->
  on_square (mid a b) = true <->
  (fst a = 0 /\ fst b = 0) \/ (fst a = 1 /\ fst b = 1) \/ (snd a = 0 /\ snd b = 0) \/ (snd a = 1 /\ snd b = 1).
Proof.
  intros a b H1 H2 H3 H4. rewrite on_square_iff. unfold mid. cbn [nth].
  rewrite (near0_mid _ _ H1 H3), (near1_mid _ _ H1 H3), (near0_mid _ _ H2 H4), (near1_mid _ _ H2 H4). reflexivity.
Qed.
(** The same test is used for the inclusion meshes on [-1.5, 1.5]^2, where it is wrong in
    both directions: part of the upper side is missed, the lower side of the inner
    square is collected. *)
Theorem C61_inclusion_refuted :
  on_square (mid (-1.5, 1.5) (-1.25, 1.5)) = false /\ on_square (mid (-0.5, -0.5) (0.5, -0.5)) = true.
Proof.
  split.
  - destruct (on_square _) eqn:E; [|reflexivity]. exfalso. apply on_square_iff in E. unfold mid in E. cbn [nth fst snd] in E.
    unfold near in E. rewrite Rabs_R0, Rabs_R1 in E. destruct E as [E|[E|[E|E]]]; apply Rabs_split in E; revert E; decimals; intro E; lra.
  - apply on_square_iff. left. unfold mid. cbn [nth fst snd]. unfold near. replace ((-0.5 + 0.5) / 2 - 0) with 0 by (decimals; field).
    rewrite !Rabs_R0. decimals. lra.
Qed.

(** * Non-vacuity *)
(** a session that has been closed, one triangle, refinement adding the midpoint of its first edge *)
Definition ex_closed : gstate := mkG false 1 [] [] false 1 None None.
Definition ex_ents : list geo -> nat -> list Z := fun _ d => match d with 2%nat => [1; 2; 3]%Z | 1%nat => [10; 11]%Z | _ => [] end.
Definition ex_com : list geo -> ent -> list R := fun _ e =>
  match snd e with 1%Z => [0.5; 0.6; 0] | 2%Z => [0.5; 0.975; 0] | 3%Z => [0.5; 0.3125; 0] | 10%Z => [0; 0.5; 0] | _ => [0.5; 0.25; 0] end.
Definition ex_file : R -> list geo -> list group -> mio := fun _ _ _ => mkMio [[0; 0; 0]; [1; 0; 0]; [0; 1; 0]] (fun _ => [[0; 1; 2]%nat]) (fun _ => []).
Definition halfway (p q : list R) : list R := [(nth 0 p 0 + nth 0 q 0) / 2; (nth 1 p 0 + nth 1 q 0) / 2].
Definition ex_refine : mesh -> list (nat * nat) -> mesh := fun m e =>
  match m_pts m, m_cells m with
  | p :: q :: pts, [a; b; c] :: cs => mkMesh (p :: q :: pts ++ [halfway p q]) ([a; c; List.length (m_pts m)] :: [b; c; List.length (m_pts m)] :: cs)
  | _, _ => m
  end.
Lemma ex_midpoints : midpoints_only ex_refine.
Proof.
  intros m e p. unfold ex_refine. destruct m as [[|x [|y pts]] cells]; cbn [m_pts m_cells]; auto.
  destruct cells as [|[|a [|b [|c [|d l]]]] cs]; auto. cbn [m_pts]. intro H. change (In p ((x :: y :: pts) ++ [halfway x y])) in H.
  apply in_app_or in H. destruct H as [H|[<-|[]]]; [left; exact H|]. right. exists x, y. split; [left; reflexivity|]. split; [right; left; reflexivity|]. reflexivity.
Qed.
Example C56_C59_nonvacuous : exists ms s',
  get_mesh_hierarchy ex_ents ex_com ex_file mkMesh ex_refine false 0 None 1 5 ex_closed = (Ok ms, s') /\
  ms = [mkMesh [[0; 0]; [1; 0]; [0; 1]] [[0; 1; 2]%nat]; mkMesh [[0; 0]; [1; 0]; [0; 1]; [(0 + 1) / 2; (0 + 0) / 2]] [[0; 2; 3]%nat; [1; 2; 3]%nat]] /\
  nth 1 ms d0 = ex_refine (nth 0 ms d0) [(0, 1); (0, 2); (1, 2)]%nat.
Proof.
  destruct (C56_partial ex_ents ex_com ex_file mkMesh ex_refine 0 None 1 5 ex_closed eq_refl) as [H _].
  destruct H as [ms [s' [E HF]]]; [intro K; contradiction|]. exists ms, s'. split; [exact E|].
  assert (RZ : right_of_zero (mesh_of mkMesh (file_convex ex_ents ex_com ex_file 5))).
  { intros p Hp. cbn in Hp. destruct Hp as [<-|[<-|[<-|[]]]]; cbn; lra. }
  pose proof (C59 ex_refine 1 _ ms ex_midpoints RZ HF 0%nat ltac:(lia)) as N. destruct HF as [HL [H0 _]].
  destruct ms as [|a [|b [|c ms]]]; try discriminate HL. cbn [nth] in H0, N. subst a. rewrite N. split; reflexivity.
Qed.
Example C61_nonvacuous : exists gs, g_msh (snd (get_mesh_hierarchy ex_ents ex_com (fun _ _ _ => mkMio [] (fun _ => []) (fun _ => [])) mkMesh ex_refine false 0 None 0 5 ex_closed)) =
    Some (mkMio [] (fun _ => []) (fun _ => [])) /\
  gs = groups_convex ex_ents ex_com /\ markers 2 gs 1 = [Some 2%Z] /\ markers 2 gs 2 = [Some 3%Z] /\ markers 2 gs 3 = [Some 1%Z] /\ boundary_lines gs = [10%Z].
Proof.
  exists (groups_convex ex_ents ex_com). split.
  { destruct (run_hierarchy ex_ents ex_com (fun _ _ _ => mkMio [] (fun _ => []) (fun _ => [])) mkMesh ex_refine 0 None false 0 5 ex_closed eq_refl ltac:(intro K; contradiction)) as [s1 [E1 [_ F1]]].
    rewrite E1. exact (F1 eq_refl). }
  split; [reflexivity|].
  assert (HN : NoDup (ex_ents cmds_convex 2)) by (cbn; repeat constructor; cbn; intuition lia).
  destruct (centred_well ex_ents ex_com cmds_convex [0.5; 0.6; 0] [0.5; 0.975; 0] 2 3 1 HN) as [HM [_ _]]. fold (groups_convex ex_ents ex_com) in HM.
  destruct centres as [C1 [C2 [C3 _]]].
  split; [|split; [|split]].
  - destruct (HM 1%Z ltac:(cbn; auto)) as [m [E K]]. rewrite E. cbn [ex_com snd] in K. rewrite <- C2 in K.
    rewrite (proj1 (proj2 (C61_convex_regions m))); [reflexivity|]. rewrite C2 in K |- *. exact K.
  - destruct (HM 2%Z ltac:(cbn; auto)) as [m [E K]]. rewrite E. cbn [ex_com snd] in K.
    rewrite (proj2 (proj2 (C61_convex_regions m))); [reflexivity|]. rewrite C3. exact K.
  - destruct (HM 3%Z ltac:(cbn; auto)) as [m [E K]]. rewrite E. cbn [ex_com snd] in K.
    rewrite (proj1 (C61_convex_regions m)); [reflexivity|]. rewrite C1. exact K.
  - unfold groups_convex. rewrite boundary_app. unfold centred.
    rewrite (boundary_map (fun t => Some (let c := ex_com cmds_convex (2%nat, t) in if allclose c [0.5; 0.6; 0] then 2%Z else if allclose c [0.5; 0.975; 0] then 3%Z else 1%Z))).
    cbn [app]. unfold boundary_lines, outline. cbn [filter gr_dim Nat.eqb flat_map gr_tags app ex_ents]. rewrite app_nil_r.
    change (ex_com cmds_convex (1%nat, 10%Z)) with [0; 0.5; 0]. change (ex_com cmds_convex (1%nat, 11%Z)) with [0.5; 0.25; 0].
    assert (A : on_square [0; 0.5; 0] = true) by (apply on_square_iff; left; apply near_refl).
    assert (B : on_square [0.5; 0.25; 0] = false).
    { clear A. destruct (on_square [0.5; 0.25; 0]) eqn:E; [|reflexivity]. exfalso. apply on_square_iff in E. cbn [nth] in E. unfold near in E. rewrite Rabs_R0, Rabs_R1 in E.
      destruct E as [E|[E|[E|E]]]; apply Rabs_split in E; revert E; decimals; intro E; lra. }
    rewrite A, B. reflexivity.
Qed.
(** gmsh numbering nodes 1, 2, 3: get_mesh_bottom_data fails on rank 0 *)
Example C57_functions_nonvacuous :
  fst (get_mesh_bottom_data ex_ents ex_com ex_file (fun _ => (tags [(1%Z, (0, 0, 0)); (2%Z, (1, 0, 0)); (3%Z, (0, 1, 0))], flat [(1%Z, (0, 0, 0)); (2%Z, (1, 0, 0)); (3%Z, (0, 1, 0))]))
         (fun _ => [(2%nat, [1; 2; 3]%Z)]) (fun _ => 3%nat) (fun n => seq 0 n) (fun _ _ => Ok d0) 0 1 0.5 ex_closed) = Err RuntimeError.
Proof.
  set (nd := [(1%Z, (0, 0, 0)); (2%Z, (1, 0, 0)); (3%Z, (0, 1, 0))] : list node).
  destruct (C57_functions_refuted (fun _ _ => 9%Z) ex_ents ex_com ex_file (fun _ => (tags nd, flat nd)) (fun _ => [(2%nat, [1; 2; 3]%Z)]) (fun _ => 3%nat) (fun n => seq 0 n)
     (fun _ _ => Ok d0) 0 1 ex_closed eq_refl) as [_ [_ H]].
  - intros s1 _. exists nd. split; [reflexivity|]. unfold sequential. cbn. reflexivity.
  - destruct (H 0.5) as [s' [E _]]. rewrite E. reflexivity.
Qed.

Print Assumptions C56_partial. Print Assumptions C56_refuted. Print Assumptions C56_convex. Print Assumptions C56_3d.
Print Assumptions C57_refuted. Print Assumptions C57_functions_refuted. Print Assumptions C57_other_ranks_refuted. Print Assumptions C57_square_never_returns.
Print Assumptions C58_extraction. Print Assumptions C58_functions. Print Assumptions C58_refuted. Print Assumptions C59.
Print Assumptions C60_partial. Print Assumptions C60_refuted. Print Assumptions C60_3d_refuted. Print Assumptions C60_3d_consequence.
Print Assumptions C61_partial. Print Assumptions C61_numbered. Print Assumptions C61_convex_regions. Print Assumptions C61_refuted. Print Assumptions C61_lines. Print Assumptions C61_inclusion_refuted.
Print Assumptions C58_cells.
Print Assumptions C59_edges.
