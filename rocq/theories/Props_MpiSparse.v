(** Props_MpiSparse.v -- property C91: PyPardiso on several processes. *)
From Coq Require Import Reals List Lra Lia Bool.
From Verif Require Import Base FormModel DriverModel Props_Driver MpiSparse.
Import ListNotations.
Open Scope nat_scope.

(** entry (i, j) is stored, possibly as a zero *)
Definition stored_at (A : pmat) (i j : nat) : Prop :=
  exists k, nth i (ai (pm_csr A)) 0 <= k < nth (S i) (ai (pm_csr A)) 0 /\ nth k (aj (pm_csr A)) 0 = j.
(** the diagonal is stored, as DOLFINx does for every dof of a cell *)
Definition diagonal (A : pmat) : Prop := forall i, i < pm_rows A -> stored_at A i i.

Lemma ptr_mono A i j : wf_pmat A -> i <= j <= pm_rows A -> nth i (ai (pm_csr A)) 0 <= nth j (ai (pm_csr A)) 0.
Proof.
  intros [_ [_ [H3 _]]] [Hij Hj]. induction Hij as [|j Hij IH]; [lia|]. specialize (IH ltac:(lia)). specialize (H3 j ltac:(lia)). lia.
Qed.
Lemma nth_part {X} (l : list X) s n k d : k < n -> nth k (firstn n (skipn s l)) d = nth (s + k) l d.
Proof.
  intro H. transitivity (nth k (skipn s l) d).
  - clear -H. revert n H. generalize (skipn s l) as m. induction k as [|k IH]; intros [|x m] [|n] H; try lia; try reflexivity. cbn. apply IH. lia.
  - clear H. revert l. induction s as [|s IH]; intros l; [reflexivity|]. destruct l as [|x l]; [destruct k; reflexivity|]. exact (IH l).
Qed.
Lemma nth_ptr C lo hi i : i <= hi - lo -> nth i (ai (csr_rows C lo hi)) 0 = nth (lo + i) (ai C) 0 - nth lo (ai C) 0.
Proof.
  intro H. unfold csr_rows. cbn [ai].
  set (f := fun k => nth k (ai C) 0 - nth lo (ai C) 0).
  rewrite (nth_indep _ 0 (f 0)) by (rewrite map_length, seq_length; lia).
  rewrite map_nth, seq_nth by lia. reflexivity.
Qed.

Section Ranks.
  Variables (A : pmat) (n : nat) (start : nat -> nat).
  Hypotheses (HW : wf_pmat A) (HR : rows_ok n (pm_rows A) start).
  Lemma start_mono r q : r <= q -> start r <= start q.
  Proof. intro H. induction H as [|q H IH]; [lia|]. pose proof (ro_mono _ _ _ HR q). lia. Qed.
  Lemma start_le r : r <= n -> start r <= pm_rows A.
  Proof. intro H. rewrite <- (ro_last _ _ _ HR). apply start_mono, H. Qed.
  Variable r : nat.
  Hypothesis Hr : r < n.
  Let lo := start r.
  Let hi := start (S r).
  Lemma range : lo <= hi <= pm_rows A.
  Proof. split; [apply (ro_mono _ _ _ HR)|apply start_le; lia]. Qed.
  Let s := nth lo (ai (pm_csr A)) 0.
  Let e := nth hi (ai (pm_csr A)) 0.
  Lemma ends : s <= e <= List.length (aj (pm_csr A)).
  Proof.
    pose proof range. pose proof (ptr_mono A lo hi HW ltac:(lia)). pose proof (ptr_mono A hi (pm_rows A) HW ltac:(lia)).
    destruct HW as [_ [_ [_ [H4 _]]]]. unfold s, e. lia.
  Qed.
  Lemma part_length {X} (l : list X) : List.length l = List.length (aj (pm_csr A)) -> List.length (firstn (e - s) (skipn s l)) = e - s.
  Proof. intro H. pose proof ends. rewrite firstn_length, skipn_length. lia. Qed.
  Lemma rank_wf : wf_pmat (mat_rank A start r).
  Proof.
    pose proof range as Hg. pose proof ends as He. destruct HW as [H1 [H2 [H3 [H4 [H5 H6]]]]].
    unfold wf_pmat, mat_rank. cbn [pm_rows pm_cols pm_csr]. fold lo hi.
    split; [cbn [csr_rows ai]; rewrite map_length, seq_length; reflexivity|].
    split; [rewrite nth_ptr by lia; rewrite Nat.add_0_r; lia|].
    split.
    { intros i Hi. rewrite !nth_ptr by lia. replace (lo + S i) with (S (lo + i)) by lia. specialize (H3 (lo + i) ltac:(lia)). lia. }
    split.
    { rewrite nth_ptr by lia. replace (lo + (hi - lo)) with hi by lia. unfold csr_rows. cbn [aj]. fold s e. rewrite part_length; reflexivity. }
    split; [unfold csr_rows; cbn [av aj]; fold s e; rewrite !part_length; auto|].
    unfold csr_rows. cbn [aj]. fold s e. rewrite part_length by reflexivity. intros k Hk. rewrite nth_part by exact Hk. apply H6. lia.
  Qed.
  (** the entries are those of the rank's rows, with the columns of the whole matrix *)
  Theorem C91_entries : forall M, get_sparse_rank A start r = Ok M ->
    sp_rows M = start (S r) - start r /\ forall i j, i < start (S r) - start r -> sp_entry M i j = pm_entry A (start r + i) j.
  Proof.
    intros M HM. destruct (C50_entries _ M rank_wf HM) as [E1 [E2 _]]. split; [exact E1|]. intros i j Hi. rewrite E2.
    pose proof range as Hg. fold lo hi in Hi |- *. unfold pm_entry, csr_entry, mat_rank. cbn [pm_csr]. fold lo hi. unfold row_of. rewrite !nth_ptr by lia.
    pose proof (ptr_mono A lo (lo + i) HW ltac:(lia)) as P1. pose proof (ptr_mono A (lo + i) (S (lo + i)) HW ltac:(lia)) as P2.
    pose proof (ptr_mono A (S (lo + i)) hi HW ltac:(lia)) as P3. fold s e in P1, P2, P3 |- *.
    replace (lo + S i) with (S (lo + i)) by lia.
    set (p := nth (lo + i) (ai (pm_csr A)) 0) in *. set (q := nth (S (lo + i)) (ai (pm_csr A)) 0) in *.
    replace (q - s - (p - s)) with (q - p) by lia.
    assert (Q : forall m u, u + m <= e -> s <= u ->
      Rsum (seq (u - s) m) (fun k => if Nat.eqb (nth k (aj (csr_rows (pm_csr A) lo hi)) 0) j then nth k (av (csr_rows (pm_csr A) lo hi)) 0%R else 0%R) =
      Rsum (seq u m) (fun k => if Nat.eqb (nth k (aj (pm_csr A)) 0) j then nth k (av (pm_csr A)) 0%R else 0%R)).
    { induction m as [|m IH]; intros u Hu Hs; [reflexivity|]. cbn [seq]. rewrite !Rsum_cons.
      replace (S (u - s)) with (S u - s) by lia. rewrite (IH (S u)) by lia. f_equal. unfold csr_rows. cbn [aj av]. fold s e.
      rewrite !nth_part by lia. replace (s + (u - s)) with u by lia. reflexivity. }
    apply Q; lia.
  Qed.
  (** a stored entry of the rank *)
  Lemma rank_stored j : stored (mat_rank A start r) j <-> exists i, start r <= i < start (S r) /\ stored_at A i j.
  Proof.
    pose proof range as Hg. pose proof ends as He. unfold stored, mat_rank. cbn [pm_csr]. fold lo hi. unfold csr_rows. cbn [aj]. fold s e.
    rewrite part_length by reflexivity. split.
    - intros [k [Hk E]]. rewrite nth_part in E by exact Hk.
      assert (Q : forall m, lo + m <= hi -> s + k < nth (lo + m) (ai (pm_csr A)) 0 -> exists i, lo <= i < lo + m /\
        nth i (ai (pm_csr A)) 0 <= s + k < nth (S i) (ai (pm_csr A)) 0).
      { induction m as [|m IH]; intros Hm Hs; [rewrite Nat.add_0_r in Hs; fold s in Hs; lia|].
        destruct (Nat.lt_ge_cases (s + k) (nth (lo + m) (ai (pm_csr A)) 0)) as [L|L].
        - destruct (IH ltac:(lia) L) as [i [Hi Hi2]]. exists i. split; [lia|exact Hi2].
        - exists (lo + m). split; [lia|]. replace (S (lo + m)) with (lo + S m) by lia. lia. }
      destruct (Q (hi - lo) ltac:(lia)) as [i [Hi Hi2]].
      { replace (lo + (hi - lo)) with hi by lia. fold e. lia. }
      exists i. split; [lia|]. exists (s + k). split; assumption.
    - intros [i [Hi [k [Hk E]]]]. pose proof (ptr_mono A lo i HW ltac:(lia)) as P1. pose proof (ptr_mono A (S i) hi HW ltac:(lia)) as P2. fold s e in P1, P2.
      exists (k - s). split; [lia|]. rewrite nth_part by lia. replace (s + (k - s)) with k by lia. exact E.
  Qed.
  Lemma rank_columns M : get_sparse_rank A start r = Ok M ->
    (forall i j, start r <= i < start (S r) -> stored_at A i j -> j < sp_cols M) /\
    exists i, start r <= i < start (S r) /\ stored_at A i (sp_cols M - 1) /\ 1 <= sp_cols M.
  Proof.
    intro HM. pose proof (proj1 (C50_accepted _ rank_wf) (ex_intro _ M HM)) as Hne.
    assert (EC : sp_cols M = S (list_max (aj (pm_csr (mat_rank A start r))))).
    { unfold get_sparse_rank, get_sparse_matrix, getValuesCSR, csr_matrix in HM. destruct (aj (pm_csr (mat_rank A start r))) as [|a l]; [contradiction|].
      match type of HM with (if ?b then _ else _) = _ => destruct b end; [|discriminate]. injection HM as <-. reflexivity. }
    rewrite EC. split.
    - intros i j Hi Hj. destruct (proj2 (rank_stored j) (ex_intro _ i (conj Hi Hj))) as [k [Hk E]].
      pose proof (list_max_ge _ _ (nth_In _ 0 Hk)) as G. rewrite E in G. lia.
    - destruct (In_nth _ _ 0 (list_max_In _ Hne)) as [k [Hk E]].
      destruct (proj1 (rank_stored _) (ex_intro _ k (conj Hk E))) as [i [Hi Hs]]. exists i. split; [exact Hi|]. split; [|lia].
      rewrite Nat.sub_succ, Nat.sub_0_r. exact Hs.
  Qed.
  (** the export works on a rank exactly if it has a stored entry *)
  Theorem C91_accepted : (exists M, get_sparse_rank A start r = Ok M) <-> exists i j, start r <= i < start (S r) /\ stored_at A i j.
  Proof.
    split.
    - intros [M HM]. destruct (rank_columns M HM) as [_ [i [Hi [Hs _]]]]. eauto.
    - intros [i [j [Hi Hj]]]. apply (proj2 (C50_accepted _ rank_wf)). intro E.
      destruct (proj2 (rank_stored j) (ex_intro _ i (conj Hi Hj))) as [k [Hk _]]. rewrite E in Hk. cbn in Hk. lia.
  Qed.
  Lemma export_cases : (exists M, get_sparse_rank A start r = Ok M) \/ get_sparse_rank A start r = Err ValueError.
  Proof.
    unfold get_sparse_rank, get_sparse_matrix, getValuesCSR, csr_matrix. destruct (aj (pm_csr (mat_rank A start r))) as [|a l]; [right; reflexivity|].
    match goal with |- context [if ?b then _ else _] => destruct b end; [left; eexists; reflexivity|right; reflexivity].
  Qed.
  Lemma check_error M : check_A M = Ok tt \/ check_A M = Err ValueError.
  Proof. unfold check_A. destruct (negb _); [right; reflexivity|]. destruct (forallb _ _); [left|right]; reflexivity. Qed.
  Hypothesis HD : diagonal A.
  (** which ranks can factorise: the one with the first rows of the matrix, if its
      rows have no entry in later columns; every other rank raises ValueError *)
  Theorem C91_ranks :
    (start r = 0 /\ 1 <= start (S r) /\ (forall i j, i < start (S r) -> stored_at A i j -> j < start (S r)) /\
      exists M, factorize_rank A start r = Ok M /\ sp_rows M = start (S r) /\ sp_cols M = start (S r)) \/
    (~ (start r = 0 /\ 1 <= start (S r) /\ forall i j, i < start (S r) -> stored_at A i j -> j < start (S r)) /\
      factorize_rank A start r = Err ValueError).
  Proof.
    pose proof range as Hg. fold lo hi.
    destruct export_cases as [[M HM]|HM].
    2:{ right. split; [|unfold factorize_rank; rewrite HM; reflexivity]. intros [H0 [H1 _]].
        destruct (proj2 C91_accepted) as [M HM']; [|congruence]. exists lo, lo. fold lo hi. split; [lia|]. apply HD. lia. }
    destruct (rank_columns M HM) as [C1 [i0 [Hi0 [C2 C3]]]]. pose proof (proj1 (C91_entries M HM)) as ER. fold lo hi in C1, Hi0, ER.
    assert (Hlast : hi - 1 < sp_cols M). { apply (C1 (hi - 1)); [lia|]. apply HD. lia. }
    unfold factorize_rank. rewrite HM. cbn [rbind]. unfold check_A. rewrite ER.
    destruct (Nat.eqb_spec (hi - lo) (sp_cols M)) as [EQ|NE]; cbn [negb].
    - assert (L0 : lo = 0) by lia. left. split; [exact L0|]. split; [lia|]. split.
      { intros i j Hi Hs. pose proof (C1 i j ltac:(lia) Hs). lia. }
      assert (F : forallb (fun i => negb (Nat.eqb (nth (S i) (sp_indptr M) 0) (nth i (sp_indptr M) 0))) (seq 0 (hi - lo)) = true).
      { apply forallb_forall. intros i Hi. apply in_seq in Hi. apply negb_true_iff, Nat.eqb_neq.
        assert (EP : sp_indptr M = ai (csr_rows (pm_csr A) lo hi)).
        { unfold get_sparse_rank, get_sparse_matrix, getValuesCSR, csr_matrix in HM. destruct (aj (pm_csr (mat_rank A start r))) as [|a l]; [discriminate|].
          match type of HM with (if ?b then _ else _) = _ => destruct b end; [|discriminate]. injection HM as <-. reflexivity. }
        rewrite EP, !nth_ptr by lia. destruct (HD (lo + i) ltac:(lia)) as [k [Hk _]].
        pose proof (ptr_mono A lo (lo + i) HW ltac:(lia)). replace (lo + S i) with (S (lo + i)) by lia. lia. }
      rewrite F. exists M. cbn [rbind]. split; [reflexivity|]. lia.
    - right. split; [|reflexivity]. intros [L0 [L1 L2]]. apply NE. pose proof (L2 i0 _ ltac:(lia) C2). lia.
  Qed.
End Ranks.

(** on several processes at least one rank fails, and at most one does not *)
Theorem C91_refuted : forall A n start, wf_pmat A -> rows_ok n (pm_rows A) start -> diagonal A -> 2 <= n ->
  (exists r, r < n /\ factorize_rank A start r = Err ValueError) /\
  (forall r q, r < n -> q < n -> r <> q -> factorize_rank A start r = Err ValueError \/ factorize_rank A start q = Err ValueError).
Proof.
  intros A n start HW HR HD Hn.
  assert (Q : forall r q, r < q -> q < n -> factorize_rank A start r = Err ValueError \/ factorize_rank A start q = Err ValueError).
  { intros r q Hrq Hq. destruct (C91_ranks A n start HW HR r ltac:(lia) HD) as [[_ [Hr _]]|[_ H]]; [|left; exact H]. right.
    destruct (C91_ranks A n start HW HR q Hq HD) as [[H0 _]|[_ H]]; [|exact H].
    pose proof (start_mono A n start HR (S r) q ltac:(lia)). lia. }
  split.
  - destruct (Q 0 1 ltac:(lia) ltac:(lia)) as [H|H]; [exists 0|exists 1]; (split; [lia|exact H]).
  - intros r q Hr Hq Hne. destruct (Nat.lt_total r q) as [L|[L|L]]; [apply Q; lia|contradiction|].
    destruct (Q q r L Hr); auto.
Qed.
Lemma csr_rows_all C m : List.length (ai C) = S m -> nth 0 (ai C) 0 = 0 -> nth m (ai C) 0 = List.length (aj C) -> List.length (av C) = List.length (aj C) ->
  csr_rows C 0 m = C.
Proof.
  intros H1 H2 H3 H4. unfold csr_rows. rewrite H2, H3, !Nat.sub_0_r. cbn [skipn].
  rewrite firstn_all. rewrite <- H4 at 1. rewrite firstn_all. destruct C as [p j v]. cbn [ai aj av] in *. f_equal.
  apply (nth_ext _ _ 0 0); [rewrite map_length, seq_length; lia|]. rewrite map_length, seq_length. intros k Hk.
  set (f := fun k => nth k p 0 - 0).
  rewrite (nth_indep _ 0 (f 0)) by (rewrite map_length, seq_length; lia).
  rewrite map_nth, seq_nth by lia. unfold f. cbn. lia.
Qed.
(** what holds: one process behaves as the model of get_sparse_matrix says *)
Theorem C91_partial : forall A start, wf_pmat A -> rows_ok 1 (pm_rows A) start ->
  get_sparse_rank A start 0 = get_sparse_matrix A /\ factorize_rank A start 0 = factorize_one A.
Proof.
  intros A start HW HR. assert (E : get_sparse_rank A start 0 = get_sparse_matrix A).
  { unfold get_sparse_rank, mat_rank. rewrite (ro_first _ _ _ HR), (ro_last _ _ _ HR), Nat.sub_0_r.
    destruct HW as [H1 [H2 [_ [H4 [H5 _]]]]]. rewrite csr_rows_all by assumption. destruct A; reflexivity. }
  split; [exact E|]. unfold factorize_rank, factorize_one. rewrite E. reflexivity.
Qed.
(** and a square matrix with a stored diagonal is accepted there *)
Theorem C91_one : forall A, wf_pmat A -> pm_rows A = pm_cols A -> 1 <= pm_rows A -> diagonal A ->
  exists M, factorize_one A = Ok M /\ sp_rows M = pm_rows A /\ sp_cols M = pm_rows A.
Proof.
  intros A HW Hsq H1 HD. set (start := fun r => if Nat.eqb r 0 then 0 else pm_rows A).
  assert (HR : rows_ok 1 (pm_rows A) start). { split; try reflexivity. intros [|r]; cbn; lia. }
  rewrite <- (proj2 (C91_partial A start HW HR)).
  destruct (C91_ranks A 1 start HW HR 0 ltac:(lia) HD) as [[_ [_ [_ H]]]|[H _]]; [exact H|].
  exfalso. apply H. cbn. repeat split; auto. intros i j Hi [k [Hk E]]. rewrite <- E, Hsq.
  pose proof (ptr_mono A (S i) (pm_rows A) HW ltac:(lia)). destruct HW as [_ [_ [_ [H4 [_ H6]]]]]. apply H6. lia.
Qed.

(** three rows, coupled in a chain, on two processes *)
Definition ex_chain : pmat := mkPmat 3 3 (mkCsr [0; 2; 5; 7] [0; 1; 0; 1; 2; 1; 2] [2; -1; -1; 2; -1; -1; 2]%R).
Definition ex_start (cut r : nat) : nat := match r with 0 => 0 | 1 => cut | _ => 3 end.
Theorem C91_nonvacuous : wf_pmat ex_chain /\ diagonal ex_chain /\ rows_ok 2 (pm_rows ex_chain) (ex_start 2) /\
  (exists M, get_sparse_rank ex_chain (ex_start 2) 0 = Ok M /\ sp_rows M = 2 /\ sp_cols M = 3) /\
  (exists M, get_sparse_rank ex_chain (ex_start 2) 1 = Ok M /\ sp_rows M = 1 /\ sp_cols M = 3) /\
  factorize_rank ex_chain (ex_start 2) 0 = Err ValueError /\ factorize_rank ex_chain (ex_start 2) 1 = Err ValueError /\
  (exists M, factorize_one ex_chain = Ok M).
Proof.
  assert (W : wf_pmat ex_chain).
  { split; [reflexivity|]. split; [reflexivity|]. split; [intros [|[|[|i]]] H; cbn in *; lia|]. split; [reflexivity|]. split; [reflexivity|].
    intros k Hk. cbn in Hk. do 7 (destruct k as [|k]; [cbn; lia|]). lia. }
  assert (Dg : diagonal ex_chain).
  { intros [|[|[|i]]] H; [exists 0|exists 3|exists 6|cbn in H; lia]; cbn; lia. }
  split; [exact W|]. split; [exact Dg|]. split; [split; try reflexivity; intros [|[|r]]; cbn; lia|].
  split; [eexists; split; [reflexivity|split; reflexivity]|]. split; [eexists; split; [reflexivity|split; reflexivity]|].
  split; [reflexivity|]. split; [reflexivity|].
  destruct (C91_one ex_chain W eq_refl ltac:(cbn; lia) Dg) as [M [HM _]]. exists M. exact HM.
Qed.
(** a matrix without coupling between the processes: the first rank succeeds, the second fails *)
Definition ex_blocks : pmat := mkPmat 3 3 (mkCsr [0; 2; 4; 5] [0; 1; 0; 1; 2] [2; -1; -1; 2; 2]%R).
Theorem C91_blocks : (exists M, factorize_rank ex_blocks (ex_start 2) 0 = Ok M) /\ factorize_rank ex_blocks (ex_start 2) 1 = Err ValueError.
Proof. split; [eexists|]; reflexivity. Qed.
Print Assumptions C91_ranks.
Print Assumptions C91_refuted.
