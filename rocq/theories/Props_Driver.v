(** Props_Driver.v -- properties C50 to C54: sparse export, slab solver
    adapter, problem parameters, indicators, sample solutions. *)
From Coq Require Import Reals List ZArith Lra Lia Bool String FunctionalExtensionality.
From Coquelicot Require Import Coquelicot.
From Verif Require Import QuadProofs Base TimeModel TimeSpec FormModel FormSpec FormProofs SpaceTimeForms FormBlocks FormTime FormC12
  FormCons FormExample Props_Forms SpaceTimeModel SlabOps ApplyProofs MarchProofs MarchLoops MarchSum MarchUnique
  ErrorsModel Lifecycle LifeProofs OpsProofs SetupOk LinAlg OpsExample Props_Ops LifeFrames Props_Life GmresModel Props_Gmres DriverModel.
Import ListNotations.
Open Scope R_scope.
Open Scope monad_scope.

(** * C50 *)
(** compressed rows of a matrix with the given shape *)
Definition wf_pmat (A : pmat) : Prop :=
  let r := pm_rows A in let p := ai (pm_csr A) in let j := aj (pm_csr A) in
  List.length p = S r /\ nth 0 p 0%nat = 0%nat /\ (forall i, (i < r)%nat -> (nth i p 0 <= nth (S i) p 0)%nat) /\
  nth r p 0%nat = List.length j /\ List.length (av (pm_csr A)) = List.length j /\
  forall k, (k < List.length j)%nat -> (nth k j 0 < pm_cols A)%nat.
(** column j has a stored entry *)
Definition stored (A : pmat) (j : nat) : Prop :=
  exists k, (k < List.length (aj (pm_csr A)))%nat /\ nth k (aj (pm_csr A)) 0%nat = j.

Lemma last_nth_S (l : list nat) r : List.length l = S r -> last l 0%nat = nth r l 0%nat.
Proof.
  revert r. induction l as [|a l IH]; intros r H; [discriminate|]. cbn [List.length] in H. injection H as H.
  destruct l as [|b l]; [cbn in H; subst r; reflexivity|]. destruct r as [|r]; [discriminate|].
  change (last (a :: b :: l) 0%nat) with (last (b :: l) 0%nat). rewrite (IH r H). reflexivity.
Qed.
Lemma list_max_bound l n : (forall k, (k < List.length l)%nat -> (nth k l 0 < n)%nat) -> l <> [] -> (S (list_max l) <= n)%nat.
Proof.
  intros H Hl. assert (Q : forall x, In x l -> (x < n)%nat).
  { intros x Hx. destruct (In_nth l x 0%nat Hx) as [k [Hk <-]]. apply H, Hk. }
  clear H. induction l as [|a l IH]; [contradiction|]. change (list_max (a :: l)) with (Nat.max a (list_max l)).
  destruct l as [|b l].
  - cbn. specialize (Q a (or_introl eq_refl)). lia.
  - specialize (IH ltac:(discriminate) (fun x Hx => Q x (or_intror Hx))). specialize (Q a (or_introl eq_refl)). lia.
Qed.
Lemma list_max_In l : l <> [] -> In (list_max l) l.
Proof.
  induction l as [|a l IH]; [contradiction|]. intros _. change (list_max (a :: l)) with (Nat.max a (list_max l)).
  destruct l as [|b l]; [cbn; left; lia|]. specialize (IH ltac:(discriminate)).
  destruct (Nat.max_spec a (list_max (b :: l))) as [[_ ->]|[_ ->]]; [right; exact IH|left; reflexivity].
Qed.
Lemma list_max_ge l x : In x l -> (x <= list_max l)%nat.
Proof.
  induction l as [|a l IH]; [intros []|]. change (list_max (a :: l)) with (Nat.max a (list_max l)). intros [->|H]; [lia|].
  specialize (IH H). lia.
Qed.

(** it works unless there is no stored entry *)
Theorem C50_accepted : forall A, wf_pmat A ->
  (exists S, get_sparse_matrix A = Ok S) <-> aj (pm_csr A) <> [].
Proof.
  intros A [H1 [H2 [H3 [H4 [H5 H6]]]]]. unfold get_sparse_matrix, getValuesCSR, csr_matrix.
  destruct (aj (pm_csr A)) as [|a l] eqn:Ej; [split; [intros [S HS]; discriminate|intro H; contradiction]|].
  rewrite (last_nth_S _ _ H1), H2, H4, H5, H1, !Nat.eqb_refl. cbn [andb].
  rewrite Nat.leb_refl. cbn [andb Nat.leb]. split; [discriminate|]. intros _. eexists. reflexivity.
Qed.
(** scipy's checks, for any three arrays *)
Theorem C50_refused : forall data indices indptr,
  csr_matrix data indices indptr = Err ValueError <->
  (indices = [] \/ nth 0 indptr 0 <> 0 \/ List.length indices <> List.length data \/ List.length indices < last indptr 0 \/ indptr = [])%nat.
Proof.
  intros data indices indptr. unfold csr_matrix. destruct indices as [|a l]; [tauto|]. set (I := a :: l).
  destruct (Nat.eqb_spec (nth 0 indptr 0%nat) 0), (Nat.eqb_spec (List.length I) (List.length data)), (Nat.leb_spec (last indptr 0%nat) (List.length I)), indptr as [|b p]; cbn [andb Nat.leb List.length];
    (split; [intro K; try discriminate K|]); try tauto; try lia.
  intros [K|[K|[K|[K|K]]]]; try discriminate K; try contradiction; lia.
Qed.
Theorem C50_entries : forall A S, wf_pmat A -> get_sparse_matrix A = Ok S ->
  sp_rows S = pm_rows A /\ (forall i j, sp_entry S i j = pm_entry A i j) /\
  forall x i, (i < pm_rows A)%nat -> sumn (sp_cols S) (fun j => sp_entry S i j * x j) = sumn (pm_cols A) (fun j => pm_entry A i j * x j).
Proof.
  intros A S HW HS. pose proof (proj1 (C50_accepted A HW) (ex_intro _ S HS)) as Hne.
  destruct HW as [H1 [H2 [H3 [H4 [H5 H6]]]]]. unfold get_sparse_matrix, getValuesCSR, csr_matrix in HS.
  assert (HB : (Datatypes.S (list_max (aj (pm_csr A))) <= pm_cols A)%nat) by (apply list_max_bound; assumption).
  destruct (aj (pm_csr A)) as [|a l] eqn:Ej; [contradiction|].
  match type of HS with (if ?b then _ else _) = _ => destruct b end; [|discriminate]. injection HS as <-.
  cbn [sp_rows sp_cols]. split; [rewrite H1; lia|]. split; [intros i j; unfold sp_entry, pm_entry; cbn; rewrite Ej; reflexivity|].
  intros x i Hi. unfold sp_entry. cbn [sp_indptr sp_indices sp_data].
  assert (EE : forall j, pm_entry A i j = csr_entry (ai (pm_csr A)) (a :: l) (av (pm_csr A)) i j) by (intro j; unfold pm_entry; rewrite Ej; reflexivity).
  rewrite (Rsum_ext (seq 0 (pm_cols A)) _ (fun j => csr_entry (ai (pm_csr A)) (a :: l) (av (pm_csr A)) i j * x j)) by (intro j; rewrite EE; reflexivity).
  set (m := Datatypes.S (list_max (a :: l))) in *.
  replace (pm_cols A) with (m + (pm_cols A - m))%nat by lia. rewrite seq_app, Rsum_app.
  rewrite (Rsum_zero (seq (0 + m) _)); [rewrite Rplus_0_r; reflexivity|]. intros j Hj. apply in_seq in Hj.
  assert (Z : csr_entry (ai (pm_csr A)) (a :: l) (av (pm_csr A)) i j = 0); [|rewrite Z; ring].
  unfold csr_entry. apply Rsum_zero. intros k Hk. destruct (Nat.eqb_spec (nth k (a :: l) 0%nat) j) as [Hkj|]; [|reflexivity].
  exfalso. destruct (Nat.lt_ge_cases k (List.length (a :: l))) as [Hl|Hl].
  - pose proof (list_max_ge (a :: l) _ (nth_In _ 0%nat Hl)). unfold m in Hj. lia.
  - rewrite nth_overflow in Hkj by exact Hl. unfold m in Hj. lia.
Qed.
(** the shape agrees exactly when the last column has a stored entry *)
Theorem C50_shape : forall A S, wf_pmat A -> get_sparse_matrix A = Ok S -> (1 <= pm_cols A)%nat ->
  (sp_cols S = pm_cols A <-> stored A (pm_cols A - 1)) /\ (sp_cols S <= pm_cols A)%nat.
Proof.
  intros A S HW HS Hc. pose proof (proj1 (C50_accepted A HW) (ex_intro _ S HS)) as Hne.
  destruct HW as [H1 [H2 [H3 [H4 [H5 H6]]]]]. unfold get_sparse_matrix, getValuesCSR, csr_matrix in HS.
  assert (HB : (Datatypes.S (list_max (aj (pm_csr A))) <= pm_cols A)%nat) by (apply list_max_bound; assumption).
  assert (EC : sp_cols S = Datatypes.S (list_max (aj (pm_csr A)))).
  { destruct (aj (pm_csr A)) as [|a l]; [contradiction|].
    match type of HS with (if ?b then _ else _) = _ => destruct b end; [|discriminate]. injection HS as <-. reflexivity. }
  rewrite EC. split; [|exact HB]. split.
  - intro H. destruct (In_nth _ _ 0%nat (list_max_In _ Hne)) as [k [Hk Hk2]]. exists k. split; [exact Hk|]. rewrite Hk2. lia.
  - intros [k [Hk Hk2]]. pose proof (list_max_ge _ _ (nth_In _ 0%nat Hk)) as Hg. rewrite Hk2 in Hg. lia.
Qed.
(** in particular for nonsingular matrices, as the slab matrices have to be *)
Theorem C50_nonsingular : forall A, wf_pmat A -> pm_rows A = pm_cols A -> (1 <= pm_cols A)%nat ->
  (forall x, (forall i, (i < pm_rows A)%nat -> sumn (pm_cols A) (fun j => pm_entry A i j * x j) = 0) -> forall j, (j < pm_cols A)%nat -> x j = 0) ->
  exists S, get_sparse_matrix A = Ok S /\ sp_rows S = pm_rows A /\ sp_cols S = pm_cols A.
Proof.
  intros A HW Hsq Hc Hinj.
  assert (HL : stored A (pm_cols A - 1)).
  { destruct (existsb (fun k => Nat.eqb (nth k (aj (pm_csr A)) 0%nat) (pm_cols A - 1)) (seq 0 (List.length (aj (pm_csr A))))) eqn:Ex.
    - apply existsb_exists in Ex. destruct Ex as [k [Hk E]]. apply in_seq in Hk. apply Nat.eqb_eq in E. exists k. split; [lia|exact E].
    - exfalso. assert (H1 : unitv (pm_cols A - 1) (pm_cols A - 1)%nat = 0).
      { apply Hinj; [|lia]. intros i Hi. apply Rsum_zero. intros j Hj. apply in_seq in Hj.
        unfold unitv, delta. destruct (Nat.eqb_spec (pm_cols A - 1) j) as [E|]; [|ring].
        assert (Z : pm_entry A i j = 0); [|rewrite Z; ring]. unfold pm_entry, csr_entry. apply Rsum_zero. intros k Hk.
        destruct (Nat.eqb_spec (nth k (aj (pm_csr A)) 0%nat) j) as [E2|]; [|reflexivity]. exfalso.
        assert (Hkl : (k < List.length (aj (pm_csr A)))%nat).
        { destruct HW as [W1 [W2 [W3 [W4 _]]]]. unfold row_of in Hk. apply in_seq in Hk. rewrite <- W4.
          assert (Mono : forall m, (S i + m <= pm_rows A)%nat -> (nth (S i) (ai (pm_csr A)) 0 <= nth (S i + m) (ai (pm_csr A)) 0)%nat).
          { induction m as [|m IH]; intro Hm; [rewrite Nat.add_0_r; lia|]. specialize (IH ltac:(lia)). specialize (W3 (S i + m)%nat ltac:(lia)).
            replace (S i + S m)%nat with (S (S i + m)) by lia. lia. }
          specialize (Mono (pm_rows A - S i)%nat ltac:(lia)). replace (S i + (pm_rows A - S i))%nat with (pm_rows A) in Mono by lia. lia. }
        assert (Hf : existsb (fun k => Nat.eqb (nth k (aj (pm_csr A)) 0%nat) (pm_cols A - 1)) (seq 0 (List.length (aj (pm_csr A)))) = true).
        { apply existsb_exists. exists k. split; [apply in_seq; lia|]. apply Nat.eqb_eq. lia. }
        congruence. }
      unfold unitv, delta in H1. rewrite Nat.eqb_refl in H1. lra. }
  assert (Hne : aj (pm_csr A) <> []). { intro H. destruct HL as [k [Hk _]]. rewrite H in Hk. cbn in Hk. lia. }
  destruct (proj2 (C50_accepted A HW) Hne) as [S HS]. exists S. split; [exact HS|].
  split; [exact (proj1 (C50_entries A S HW HS))|]. apply (C50_shape A S HW HS Hc). exact HL.
Qed.
(** a matrix whose last column is empty loses it *)
Definition ex_pm : pmat := mkPmat 2 3 (mkCsr [0; 2; 3]%nat [0; 1; 1]%nat [1; 2; 3]).
Example C50_nonvacuous : wf_pmat ex_pm /\ exists S, get_sparse_matrix ex_pm = Ok S /\ sp_rows S = 2%nat /\ sp_cols S = 2%nat /\
  sp_entry S 0 1 = 2 /\ sp_entry S 1 1 = 3 /\ sp_entry S 1 0 = 0.
Proof.
  split.
  - repeat split; cbn; try lia.
    + intros [|[|i]] H; cbn; lia.
    + intros [|[|[|k]]] H; cbn; lia.
  - eexists. split; [reflexivity|]. split; [reflexivity|]. split; [reflexivity|]. unfold sp_entry, csr_entry, row_of, ex_pm.
    cbn [sp_indptr sp_indices sp_data pm_csr ai aj av nth Nat.sub seq]. repeat split; rewrite ?Rsum_cons, ?Rsum_nil; cbn [nth Nat.eqb]; lra.
Qed.

(** * C51 *)
(** what happens, in order: two checks, then the call in phase 33 for the object's
    own matrix, then the assignment *)
Theorem C51_solve : forall A pd b x s,
  let out := PySolver_solve A pd b x s in
  match fst out with
  | Ok _ => exists b' r, pd_check_A pd A = Ok tt /\ pd_check_b pd A (ps_heap s b) = Ok b' /\ pd_call pd 33 A b' = Ok r /\
      ps_phase (snd out) = 33%nat /\
      (forall k, k <> x -> ps_heap (snd out) k = ps_heap s k) /\
      (List.length r = List.length (ps_heap s x) -> ps_heap (snd out) x = r) /\
      (List.length r <> List.length (ps_heap s x) -> exists a, r = [a] /\ ps_heap (snd out) x = map (fun _ => a) (ps_heap s x))
  | Err e => ps_heap (snd out) = ps_heap s /\
      (pd_check_A pd A = Err e \/ pd_check_b pd A (ps_heap s b) = Err e \/
       (exists b', pd_check_b pd A (ps_heap s b) = Ok b' /\ (pd_call pd 33 A b' = Err e \/
          exists r, pd_call pd 33 A b' = Ok r /\ e = ValueError /\ List.length r <> List.length (ps_heap s x))))
  end.
Proof.
  intros A pd b x s out. unfold out, PySolver_solve, bind, lift, get, modify.
  destruct (pd_check_A pd A) as [[]|e] eqn:E1; cbn [fst snd]; [|split; [reflexivity|left; reflexivity]].
  destruct (pd_check_b pd A (ps_heap s b)) as [b'|e] eqn:E2; cbn [fst snd]; [|split; [reflexivity|auto]].
  cbn [ps_phase ps_heap]. destruct (pd_call pd 33 A b') as [r|e] eqn:E3; cbn [fst snd]; [|split; [reflexivity|right; right; exists b'; auto]].
  unfold array_assign. destruct (Nat.eqb_spec (List.length r) (List.length (ps_heap s x))) as [HL|HL].
  - cbn [fst snd ps_phase ps_heap]. exists b', r. do 4 (split; [auto|]). split; [|split].
    + intros k Hk. destruct (Nat.eqb_spec k x); [contradiction|reflexivity].
    + intros _. rewrite Nat.eqb_refl. reflexivity.
    + intro H. contradiction.
  - destruct r as [|a [|a' r]]; cbn [fst snd ps_phase ps_heap].
    + split; [reflexivity|]. right; right. exists b'. split; [reflexivity|]. right. exists []. auto.
    + exists b', [a]. do 4 (split; [auto|]). split; [|split].
      * intros k Hk. destruct (Nat.eqb_spec k x); [contradiction|reflexivity].
      * intro H. contradiction.
      * intros _. exists a. rewrite Nat.eqb_refl. auto.
    + split; [reflexivity|]. right; right. exists b'. split; [reflexivity|]. right. exists (a :: a' :: r). auto.
Qed.
Theorem C51_warns : forall have A pd, snd (PySolver_init have A pd) = true <-> have = false.
Proof. intros [] A pd; cbn; split; congruence. Qed.

(** a PyPardiso object that solves with the matrix it is given *)
Definition solves (pd : pardiso) (A : spmat) : Prop :=
  (forall b b', pd_check_b pd A b = Ok b' -> b' = b) /\
  forall b r, List.length b = sp_rows A -> pd_call pd 33 A b = Ok r ->
    List.length r = sp_cols A /\ forall i, (i < sp_rows A)%nat -> sumn (sp_cols A) (fun j => sp_entry A i j * nth j r 0) = nth i b 0.
Lemma entries_length n v : List.length (entries n v) = n.
Proof. unfold entries. rewrite map_length, seq_length. reflexivity. Qed.
Lemma entries_nth n v i : (i < n)%nat -> nth i (entries n v) 0 = v i.
Proof. intro H. unfold entries. rewrite (nth_indep _ 0 (v 0%nat)) by (rewrite map_length, seq_length; exact H). rewrite map_nth, seq_nth by exact H. reflexivity. Qed.
(** as a slab solver: exact for the exported matrix if the shapes agree *)
Theorem C51_exact : forall n M A pd phase,
  wf_pmat M -> pm_rows M = n -> pm_cols M = n -> get_sparse_matrix M = Ok A -> sp_cols A = n -> solves pd A ->
  exact n (pm_entry M) (py_solver n A pd phase).
Proof.
  intros n M A pd phase HW Hr Hc HA HcA [HB HS] b x u Hu J HJ. destruct (C50_entries M A HW HA) as [R1 [R2 R3]].
  unfold py_solver in Hu.
  pose proof (C51_solve A pd 0 1 (mkPs phase (fun k => if Nat.eqb k 0 then entries n b else entries n x))) as H. cbv zeta in H.
  destruct (PySolver_solve A pd 0 1 _) as [[[]|e] s']; [|discriminate]. injection Hu as <-. cbn [fst snd ps_heap Nat.eqb] in H.
  destruct H as [b' [r [_ [H2 [H3 [_ [_ [H5 _]]]]]]]]. apply HB in H2. subst b'.
  destruct (HS (entries n b) r (eq_trans (entries_length n b) (eq_sym (eq_trans R1 Hr))) H3) as [L1 L2].
  rewrite H5 by (rewrite entries_length; lia).
  unfold mult. specialize (L2 J ltac:(lia)). rewrite entries_nth in L2 by exact HJ. rewrite <- L2. rewrite HcA.
  unfold of_list. apply Rsum_ext. intro j. rewrite R2. reflexivity.
Qed.
(** the shape condition matters: with an empty last column the output is refused *)
Theorem C51_wrong_shape : forall n M A pd phase b x, (2 <= n)%nat ->
  wf_pmat M -> pm_rows M = n -> pm_cols M = n -> get_sparse_matrix M = Ok A -> ~ stored M (n - 1) -> solves pd A -> sp_cols A <> 1%nat ->
  exists e, py_solver n A pd phase b x = Err e.
Proof.
  intros n M A pd phase b x Hn HW Hr Hc HA Hns [HB HS] H1. destruct (C50_entries M A HW HA) as [R1 _].
  destruct (C50_shape M A HW HA ltac:(lia)) as [HI HL].
  assert (Hne : sp_cols A <> n) by (intro H; apply Hns; rewrite <- Hc; apply HI; lia).
  unfold py_solver. pose proof (C51_solve A pd 0 1 (mkPs phase (fun k => if Nat.eqb k 0 then entries n b else entries n x))) as H. cbv zeta in H.
  destruct (PySolver_solve A pd 0 1 _) as [[[]|e] s']; [|eexists; reflexivity]. cbn [fst snd ps_heap Nat.eqb] in H. exfalso.
  destruct H as [b' [r [_ [H2 [H3 [_ [_ [_ H6]]]]]]]]. apply HB in H2. subst b'.
  destruct (HS (entries n b) r (eq_trans (entries_length n b) (eq_sym (eq_trans R1 Hr))) H3) as [L1 L2].
  rewrite entries_length in H6. destruct (H6 ltac:(lia)) as [a [-> _]]. cbn in L1. lia.
Qed.

(** a 2 x 2 matrix, solved by back substitution in phase 33 *)
Definition ex_sq : pmat := mkPmat 2 2 (mkCsr [0; 2; 3]%nat [0; 1; 1]%nat [1; 2; 3]).
Definition ex_pd : pardiso := mkPd (fun _ => Ok tt) (fun _ b => Ok b)
  (fun phase _ b => if Nat.eqb phase 33 then Ok [nth 0 b 0 - 2 * (nth 1 b 0 / 3); nth 1 b 0 / 3] else Err RuntimeError).
Example C51_nonvacuous : exists A, wf_pmat ex_sq /\ get_sparse_matrix ex_sq = Ok A /\ sp_cols A = 2%nat /\ solves ex_pd A /\
  exists u, py_solver 2 A ex_pd 13 (fun i => INR i + 3) (fun _ => 7) = Ok u /\ u 0%nat = 1 / 3 /\ u 1%nat = 4 / 3.
Proof.
  eexists. split.
  { repeat split; cbn; try lia.
    - intros [|[|i]] H; cbn; lia.
    - intros [|[|[|k]]] H; cbn; lia. }
  split; [reflexivity|]. split; [reflexivity|]. split.
  - split; [intros b b' H; injection H as <-; reflexivity|].
    intros b r Hb H. cbn in Hb. cbn [ex_pd pd_call Nat.eqb] in H. injection H as <-. split; [reflexivity|].
    destruct b as [|x [|y [|? ?]]]; try discriminate Hb. unfold sp_entry, csr_entry, row_of, ex_sq. cbn [sp_rows sp_cols].
    intros [|[|i]] Hi; [| |cbn in Hi; lia];
    cbn [sp_indptr sp_indices sp_data pm_csr ai aj av nth Nat.sub seq list_max fold_right Nat.max]; rewrite !Rsum_cons, !Rsum_nil;
    cbn [nth Nat.eqb]; field.
  - eexists. split; [reflexivity|]. cbn. split; field.
Qed.

(** * C52 *)
Theorem C52_unpack : forall j w, unpack2 (pp_iter (mkPP j w)) = Ok (j, w).
Proof. reflexivity. Qed.
(** so the object runs in the requested mode *)
Theorem C52_mode : forall P c pp, construct P = Ok c -> unpack2 (pp_iter pp) = Ok (p_jumps P, p_wp P) ->
  c_jumps c = jumps_in_fw_problem pp /\ c_wp c = well_posed pp.
Proof.
  intros P c [j w] HC H. pose proof (construct_inv _ _ HC) as HB. rewrite C52_unpack in H. injection H as -> ->.
  split; [exact (bu_jumps _ _ HB)|exact (bu_wp _ _ HB)].
Qed.
(** (False, False) by default *)
Example C52_default : unpack2 (pp_iter (mkPP false false)) = Ok (false, false).
Proof. reflexivity. Qed.

(** * C53 *)
Definition mark (b : bool) : R := if b then 1 else 0.
Lemma put_masked_const vals m a : List.length m = List.length vals ->
  put_masked vals m (repeat a (count m)) = map (fun '(v, b) => if (b : bool) then a else v) (combine vals m).
Proof.
  revert m. induction vals as [|v vals IH]; intros [|b m] H; try discriminate; [reflexivity|]. cbn [List.length] in H.
  injection H as H. destruct b; cbn [put_masked count filter List.length repeat combine map]; rewrite <- IH by exact H; reflexivity.
Qed.
Lemma mask_assign_const vals m a : List.length m = List.length vals ->
  mask_assign vals m (repeat a (count m)) = Ok (map (fun '(v, b) => if (b : bool) then a else v) (combine vals m)).
Proof. intro H. unfold mask_assign. rewrite H, Nat.eqb_refl, repeat_length, Nat.eqb_refl. cbn [negb]. rewrite put_masked_const by exact H. reflexivity. Qed.
Lemma indicator_mask m : indicator_of (List.length m) (Ok m) = Ok (map mark m).
Proof.
  unfold indicator_of, rbind. rewrite mask_assign_const by (rewrite repeat_length; reflexivity).
  rewrite mask_assign_const by (unfold invert; rewrite !map_length, combine_length, repeat_length; lia).
  f_equal. induction m as [|b m IH]; [reflexivity|]. cbn [List.length repeat combine map invert negb]. f_equal; [destruct b; reflexivity|exact IH].
Qed.
Lemma zip_map {A} f (g h : A -> bool) l : zip_with f (map g l) (map h l) = Ok (map (fun p => f (g p) (h p)) l).
Proof. induction l as [|a l IH]; [reflexivity|]. cbn. rewrite IH. reflexivity. Qed.
Lemma le_row x k c : le_ (row x k) c = map (fun p => rle (nth k p 0) c) x.
Proof. unfold le_, row. rewrite map_map. reflexivity. Qed.
Lemma ge_row x k c : ge_ (row x k) c = map (fun p => rle c (nth k p 0)) x.
Proof. unfold ge_, row. rewrite map_map. reflexivity. Qed.
Lemma indicator_map f (x : points) : indicator_of (List.length x) (Ok (map f x)) = Ok (map (fun p => mark (f p)) x).
Proof. rewrite <- (map_length f x). rewrite indicator_mask, map_map. reflexivity. Qed.
(** one on the set, zero elsewhere *)
Definition char (x : points) (S : list R -> Prop) (v : list R) : Prop :=
  List.length v = List.length x /\ forall i, (i < List.length x)%nat ->
    (S (nth i x []) -> nth i v 0 = 1) /\ (~ S (nth i x []) -> nth i v 0 = 0).
Lemma char_map x (S : list R -> Prop) f : (forall p, f p = true <-> S p) -> char x S (map (fun p => mark (f p)) x).
Proof.
  intro H. split; [apply map_length|]. intros i Hi.
  assert (E : nth i (map (fun p => mark (f p)) x) 0 = mark (f (nth i x []))).
  { rewrite (nth_indep _ 0 (mark (f []))) by (rewrite map_length; exact Hi). rewrite (map_nth (fun p => mark (f p))). reflexivity. }
  rewrite E. split; intro Hs.
  - rewrite (proj2 (H _) Hs). reflexivity.
  - destruct (f (nth i x [])) eqn:Ef; [|reflexivity]. exfalso. apply Hs, H, Ef.
Qed.
Lemma rle_true a b : rle a b = true <-> a <= b.
Proof. unfold rle. destruct (Rle_dec a b); split; try congruence; intros; lra. Qed.
Notation co k p := (nth k (p : list R) 0).
Theorem C53_1d : forall x,
  (exists v, omega_ind_convex_1d x = Ok v /\ char x (fun p => co 0 p <= 1/5 \/ 4/5 <= co 0 p) v) /\
  (exists v, omega_ind_nogcc_1d x = Ok v /\ char x (fun p => co 0 p <= 1/5) v).
Proof.
  intro x. split; unfold omega_ind_convex_1d, omega_ind_nogcc_1d; rewrite ?le_row, ?ge_row; unfold logical_or, rbind; rewrite ?zip_map, indicator_map;
    (eexists; split; [reflexivity|]; apply char_map; intro p; rewrite ?orb_true_iff, !rle_true; decimals; lra).
Qed.
Theorem C53_2d : forall x, exists v, omega_ind_convex_2d x = Ok v /\
  char x (fun p => co 0 p <= 1/5 \/ 4/5 <= co 0 p \/ co 1 p <= 1/5 \/ 4/5 <= co 1 p) v.
Proof.
  intro x. unfold omega_ind_convex_2d. rewrite !le_row, !ge_row. unfold logical_or, rbind. rewrite !zip_map, indicator_map.
  eexists; split; [reflexivity|]. apply char_map; intro p. rewrite !orb_true_iff, !rle_true. decimals. lra.
Qed.
(** 3D: the data domain of the two variants *)
Definition near_boundary (p : list R) : Prop := exists k, (k < 3)%nat /\ (co k p <= 1/4 \/ 3/4 <= co k p).
Definition outside_box (p : list R) : Prop := exists k, (k < 3)%nat /\ (co k p < 1/4 \/ 3/4 < co k p).
Lemma ex3 (Q : nat -> Prop) : (exists k, (k < 3)%nat /\ Q k) <-> Q 0%nat \/ Q 1%nat \/ Q 2%nat.
Proof.
  split.
  - intros [k [Hk H]]. destruct k as [|[|[|k]]]; auto; lia.
  - intros [H|[H|H]]; [exists 0%nat|exists 1%nat|exists 2%nat]; split; auto.
Qed.
Theorem C53_3d : forall x, exists v, omega_ind_3d x = Ok v /\ char x near_boundary v.
Proof.
  intro x. unfold omega_ind_3d. rewrite !le_row, !ge_row. unfold logical_or, rbind. rewrite !zip_map, indicator_map.
  eexists; split; [reflexivity|]. apply char_map; intro p. unfold near_boundary. rewrite ex3.
  rewrite !orb_true_iff, !rle_true. unfold DATA_SIZE. decimals. lra.
Qed.
Theorem C53_3d_ufl : forall p, (outside_box p -> omega_ind_3d_ufl p = 1) /\ (~ outside_box p -> omega_ind_3d_ufl p = 0).
Proof.
  intro p. unfold omega_ind_3d_ufl, outside_box. rewrite ex3.
  match goal with |- context [if negb ?b then _ else _] => assert (HB : b = true <-> (1/4 <= co 0 p <= 3/4) /\ (1/4 <= co 1 p <= 3/4) /\ (1/4 <= co 2 p <= 3/4)) end.
  { rewrite !andb_true_iff, !rle_true. unfold DATA_SIZE. decimals. lra. }
  match goal with |- context [if negb ?b then _ else _] => destruct b end; cbn [negb]; split; intro H.
  - exfalso. pose proof (proj1 HB eq_refl). lra.
  - reflexivity.
  - reflexivity.
  - exfalso. assert (false = true) by (apply HB; lra). discriminate.
Qed.
(** the two variants differ exactly on the faces of the inner box *)
Theorem C53_3d_variants : forall x v i, omega_ind_3d x = Ok v -> (i < List.length x)%nat ->
  let p := nth i x [] in
  (nth i v 0 <> omega_ind_3d_ufl p <-> ~ outside_box p /\ exists k, (k < 3)%nat /\ (co k p = 1/4 \/ co k p = 3/4)).
Proof.
  intros x v i Hv Hi p. destruct (C53_3d x) as [v' [Hv' [_ HC]]]. rewrite Hv in Hv'. injection Hv' as <-.
  specialize (HC i Hi). fold p in HC. destruct HC as [C1 C2]. destruct (C53_3d_ufl p) as [U1 U2].
  unfold near_boundary, outside_box in *. rewrite !ex3 in *. set (a := nth 0 p 0) in *. set (b := nth 1 p 0) in *. set (c := nth 2 p 0) in *.
  assert (Dn : (a <= 1/4 \/ 3/4 <= a) \/ (b <= 1/4 \/ 3/4 <= b) \/ c <= 1/4 \/ 3/4 <= c \/ ~ ((a <= 1 / 4 \/ 3 / 4 <= a) \/ (b <= 1 / 4 \/ 3 / 4 <= b) \/ c <= 1 / 4 \/ 3 / 4 <= c)) by lra.
  assert (Do : ((a < 1/4 \/ 3/4 < a) \/ (b < 1/4 \/ 3/4 < b) \/ c < 1/4 \/ 3/4 < c) \/ ~ ((a < 1 / 4 \/ 3 / 4 < a) \/ (b < 1 / 4 \/ 3 / 4 < b) \/ c < 1 / 4 \/ 3 / 4 < c)) by lra.
  split.
  - intro H. destruct Do as [Do|Do].
    + rewrite (U1 Do) in H. rewrite C1 in H by lra. contradiction.
    + split; [exact Do|]. rewrite (U2 Do) in H. apply Classical_Prop.NNPP. intro Hn. apply H. apply C2. lra.
  - intros [Ho Hb]. rewrite (U2 Ho). rewrite C1 by lra. lra.
Qed.
Theorem C53_3d_side : forall x, exists v, omega_ind_3d_side x = Ok v /\ char x (fun p => 0 <= co 0 p <= 1/4) v /\
  forall i, (i < List.length x)%nat -> nth i v 0 = omega_ind_3d_side_ufl (nth i x []).
Proof.
  intro x. unfold omega_ind_3d_side. rewrite !le_row, !ge_row. unfold logical_and, rbind. rewrite !zip_map, indicator_map.
  eexists; split; [reflexivity|]. split.
  - apply char_map; intro p. rewrite !andb_true_iff, !rle_true. unfold DATA_SIZE. decimals. lra.
  - intros i Hi. rewrite (nth_indep _ 0 (mark (rle (co 0 (@nil R)) DATA_SIZE && rle 0.0 (co 0 (@nil R))))) by (rewrite map_length; exact Hi).
    rewrite (map_nth (fun p => mark (rle (co 0 p) DATA_SIZE && rle 0.0 (co 0 p)))). reflexivity.
Qed.
Example C53_nonvacuous : exists v, omega_ind_convex_2d [[1/10; 1/2]; [1/2; 1/2]; [1/2; 9/10]] = Ok v /\ v = [1; 0; 1].
Proof.
  destruct (C53_2d [[1/10; 1/2]; [1/2; 1/2]; [1/2; 9/10]]) as [v [Hv [HL HC]]]. exists v. split; [exact Hv|].
  destruct v as [|a [|b [|c [|d v]]]]; try discriminate HL. pose proof (HC 0%nat ltac:(cbn; lia)) as [H0 _].
  pose proof (HC 1%nat ltac:(cbn; lia)) as [_ H1]. pose proof (HC 2%nat ltac:(cbn; lia)) as [H2 _]. cbn in *.
  rewrite H0, H1, H2; [reflexivity|right; right; right; lra|lra|left; lra].
Qed.

(** * C54 *)
Ltac rring := match goal with |- @eq _ ?a ?b => change (@eq R a b) end; ring.
(** u solves u_tt = u_xx + u_yy + ... and v = u_t, at every time and point of a
    domain of dimension d; the partial derivatives are those in the k-th
    coordinate *)
Definition with_coord (k : nat) (h : R) (x : list R) : list R := firstn k x ++ h :: skipn (S k) x.
Definition wave_solution (d : nat) (u v : R -> list R -> R) : Prop :=
  forall t x, List.length x = d ->
  is_derive (fun s => u s x) t (v t x) /\
  exists utt (uxx : nat -> R), is_derive_n (fun s => u s x) 2 t utt /\
    (forall k, (k < d)%nat -> is_derive_n (fun h => u t (with_coord k h x)) 2 (nth k x 0) (uxx k)) /\ utt = sumn d uxx.
(** u vanishes on the boundary of the unit cube (the start of the boundary in
    each coordinate: 0 and 1) *)
Definition vanishes (d : nat) (u : R -> list R -> R) : Prop :=
  forall t x, List.length x = d -> (exists k, (k < d)%nat /\ (nth k x 0 = 0 \/ nth k x 0 = 1)) -> u t x = 0.

Lemma two_derivs (f g : R -> R) x l : (forall y, is_derive f y (g y)) -> is_derive g x l -> is_derive_n f 2 x l.
Proof.
  intros Hf Hg. cbn. apply (is_derive_ext g); [|exact Hg]. intro y. symmetry. apply is_derive_unique, Hf.
Qed.
Lemma d_cos a c t : is_derive (fun s => c * cos (a * s)) t (c * - (a * sin (a * t))).
Proof. auto_derive; [exact Coq.Init.Logic.I|ring]. Qed.
Lemma d_sin a c t : is_derive (fun s => c * sin (a * s)) t (c * (a * cos (a * t))).
Proof. auto_derive; [exact Coq.Init.Logic.I|ring]. Qed.
Lemma dd_cos a c t : is_derive_n (fun s => c * cos (a * s)) 2 t (- (a * a) * (c * cos (a * t))).
Proof.
  apply (two_derivs _ (fun s => c * - (a * sin (a * s)))); [intro y; apply d_cos|].
  apply (is_derive_ext (fun s => (- c * a) * sin (a * s))); [intro s; rring|].
  replace (- (a * a) * (c * cos (a * t))) with ((- c * a) * (a * cos (a * t))) by ring. apply d_sin.
Qed.
Lemma dd_sin a c t : is_derive_n (fun s => c * sin (a * s)) 2 t (- (a * a) * (c * sin (a * t))).
Proof.
  apply (two_derivs _ (fun s => c * (a * cos (a * s)))); [intro y; apply d_sin|].
  apply (is_derive_ext (fun s => (c * a) * cos (a * s))); [intro s; rring|].
  replace (- (a * a) * (c * sin (a * t))) with ((c * a) * - (a * sin (a * t))) by ring. apply d_cos.
Qed.
Lemma sin_0_1 x : x = 0 \/ x = 1 -> sin (PI * x) = 0.
Proof. intros [->| ->]; [rewrite Rmult_0_r; apply sin_0|rewrite Rmult_1_r; apply sin_PI]. Qed.
Lemma sin2_0_1 x : x = 0 \/ x = 1 -> sin (2 * PI * x) = 0.
Proof. intros [->| ->]; [rewrite Rmult_0_r; apply sin_0|rewrite Rmult_1_r; apply sin_2PI]. Qed.

Theorem C54_1d : wave_solution 1 sample_sol_1d dt_sample_sol_1d /\ vanishes 1 sample_sol_1d.
Proof.
  split.
  - intros t [|x [|? ?]] HL; try discriminate. unfold sample_sol_1d, dt_sample_sol_1d. cbn [nth with_coord firstn skipn app].
    split.
    + apply (is_derive_ext (fun s => sin (2 * PI * x) * cos ((2 * PI) * s))); [intro s; rring|].
      replace (-2 * PI * sin (2 * PI * t) * sin (2 * PI * x)) with (sin (2 * PI * x) * - (2 * PI * sin (2 * PI * t))) by ring. apply d_cos.
    + exists (- ((2 * PI) * (2 * PI)) * (sin (2 * PI * x) * cos (2 * PI * t))), (fun _ => - ((2 * PI) * (2 * PI)) * (cos (2 * PI * t) * sin (2 * PI * x))).
      split; [|split].
      * apply (is_derive_n_ext (fun s => sin (2 * PI * x) * cos ((2 * PI) * s))); [intro s; rring|]. apply dd_cos.
      * intros k Hk. destruct k as [|k]; [|lia]. cbn [nth with_coord firstn skipn app]. apply dd_sin.
      * cbn [seq]. rewrite Rsum_cons, Rsum_nil. ring.
  - intros t [|x [|? ?]] HL [k [Hk H]]; try discriminate. destruct k as [|k]; [|lia]. cbn [nth] in H.
    unfold sample_sol_1d. cbn [nth]. rewrite (sin2_0_1 x H). ring.
Qed.
Theorem C54_2d : wave_solution 2 sample_sol_2d dt_sample_sol_2d /\ vanishes 2 sample_sol_2d.
Proof.
  assert (S2 : sqrt 2 * sqrt 2 = 2) by (apply sqrt_sqrt; lra).
  split.
  - intros t [|x [|y [|? ?]]] HL; try discriminate. unfold sample_sol_2d, dt_sample_sol_2d. cbn [nth with_coord firstn skipn app].
    split.
    + apply (is_derive_ext (fun s => (sin (PI * x) * sin (PI * y)) * cos ((sqrt 2 * PI) * s))); [intro s; rring|].
      replace (- sqrt 2 * PI * sin (sqrt 2 * PI * t) * sin (PI * x) * sin (PI * y))
        with ((sin (PI * x) * sin (PI * y)) * - (sqrt 2 * PI * sin (sqrt 2 * PI * t))) by ring. apply d_cos.
    + set (u := cos (sqrt 2 * PI * t) * sin (PI * x) * sin (PI * y)).
      exists (- ((sqrt 2 * PI) * (sqrt 2 * PI)) * u), (fun _ => - (PI * PI) * u). split; [|split].
      * apply (is_derive_n_ext (fun s => (sin (PI * x) * sin (PI * y)) * cos ((sqrt 2 * PI) * s))); [intro s; rring|].
        replace u with ((sin (PI * x) * sin (PI * y)) * cos ((sqrt 2 * PI) * t)) by (unfold u; ring). apply dd_cos.
      * intros k Hk. destruct k as [|[|k]]; [| |lia]; cbn [nth with_coord firstn skipn app].
        -- apply (is_derive_n_ext (fun h => (cos (sqrt 2 * PI * t) * sin (PI * y)) * sin (PI * h))); [intro s; rring|].
           replace u with ((cos (sqrt 2 * PI * t) * sin (PI * y)) * sin (PI * x)) by (unfold u; ring). apply dd_sin.
        -- apply dd_sin.
      * cbn [seq]. rewrite !Rsum_cons, Rsum_nil. replace (- (sqrt 2 * PI * (sqrt 2 * PI)) * u) with (- ((sqrt 2 * sqrt 2) * PI * PI) * u) by ring. rewrite S2. ring.
  - intros t [|x [|y [|? ?]]] HL [k [Hk H]]; try discriminate. unfold sample_sol_2d. cbn [nth].
    destruct k as [|[|k]]; [| |lia]; cbn [nth] in H; rewrite (sin_0_1 _ H); ring.
Qed.
Theorem C54_3d : wave_solution 3 sample_sol_3d dt_sample_sol_3d /\ vanishes 3 sample_sol_3d.
Proof.
  assert (S3 : sqrt 3 * sqrt 3 = 3) by (apply sqrt_sqrt; lra).
  split.
  - intros t [|x [|y [|w [|? ?]]]] HL; try discriminate. unfold sample_sol_3d, dt_sample_sol_3d. cbn [nth with_coord firstn skipn app].
    split.
    + apply (is_derive_ext (fun s => (sin (PI * x) * sin (PI * y) * sin (PI * w)) * cos ((sqrt 3 * PI) * s))); [intro s; rring|].
      replace (- sqrt 3 * PI * sin (sqrt 3 * PI * t) * sin (PI * x) * sin (PI * y) * sin (PI * w))
        with ((sin (PI * x) * sin (PI * y) * sin (PI * w)) * - (sqrt 3 * PI * sin (sqrt 3 * PI * t))) by ring. apply d_cos.
    + set (u := cos (sqrt 3 * PI * t) * sin (PI * x) * sin (PI * y) * sin (PI * w)).
      exists (- ((sqrt 3 * PI) * (sqrt 3 * PI)) * u), (fun _ => - (PI * PI) * u). split; [|split].
      * apply (is_derive_n_ext (fun s => (sin (PI * x) * sin (PI * y) * sin (PI * w)) * cos ((sqrt 3 * PI) * s))); [intro s; rring|].
        replace u with ((sin (PI * x) * sin (PI * y) * sin (PI * w)) * cos ((sqrt 3 * PI) * t)) by (unfold u; ring). apply dd_cos.
      * intros k Hk. destruct k as [|[|[|k]]]; [| | |lia]; cbn [nth with_coord firstn skipn app].
        -- apply (is_derive_n_ext (fun h => (cos (sqrt 3 * PI * t) * sin (PI * y) * sin (PI * w)) * sin (PI * h))); [intro s; rring|].
           replace u with ((cos (sqrt 3 * PI * t) * sin (PI * y) * sin (PI * w)) * sin (PI * x)) by (unfold u; ring). apply dd_sin.
        -- apply (is_derive_n_ext (fun h => (cos (sqrt 3 * PI * t) * sin (PI * x) * sin (PI * w)) * sin (PI * h))); [intro s; rring|].
           replace u with ((cos (sqrt 3 * PI * t) * sin (PI * x) * sin (PI * w)) * sin (PI * y)) by (unfold u; ring). apply dd_sin.
        -- apply dd_sin.
      * cbn [seq]. rewrite !Rsum_cons, Rsum_nil. replace (- (sqrt 3 * PI * (sqrt 3 * PI)) * u) with (- ((sqrt 3 * sqrt 3) * PI * PI) * u) by ring. rewrite S3. ring.
  - intros t [|x [|y [|w [|? ?]]]] HL [k [Hk H]]; try discriminate. unfold sample_sol_3d. cbn [nth].
    destruct k as [|[|[|k]]]; [| | |lia]; cbn [nth] in H; rewrite (sin_0_1 _ H); ring.
Qed.
(** the solutions are not the zero function *)
Example C54_nonvacuous : sample_sol_2d 0 [1/2; 1/2] = 1.
Proof.
  unfold sample_sol_2d. cbn [nth]. rewrite Rmult_0_r, cos_0. replace (PI * (1/2)) with (PI / 2) by field. rewrite sin_PI2. ring.
Qed.

Print Assumptions C50_entries.
Print Assumptions C50_nonsingular.
Print Assumptions C51_exact.
Print Assumptions C52_mode.
Print Assumptions C53_1d.
Print Assumptions C53_3d_ufl.
Print Assumptions C54_1d.
Print Assumptions C54_3d.
Print Assumptions C50_refused.
