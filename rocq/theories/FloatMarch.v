(** FloatMarch.v -- pre_time_marching_improved in double precision
    (/repo/src/dxss/space_time.py:1260-1327).  Doubles as in FloatModel.v.

    The solvers of the slabs are arbitrary functions of the right hand side and of what uh_pre
    contains.  The loops are written for any type of numbers: with the reals they are those of
    SpaceTimeModel.v (C97_reals). *)
From Coq Require Import ZArith List Bool Lia.
From Coq Require Import Floats.SpecFloat.
From Verif Require Import Base FormModel FormSpec FormProofs SpaceTimeForms FormBlocks SpaceTimeModel SlabOps ApplyProofs FloatModel FloatApply FloatApplyProofs.
Import ListNotations.

Section March.
  Context {V : Type}.
  Variables (zero : V) (add : V -> V -> V).
  Variable E : env.
  (** SolverFirstSlab.solve, solver_slab.solve: right hand side, content of uh_pre *)
  Variables (sol0 sol1 : (nat -> V) -> (nat -> V) -> nat -> V).
  (** scaled_mass_matrix_between_slices.mult *)
  Variable mM : (nat -> V) -> nat -> V.
  (** whether x_sol is the vector b itself *)
  Variable same : bool.
  Variable b : nat -> V.
  Definition top_pairs : pairs := [((0, 0), (0, c_q (e_c E))); ((1, 0), (1, c_q (e_c E)))]%nat.
  Definition bottom_pairs : pairs := [((0, 0), (0, 0)); ((1, 0), (1, 0))]%nat.
  (** one pass of the loop over the slabs (space_time.py:1277-1322); [r], [uh], [x]: b_rhs_pre,
      uh_pre, x_sol *)
  Definition march_pass (n : nat) (k : counters) (st : (nat -> V) * (nat -> V) * (nat -> V)) : (nat -> V) * (nat -> V) * (nat -> V) :=
    let '(r, uh, x) := st in
    let r := copies add true (e_Lp E) (e_Lf E) (slab_pairs (e_c E) k) (if same then x else b) r in
    let uh := if Nat.eqb n 0 then sol0 r uh else sol1 r uh in
    let vin := copies add true (e_Lb E) (e_Lp E) top_pairs uh (fun _ => zero) in
    let r := copies add true (e_Lp E) (e_Lb E) bottom_pairs (mM vin) (fun _ => zero) in
    (r, uh, copies add false (e_Lf E) (e_Lp E) (flip_pairs (slab_pairs (e_c E) k)) uh x).
  Fixpoint march_passes (ns : list nat) (k : counters) (st : (nat -> V) * (nat -> V) * (nat -> V)) : (nat -> V) * (nat -> V) * (nat -> V) :=
    match ns with [] => st | n :: ns => march_passes ns (cnt_next (e_c E) k) (march_pass n k st) end.
  (** x_sol after the call; uh_pre and x_sol hold [uh] and [x] before it *)
  Definition march_loops (uh x : nat -> V) : nat -> V :=
    snd (march_passes (seq 0 (c_N (e_c E))) cnt0 (fun _ => zero, uh, if same then b else x)).
End March.

Definition f_march (E : env) (sol0 sol1 : (nat -> spec_float) -> (nat -> spec_float) -> nat -> spec_float) (M : frows) (same : bool)
  (b uh x : nat -> spec_float) : nat -> spec_float :=
  march_loops (fz 0) fadd E sol0 sol1 (f_mult M) same b uh x.

(** * What the loops compute *)
Section Loops.
  Context {V : Type}.
  Variables (zero : V) (add : V -> V -> V).
  Variable E : env.
  Notation c := (e_c E).
  Notation D := (e_D E).
  Notation val L v j i l := (v (dof L j i l)).
  Hypothesis HE : env_ok E.
  Variables (sol0 sol1 : (nat -> V) -> (nat -> V) -> nat -> V) (mM : (nat -> V) -> nat -> V).
  Notation dp := (lay_dim (e_Lp E)).
  (** a direct solver: the result at the dofs depends on the right hand side at the dofs only *)
  Definition direct_at (sol : (nat -> V) -> (nat -> V) -> nat -> V) : Prop :=
    forall r r' w w', (forall J, (J < dp)%nat -> r J = r' J) -> forall I, (I < dp)%nat -> sol r w I = sol r' w' I.
  Hypothesis H0 : direct_at sol0.
  Hypothesis H1 : direct_at sol1.
  Hypothesis HM : local (lay_dim (e_Lb E)) mM.
  Variable b : nat -> V.
  (** the values at the end of a slab, as scaled_mass_matrix_between_slices reads them *)
  Definition hand_in (u : nat -> V) : nat -> V := copies add true (e_Lb E) (e_Lp E) (top_pairs E) u (fun _ => zero).
  Definition carry (u : nat -> V) : nat -> V := copies add true (e_Lp E) (e_Lb E) bottom_pairs (mM (hand_in u)) (fun _ => zero).
  Definition load (n : nat) (r : nat -> V) : nat -> V := copies add true (e_Lp E) (e_Lf E) (slab_pairs c (cntn c n)) b r.
  (** the right hand side and the solution of slab [n] *)
  Fixpoint slab_sol (n : nat) : nat -> V :=
    match n with
    | O => sol0 (load 0 (fun _ => zero)) (fun _ => zero)
    | S m => sol1 (load (S m) (carry (slab_sol m))) (fun _ => zero)
    end.
  Definition slab_rhs (n : nat) : nat -> V := load n match n with O => fun _ => zero | S m => carry (slab_sol m) end.
  Lemma slab_sol_eq n : slab_sol n = (if Nat.eqb n 0 then sol0 else sol1) (slab_rhs n) (fun _ => zero).
  Proof. destruct n; reflexivity. Qed.
  Lemma top_valid : valid 2 4 nc_bnd (nc_pre c) (top_pairs E).
  Proof. intros a b0 a' b' [H|[H|[]]]; injection H as <- <- <- <-; unfold nc_bnd, nc_pre, ntime, sto; cbn; repeat split; lia. Qed.
  Lemma top_keys : NoDup (map fst (top_pairs E)).
  Proof. cbn. repeat constructor; cbn; intuition congruence. Qed.
  Lemma bottom_valid : valid 4 2 (nc_pre c) nc_bnd bottom_pairs.
  Proof. intros a b0 a' b' [H|[H|[]]]; injection H as <- <- <- <-; unfold nc_bnd, nc_pre, ntime, sto; cbn; repeat split; lia. Qed.
  Lemma bottom_keys : NoDup (map fst bottom_pairs).
  Proof. cbn. repeat constructor; cbn; intuition congruence. Qed.
  Lemma hand_in_at u j l : (j < 2)%nat -> (l < d_dim D (spc j))%nat -> val (e_Lb E) (hand_in u) j 0 l = add zero (val (e_Lp E) u j (c_q c) l).
  Proof.
    intros Hj Hl. unfold hand_in.
    rewrite (copies_hit zero add D 2 4 nc_bnd (nc_pre c) _ _ (eo_b _ HE) (eo_p _ HE) true _ _ _ j 0%nat j (c_q c) l); auto; [apply top_valid|apply top_keys|].
    destruct j as [|[|j]]; [left|right; left|lia]; reflexivity.
  Qed.
  Lemma carry_at u j i l : (j < 4)%nat -> (i < ntime c j)%nat -> (l < d_dim D (spc j))%nat ->
    val (e_Lp E) (carry u) j i l = if Nat.ltb j 2 && Nat.eqb i 0 then add zero (val (e_Lb E) (mM (hand_in u)) j 0 l) else zero.
  Proof.
    intros Hj Hi Hl. unfold carry.
    destruct (Nat.ltb_spec j 2) as [Hj2|Hj2]; [destruct (Nat.eqb_spec i 0) as [->|Hi0]|]; cbn [andb].
    - rewrite (copies_hit zero add D 4 2 (nc_pre c) nc_bnd _ _ (eo_p _ HE) (eo_b _ HE) true _ _ _ j 0%nat j 0%nat l); auto; [apply bottom_valid|apply bottom_keys|].
      destruct j as [|[|j]]; [left|right; left|lia]; reflexivity.
    - rewrite (copies_miss add D 4 2 (nc_pre c) nc_bnd _ _ (eo_p _ HE)); auto; [apply bottom_valid|]. cbn. intros [H|[H|[]]]; congruence.
    - rewrite (copies_miss add D 4 2 (nc_pre c) nc_bnd _ _ (eo_p _ HE)); auto; [apply bottom_valid|]. cbn. intros [H|[H|[]]]; injection H as <- <-; lia.
  Qed.
  Lemma load_at src n r j i l : (n < c_N c)%nat -> (j < 4)%nat -> (i < ntime c j)%nat -> (l < d_dim D (spc j))%nat ->
    val (e_Lp E) (copies add true (e_Lp E) (e_Lf E) (slab_pairs c (cntn c n)) src r) j i l = add (val (e_Lp E) r j i l) (val (e_Lf E) src j (n * ntime c j + i) l).
  Proof.
    intros Hn Hj Hi Hl.
    rewrite (copies_hit zero add D 4 4 (nc_pre c) (nc_full c) _ _ (eo_p _ HE) (eo_f _ HE) true _ _ _ j i j (n * ntime c j + i)%nat l); auto.
    - apply slab_valid; assumption.
    - apply slab_keys.
    - apply slab_in; auto.
  Qed.
  Lemma store_at v out n n' j i l : (n < c_N c)%nat -> (n' < c_N c)%nat -> (j < 4)%nat -> (i < ntime c j)%nat -> (l < d_dim D (spc j))%nat ->
    val (e_Lf E) (copies add false (e_Lf E) (e_Lp E) (flip_pairs (slab_pairs c (cntn c n))) v out) j (n' * ntime c j + i) l =
    if Nat.eqb n' n then val (e_Lp E) v j i l else val (e_Lf E) out j (n' * ntime c j + i) l.
  Proof.
    intros Hn Hn' Hj Hi Hl. destruct (Nat.eqb_spec n' n) as [->|Hne].
    - rewrite (copies_hit zero add D 4 4 (nc_full c) (nc_pre c) _ _ (eo_f _ HE) (eo_p _ HE) false _ _ _ j (n * ntime c j + i)%nat j i l); [reflexivity| | | |exact Hl].
      + apply slab_flip_valid; assumption.
      + apply slab_flip_keys; assumption.
      + apply in_flip. apply slab_in; auto.
    - apply (copies_miss add D 4 4 (nc_full c) (nc_pre c) _ _ (eo_f _ HE)); auto; [apply slab_flip_valid; assumption|unfold nc_full; nia|].
      intro H. apply in_map_iff in H as [[[a b0] [a' b']] [X H]]. cbn in X. injection X as -> ->. apply (proj1 (in_flip _ _ _)) in H.
      rewrite slab_pairs_emb in H. apply in_emb in H as [H [X1 X2]]. apply in_slab_idx in H as [Y1 Y2]. unfold up_slab, nc_pre in *. subst j.
      destruct (Nat.lt_total n' n) as [L|[L|L]]; [nia|contradiction|nia].
  Qed.
  Variable same : bool.
  Variable x0 : nat -> V.
  (** x_sol after [m] slabs *)
  Definition x_after (m n j i l : nat) : V :=
    if Nat.ltb n m then val (e_Lp E) (slab_sol n) j i l else if same then val (e_Lf E) b j (n * ntime c j + i) l else val (e_Lf E) x0 j (n * ntime c j + i) l.
  Definition inv (m : nat) (st : (nat -> V) * (nat -> V) * (nat -> V)) : Prop :=
    let '(r, uh, x) := st in
    (forall j i l, (j < 4)%nat -> (i < ntime c j)%nat -> (l < d_dim D (spc j))%nat ->
       val (e_Lp E) r j i l = val (e_Lp E) match m with O => fun _ => zero | S k => carry (slab_sol k) end j i l)
    /\ forall n j i l, (n < c_N c)%nat -> (j < 4)%nat -> (i < ntime c j)%nat -> (l < d_dim D (spc j))%nat -> val (e_Lf E) x j (n * ntime c j + i) l = x_after m n j i l.
  Lemma march_step m st : (m < c_N c)%nat -> inv m st -> inv (S m) (march_pass zero add E sol0 sol1 mM same b m (cntn c m) st).
  Proof.
    intros Hm. destruct st as [[r uh] x]. intros [HR HX]. unfold march_pass.
    set (r1 := copies add true (e_Lp E) (e_Lf E) (slab_pairs c (cntn c m)) (if same then x else b) r).
    assert (R1 : forall J, (J < dp)%nat -> r1 J = slab_rhs m J).
    { intros J HJ. destruct (dof_of E 4 (nc_pre c) _ J (eo_p _ HE) HJ) as [j [i [l [Hj [Hi [Hl ->]]]]]]. unfold r1, slab_rhs, load. rewrite !load_at by assumption.
      f_equal; [apply HR; assumption|]. destruct same eqn:Es; [|reflexivity]. rewrite HX by assumption. unfold x_after. rewrite Nat.ltb_irrefl, Es. reflexivity. }
    set (u1 := if Nat.eqb m 0 then sol0 r1 uh else sol1 r1 uh).
    assert (U1 : forall J, (J < dp)%nat -> u1 J = slab_sol m J).
    { intros J HJ. rewrite slab_sol_eq. unfold u1. destruct (Nat.eqb m 0); [apply H0|apply H1]; assumption. }
    assert (P : forall j i l, (j < 4)%nat -> (i < ntime c j)%nat -> (l < d_dim D (spc j))%nat -> (dof (e_Lp E) j i l < dp)%nat).
    { intros j i l Hj Hi Hl. apply (dof_lt E 4 (nc_pre c)); auto. apply (eo_p _ HE). }
    split.
    - intros j i l Hj Hi Hl. change (val (e_Lp E) (carry u1) j i l = val (e_Lp E) (carry (slab_sol m)) j i l). rewrite !carry_at by assumption.
      destruct (Nat.ltb_spec j 2) as [Hj2|Hj2]; cbn [andb]; [|reflexivity]. destruct (Nat.eqb i 0); [|reflexivity]. f_equal.
      apply HM; [|apply (dof_lt E 2 nc_bnd); unfold nc_bnd; auto; apply (eo_b _ HE)]. intros J HJ.
      destruct (dof_of E 2 nc_bnd _ J (eo_b _ HE) HJ) as [j' [i' [l' [Hj' [Hi' [Hl' ->]]]]]]. unfold nc_bnd in Hi'. assert (i' = 0)%nat by lia. subst i'.
      rewrite !hand_in_at by assumption. f_equal. apply U1. apply P; [lia| |exact Hl']. unfold ntime, sto. destruct (Nat.ltb_spec j' 2); lia.
    - intros n j i l Hn Hj Hi Hl. rewrite store_at by assumption. rewrite HX by assumption. unfold x_after.
      destruct (Nat.eqb_spec n m) as [->|Hne].
      + destruct (Nat.ltb_spec m (S m)); [|lia]. apply U1, P; assumption.
      + destruct (Nat.ltb_spec n m); destruct (Nat.ltb_spec n (S m)); try lia; reflexivity.
  Qed.
  Lemma march_run k : forall m st, (m + k = c_N c)%nat -> inv m st -> inv (c_N c) (march_passes zero add E sol0 sol1 mM same b (seq m k) (cntn c m) st).
  Proof.
    induction k as [|k IH]; intros m st Hm HI.
    - cbn [seq march_passes]. rewrite Nat.add_0_r in Hm. subst m. exact HI.
    - cbn [seq march_passes]. rewrite cnt_next_n. apply IH; [lia|]. apply march_step; [lia|exact HI].
  Qed.
  (** the result, whatever uh_pre and x_sol contained *)
  Lemma march_entry uh n j i l : (n < c_N c)%nat -> (j < 4)%nat -> (i < ntime c j)%nat -> (l < d_dim D (spc j))%nat ->
    val (e_Lf E) (march_loops zero add E sol0 sol1 mM same b uh x0) j (n * ntime c j + i) l = val (e_Lp E) (slab_sol n) j i l.
  Proof.
    intros Hn Hj Hi Hl. unfold march_loops. rewrite (cnt0_n c).
    assert (HI : inv 0 (fun _ => zero, uh, if same then b else x0)).
    { split; [reflexivity|]. intros n' j' i' l' _ _ _ _. unfold x_after. cbn. destruct same; reflexivity. }
    pose proof (march_run (c_N c) 0 _ eq_refl HI) as HF.
    destruct (march_passes zero add E sol0 sol1 mM same b (seq 0 (c_N c)) (cntn c 0) (fun _ => zero, uh, if same then b else x0)) as [[r u] x] eqn:EP.
    destruct HF as [_ HF]. cbn [snd]. rewrite HF by assumption. unfold x_after. destruct (Nat.ltb_spec n (c_N c)); [reflexivity|lia].
  Qed.
End Loops.
