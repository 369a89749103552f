(** FloatPre.v -- pre_time_marching in double precision (/repo/src/dxss/space_time.py:1186-1258).
    Doubles as in FloatModel.v, loops as in FloatMarch.v.

    The assembly of the form l_pre is an arbitrary function of the arrays of u1_0_pre and u2_0_pre, and
    so are the solvers of the slabs.  With the reals the loops are those of SpaceTimeModel.v
    (C108_reals).  The factor 1 / delta_t, which raises when delta_t is 0, is not part of the loops. *)
From Coq Require Import ZArith List Bool Lia.
From Coq Require Import Floats.SpecFloat.
From Verif Require Import Base FormModel FormSpec FormProofs SpaceTimeForms FormBlocks SpaceTimeModel SlabOps ApplyProofs FloatModel FloatApply FloatApplyProofs FloatMarch.
Import ListNotations.

Section Pre.
  Context {V : Type}.
  Variables (zero : V) (add : V -> V -> V).
  Variable E : env.
  (** the vector assembled from l_pre in the first slab (space_time.py:1201, 1225-1227), and in a later
      one, where the form contains u1_0_pre and u2_0_pre (space_time.py:1201-1227) *)
  Variables (asm0 : nat -> V) (asm1 : (nat -> V) -> (nat -> V) -> nat -> V).
  (** SolverFirstSlab.solve, solver_slab.solve: right hand side, content of uh_pre *)
  Variables (sol0 sol1 : (nat -> V) -> (nat -> V) -> nat -> V).
  (** whether x_sol is the vector b itself *)
  Variable same : bool.
  Variable b : nat -> V.
  (** u1_h_p.x.array[self.dofmaps_pre[j][i]]: the array of the function is that of uh_pre
      (space_time.py:1244-1246) *)
  Definition piece (uh : nat -> V) (j i : nat) : nat -> V := fun l => nth l (map uh (lay_sub (e_Lp E) j i)) zero.
  (** one pass of the loop over the slabs (space_time.py:1198-1257); [u1], [u2], [uh], [x]: u1_0_pre,
      u2_0_pre, uh_pre, x_sol *)
  Definition pre_pass (n : nat) (k : counters) (st : (nat -> V) * (nat -> V) * (nat -> V) * (nat -> V)) : (nat -> V) * (nat -> V) * (nat -> V) * (nat -> V) :=
    let '(u1, u2, uh, x) := st in
    let r := copies add true (e_Lp E) (e_Lf E) (slab_pairs (e_c E) k) (if same then x else b) (if Nat.ltb 0 n then asm1 u1 u2 else asm0) in
    let uh := if Nat.eqb n 0 then sol0 r uh else sol1 r uh in
    (piece uh 0 (c_q (e_c E)), piece uh 1 (c_q (e_c E)), uh,
     copies add false (e_Lf E) (e_Lp E) (flip_pairs (slab_pairs (e_c E) k)) uh x).
  Fixpoint pre_passes (ns : list nat) (k : counters) (st : (nat -> V) * (nat -> V) * (nat -> V) * (nat -> V)) : (nat -> V) * (nat -> V) * (nat -> V) * (nat -> V) :=
    match ns with [] => st | n :: ns => pre_passes ns (cnt_next (e_c E) k) (pre_pass n k st) end.
  (** x_sol after the call; u1_0_pre, u2_0_pre, uh_pre and x_sol hold [u1], [u2], [uh], [x] before it *)
  Definition pre_loops (u1 u2 uh x : nat -> V) : nat -> V :=
    snd (pre_passes (seq 0 (c_N (e_c E))) cnt0 (u1, u2, uh, if same then b else x)).
End Pre.

Definition f_pre (E : env) (asm0 : nat -> spec_float) (asm1 : (nat -> spec_float) -> (nat -> spec_float) -> nat -> spec_float)
  (sol0 sol1 : (nat -> spec_float) -> (nat -> spec_float) -> nat -> spec_float) (same : bool) (b u1 u2 uh x : nat -> spec_float) : nat -> spec_float :=
  pre_loops (fz 0) fadd E asm0 asm1 sol0 sol1 same b u1 u2 uh x.

(** * What the loops compute *)
Section Loops.
  Context {V : Type}.
  Variables (zero : V) (add : V -> V -> V).
  Variable E : env.
  Notation c := (e_c E).
  Notation D := (e_D E).
  Notation val L v j i l := (v (dof L j i l)).
  Hypothesis HE : env_ok E.
  Variables (asm0 : nat -> V) (asm1 : (nat -> V) -> (nat -> V) -> nat -> V) (sol0 sol1 : (nat -> V) -> (nat -> V) -> nat -> V).
  Notation dp := (lay_dim (e_Lp E)).
  Hypothesis H0 : direct_at E sol0.
  Hypothesis H1 : direct_at E sol1.
  (** the assembled entries depend on the coefficients of u1_0_pre and u2_0_pre only *)
  Definition assembles (asm : (nat -> V) -> (nat -> V) -> nat -> V) : Prop :=
    forall u u' v v', (forall l, (l < d_dim D Vp)%nat -> u l = u' l) -> (forall l, (l < d_dim D Vp)%nat -> v l = v' l) -> forall I, (I < dp)%nat -> asm u v I = asm u' v' I.
  Hypothesis HA : assembles asm1.
  Variable b : nat -> V.
  Fixpoint pre_sol (n : nat) : nat -> V :=
    match n with
    | O => sol0 (load add E b 0 asm0) (fun _ => zero)
    | S m => sol1 (load add E b (S m) (asm1 (piece zero E (pre_sol m) 0 (c_q c)) (piece zero E (pre_sol m) 1 (c_q c)))) (fun _ => zero)
    end.
  Definition pre_rhs (n : nat) : nat -> V :=
    load add E b n match n with O => asm0 | S m => asm1 (piece zero E (pre_sol m) 0 (c_q c)) (piece zero E (pre_sol m) 1 (c_q c)) end.
  Lemma pre_sol_eq n : pre_sol n = (if Nat.eqb n 0 then sol0 else sol1) (pre_rhs n) (fun _ => zero).
  Proof. destruct n; reflexivity. Qed.
  Lemma piece_at u j l : (j < 2)%nat -> (l < d_dim D Vp)%nat -> piece zero E u j (c_q c) l = val (e_Lp E) u j (c_q c) l.
  Proof.
    intros Hj Hl. unfold piece, dof. rewrite (nth_indep _ zero (u 0%nat)); [apply map_nth|]. rewrite map_length, (wl_len _ _ _ _ (eo_p _ HE)); [|lia|].
    - unfold spc. destruct (Nat.ltb_spec j 2); [exact Hl|lia].
    - unfold nc_pre, ntime, sto. destruct (Nat.ltb_spec j 2); lia.
  Qed.
  Variable same : bool.
  Variable x0 : nat -> V.
  Definition px_after (m n j i l : nat) : V :=
    if Nat.ltb n m then val (e_Lp E) (pre_sol n) j i l else if same then val (e_Lf E) b j (n * ntime c j + i) l else val (e_Lf E) x0 j (n * ntime c j + i) l.
  Definition pinv (m : nat) (st : (nat -> V) * (nat -> V) * (nat -> V) * (nat -> V)) : Prop :=
    let '(u1, u2, uh, x) := st in
    ((0 < m)%nat -> (forall l, (l < d_dim D Vp)%nat -> u1 l = piece zero E (pre_sol (m - 1)) 0 (c_q c) l)
                 /\ forall l, (l < d_dim D Vp)%nat -> u2 l = piece zero E (pre_sol (m - 1)) 1 (c_q c) l)
    /\ forall n j i l, (n < c_N c)%nat -> (j < 4)%nat -> (i < ntime c j)%nat -> (l < d_dim D (spc j))%nat -> val (e_Lf E) x j (n * ntime c j + i) l = px_after m n j i l.
  Lemma pre_step m st : (m < c_N c)%nat -> pinv m st -> pinv (S m) (pre_pass zero add E asm0 asm1 sol0 sol1 same b m (cntn c m) st).
  Proof.
    intros Hm. destruct st as [[[u1 u2] uh] x]. intros [HU HX]. unfold pre_pass.
    set (r1 := copies add true (e_Lp E) (e_Lf E) (slab_pairs c (cntn c m)) (if same then x else b) _).
    assert (R1 : forall J, (J < dp)%nat -> r1 J = pre_rhs m J).
    { intros J HJ. destruct (dof_of E 4 (nc_pre c) _ J (eo_p _ HE) HJ) as [j [i [l [Hj [Hi [Hl EJ]]]]]]. subst J. unfold r1, pre_rhs, load. rewrite !(load_at zero add E HE) by assumption.
      f_equal.
      - destruct m as [|m]; [reflexivity|]. cbn [Nat.ltb Nat.leb]. destruct (HU ltac:(lia)) as [A B]. replace (S m - 1)%nat with m in A, B by lia. apply HA; assumption.
      - destruct same eqn:Es; [|reflexivity]. rewrite HX by assumption. unfold px_after. rewrite Nat.ltb_irrefl, Es. reflexivity. }
    set (v1 := if Nat.eqb m 0 then sol0 r1 uh else sol1 r1 uh).
    assert (U1 : forall J, (J < dp)%nat -> v1 J = pre_sol m J).
    { intros J HJ. rewrite pre_sol_eq. unfold v1. destruct (Nat.eqb m 0); [apply H0|apply H1]; assumption. }
    assert (P : forall j i l, (j < 4)%nat -> (i < ntime c j)%nat -> (l < d_dim D (spc j))%nat -> (dof (e_Lp E) j i l < dp)%nat).
    { intros j i l Hj Hi Hl. apply (dof_lt E 4 (nc_pre c)); auto. apply (eo_p _ HE). }
    split.
    - intros _. replace (S m - 1)%nat with m by lia.
      assert (Q : forall j l, (j < 2)%nat -> (l < d_dim D Vp)%nat -> piece zero E v1 j (c_q c) l = piece zero E (pre_sol m) j (c_q c) l).
      { intros j l Hj Hl. rewrite !piece_at by assumption. apply U1, P; [lia| |].
        - unfold ntime, sto. destruct (Nat.ltb_spec j 2); lia.
        - unfold spc. destruct (Nat.ltb_spec j 2); [exact Hl|lia]. }
      split; intros l Hl; apply Q; auto; lia.
    - intros n j i l Hn Hj Hi Hl. rewrite (store_at zero add E HE) by assumption. rewrite HX by assumption. unfold px_after.
      destruct (Nat.eqb_spec n m) as [->|Hne].
      + destruct (Nat.ltb_spec m (S m)); [|lia]. apply U1, P; assumption.
      + destruct (Nat.ltb_spec n m); destruct (Nat.ltb_spec n (S m)); try lia; reflexivity.
  Qed.
  Lemma pre_run k : forall m st, (m + k = c_N c)%nat -> pinv m st -> pinv (c_N c) (pre_passes zero add E asm0 asm1 sol0 sol1 same b (seq m k) (cntn c m) st).
  Proof.
    induction k as [|k IH]; intros m st Hm HI.
    - cbn [seq pre_passes]. rewrite Nat.add_0_r in Hm. subst m. exact HI.
    - cbn [seq pre_passes]. rewrite cnt_next_n. apply IH; [lia|]. apply pre_step; [lia|exact HI].
  Qed.
  (** the result, whatever u1_0_pre, u2_0_pre, uh_pre and x_sol contained *)
  Lemma pre_entry u1 u2 uh n j i l : (n < c_N c)%nat -> (j < 4)%nat -> (i < ntime c j)%nat -> (l < d_dim D (spc j))%nat ->
    val (e_Lf E) (pre_loops zero add E asm0 asm1 sol0 sol1 same b u1 u2 uh x0) j (n * ntime c j + i) l = val (e_Lp E) (pre_sol n) j i l.
  Proof.
    intros Hn Hj Hi Hl. unfold pre_loops. rewrite (cnt0_n c).
    assert (HI : pinv 0 (u1, u2, uh, if same then b else x0)).
    { split; [lia|]. intros n' j' i' l' _ _ _ _. unfold px_after. cbn. destruct same; reflexivity. }
    pose proof (pre_run (c_N c) 0 _ eq_refl HI) as HF.
    destruct (pre_passes zero add E asm0 asm1 sol0 sol1 same b (seq 0 (c_N c)) (cntn c 0) (u1, u2, uh, if same then b else x0)) as [[[a1 a2] u] x] eqn:EP.
    destruct HF as [_ HF]. cbn [snd]. rewrite HF by assumption. unfold px_after. destruct (Nat.ltb_spec n (c_N c)); [reflexivity|lia].
  Qed.
End Loops.
