(** Props_FloatTransfer.v -- the grid transfers in double precision
    (/repo/src/dxss/space_time.py:1404-1441).  Property C111. *)
From Coq Require Import ZArith Reals List Bool Lia Lra.
From Coq Require Import Floats.SpecFloat.
From Verif Require Import Base FormModel FormSpec FormProofs SpaceTimeForms FormTime FormBlocks FormExample SpaceTimeModel SlabOps ApplyProofs OpsExample
  Transfer FloatModel FloatRound FloatSamples FloatTime FloatLocal FloatApply FloatApplyProofs FloatMarch Props_FloatApply FloatTransfer.
Import ListNotations.
Local Open Scope nat_scope.

(** the transfer as a map of components: component (j, i) of the target is the interpolation of
    component (j, i) of the source *)
Definition carried {V} (Ls Ld : layout) (nc : nat -> nat) (ns nd : nat) (ip : (nat -> V) -> nat -> V) (src out : nat -> V) : Prop :=
  forall j i l, j < 4 -> i < nc j -> l < nd ->
    exists u, (forall l', l' < ns -> u l' = src (dof Ls j i l')) /\ out (dof Ld j i l) = ip u l.

Section Loops.
  Context {V : Type}.
  Variables (zero : V) (E : env) (D1 D2 : disc) (Ls Ld : layout).
  Notation c := (e_c E).
  Hypothesis H1 : lay_ok D1 4 (nc_full c) Ls.
  Hypothesis H2 : lay_ok D2 4 (nc_full c) Ld.
  Hypothesis S1 : d_dim D1 Vd = d_dim D1 Vp.
  Hypothesis S2 : d_dim D2 Vd = d_dim D2 Vp.
  Variable ip : (nat -> V) -> nat -> V.
  Variable src : nat -> V.
  Notation nd := (d_dim D2 Vp).
  Notation nodes := (node zero Ls src).
  Notation step := (transfer1 zero Ls Ld nd ip src).
  Lemma dims D j : d_dim D Vd = d_dim D Vp -> d_dim D (spc j) = d_dim D Vp.
  Proof. unfold spc. destruct (Nat.ltb j 2); auto. Qed.
  Lemma step_hit dst j i l : j < 4 -> i < nc_full c j -> l < nd -> step dst (j, i) (dof Ld j i l) = ip (nodes j i) l.
  Proof.
    intros Hj Hi Hl. unfold transfer1, dof. rewrite (puts_nth (ip (nodes j i) 0)).
    - rewrite map_nth, seq_nth by exact Hl. reflexivity.
    - eapply lay_sub_nodup; eauto.
    - rewrite map_length, seq_length, (wl_len _ _ _ _ H2) by assumption. symmetry. apply dims, S2.
    - rewrite (wl_len _ _ _ _ H2) by assumption. rewrite (dims _ _ S2). exact Hl.
  Qed.
  Lemma step_miss dst j i j' i' l : j < 4 -> i < nc_full c j -> j' < 4 -> i' < nc_full c j' -> l < nd -> (j', i') <> (j, i) ->
    step dst (j, i) (dof Ld j' i' l) = dst (dof Ld j' i' l).
  Proof.
    intros Hj Hi Hj' Hi' Hl Hne. unfold transfer1. apply puts_out. intro Hin. destruct (In_nth _ _ 0 Hin) as [k [Hk X]].
    rewrite (wl_len _ _ _ _ H2) in Hk by assumption.
    destruct (dof_inj D2 4 (nc_full c) Ld j i k j' i' l H2 Hj Hi Hk Hj' Hi') as [-> [-> _]]; [rewrite (dims _ _ S2); exact Hl|exact X|]. congruence.
  Qed.
  Lemma step_out dst j i I : j < 4 -> i < nc_full c j -> lay_dim Ld <= I -> step dst (j, i) I = dst I.
  Proof.
    intros Hj Hi HI. unfold transfer1. apply puts_out. intro Hin. assert (I < lay_dim Ld); [|lia].
    apply (wl_range _ _ _ _ H2). apply (in_all_dofs 4 (nc_full c) Ld j i); assumption.
  Qed.
  Lemma each prs : forall dst, (forall j i, In (j, i) prs -> j < 4 /\ i < nc_full c j) ->
    (forall j i l, j < 4 -> i < nc_full c j -> l < nd -> In (j, i) prs -> fold_left step prs dst (dof Ld j i l) = ip (nodes j i) l)
    /\ (forall j i l, j < 4 -> i < nc_full c j -> l < nd -> ~ In (j, i) prs -> fold_left step prs dst (dof Ld j i l) = dst (dof Ld j i l))
    /\ (forall I, lay_dim Ld <= I -> fold_left step prs dst I = dst I).
  Proof.
    induction prs as [|[j i] prs IH]; intros dst Hp; [split; [intros ? ? ? _ _ _ []|split; reflexivity]|].
    destruct (Hp j i (or_introl eq_refl)) as [Hj Hi]. destruct (IH (step dst (j, i))) as [A1 [A2 A3]]; [intros; apply Hp; right; assumption|]. cbn [fold_left]. split; [|split].
    - intros j' i' l Hj' Hi' Hl Hin. assert (DE : forall a b : nat * nat, {a = b} + {a <> b}) by (intros; repeat decide equality). destruct (in_dec DE (j', i') prs) as [X|X].
      + apply A1; assumption.
      + rewrite A2 by assumption. destruct Hin as [Hin|Hin]; [|contradiction]. injection Hin as <- <-. apply step_hit; assumption.
    - intros j' i' l Hj' Hi' Hl Hin. rewrite A2; auto; [|intro X; apply Hin; right; exact X]. apply step_miss; auto. intro X. apply Hin. left. congruence.
    - intros I HI. rewrite A3 by exact HI. apply step_out; assumption.
  Qed.
  Lemma loops k : forall a dst, a + k = c_N c ->
    (forall j i l, j < 4 -> a * ntime c j <= i < nc_full c j -> l < nd -> transfers zero E Ls Ld nd ip src (seq a k) (cntn c a) dst (dof Ld j i l) = ip (nodes j i) l)
    /\ (forall j i l, j < 4 -> i < a * ntime c j -> l < nd -> transfers zero E Ls Ld nd ip src (seq a k) (cntn c a) dst (dof Ld j i l) = dst (dof Ld j i l))
    /\ (forall I, lay_dim Ld <= I -> transfers zero E Ls Ld nd ip src (seq a k) (cntn c a) dst I = dst I).
  Proof.
    induction k as [|k IH]; intros a dst Ha.
    - split; [|split; reflexivity]. intros j i l Hj Hi Hl. unfold nc_full in Hi. replace (c_N c) with a in Hi by lia. nia.
    - cbn [seq transfers]. rewrite cnt_next_n, trans_pairs_n.
      destruct (each (slab_comps E a) dst) as [B1 [B2 B3]]. { intros j i H. apply in_slab_comps in H. unfold nc_full. split; [tauto|]. nia. }
      destruct (IH (S a) (fold_left step (slab_comps E a) dst)) as [A1 [A2 A3]]; [lia|]. split; [|split].
      + intros j i l Hj Hi Hl. destruct (Nat.lt_ge_cases i (S a * ntime c j)) as [L|L]; [|apply A1; [exact Hj|lia|exact Hl]].
        rewrite A2 by assumption. apply B1; [exact Hj|lia|exact Hl|]. apply in_slab_comps. split; [exact Hj|lia].
      + intros j i l Hj Hi Hl. rewrite A2; [|exact Hj|nia|exact Hl]. apply B2; [exact Hj|unfold nc_full; nia|exact Hl|]. intro X. apply in_slab_comps in X. lia.
      + intros I HI. rewrite A3 by exact HI. apply B3, HI.
  Qed.
  Lemma transfer_entry dst j i l : j < 4 -> i < nc_full c j -> l < nd -> transfer zero E Ls Ld nd ip src dst (dof Ld j i l) = ip (nodes j i) l.
  Proof. intros Hj Hi Hl. unfold transfer. rewrite (cnt0_n c). apply (loops (c_N c) 0 dst eq_refl); [exact Hj|lia|exact Hl]. Qed.
  Lemma transfer_out dst I : lay_dim Ld <= I -> transfer zero E Ls Ld nd ip src dst I = dst I.
  Proof. intro HI. unfold transfer. rewrite (cnt0_n c). apply (loops (c_N c) 0 dst eq_refl), HI. Qed.
  Lemma node_at j i l : j < 4 -> i < nc_full c j -> l < d_dim D1 Vp -> nodes j i l = src (dof Ls j i l).
  Proof using H1 S1.
    clear H2 S2.
    intros Hj Hi Hl. unfold node, dof. assert (N : List.length (lay_sub Ls j i) = d_dim D1 Vp) by (rewrite (wl_len _ _ _ _ H1) by assumption; apply dims, S1).
    rewrite (nth_indep _ zero (src 0)) by (rewrite map_length; lia). apply map_nth.
  Qed.
  Lemma transfer_carried dst : carried Ls Ld (nc_full c) (d_dim D1 Vp) nd ip src (transfer zero E Ls Ld nd ip src dst).
  Proof. intros j i l Hj Hi Hl. exists (nodes j i). split; [intros l' Hl'; apply node_at; assumption|apply transfer_entry; assumption]. Qed.
End Loops.

(** ** In double precision *)
(** both meshes carry as many dual as primal functions *)
Record two_grids (E : env) (DK : disc) (LK : layout) : Prop := {
  tg_E : env_ok E;
  tg_L : lay_ok DK 4 (nc_full (e_c E)) LK;
  tg_f : d_dim (e_D E) Vd = d_dim (e_D E) Vp;
  tg_c : d_dim DK Vd = d_dim DK Vp }.
(** an interpolation from [n] to [m] coefficients *)
Definition coeffs (n m : nat) (ip : (nat -> spec_float) -> nat -> spec_float) : Prop :=
  forall u u', (forall l, l < n -> u l = u' l) -> forall l, l < m -> ip u l = ip u' l.

Section Doubles.
  Variables (E : env) (DK : disc) (LK : layout).
  Hypothesis HT : two_grids E DK LK.
  Notation c := (e_c E).
  Notation nf := (d_dim (e_D E) Vp).
  Notation nk := (d_dim DK Vp).
  Variables (up down : (nat -> spec_float) -> nat -> spec_float).
  Hypothesis HU : coeffs nk nf up.
  Hypothesis HD : coeffs nf nk down.
  (** Every component of the result is the interpolation of the same component, bit by bit; entries past
      the dimension are kept. *)
  Theorem C111_components xc xf :
    carried LK (e_Lf E) (nc_full c) nk nf up xc (f_prolong E LK up xc xf) /\ (forall I, lay_dim (e_Lf E) <= I -> f_prolong E LK up xc xf I = xf I)
    /\ carried (e_Lf E) LK (nc_full c) nf nk down xf (f_restrict E DK LK down xf xc) /\ (forall I, lay_dim LK <= I -> f_restrict E DK LK down xf xc I = xc I).
  Proof.
    destruct HT as [HE HL Sf Sc]. pose proof (eo_f _ HE) as HF. split; [|split; [|split]].
    - apply (transfer_carried (fz 0) E DK (e_D E)); assumption.
    - intros I HI. apply (transfer_out (fz 0) E (e_D E)); assumption.
    - apply (transfer_carried (fz 0) E (e_D E) DK); assumption.
    - intros I HI. apply (transfer_out (fz 0) E DK); assumption.
  Qed.
  (** Only the component counts that is transferred: a nan elsewhere, or anything in the target vector, has no influence. *)
  Theorem C111_local xc xc' xf xf' j i : j < 4 -> i < nc_full c j ->
    ((forall l, l < nk -> xc (dof LK j i l) = xc' (dof LK j i l)) ->
      forall l, l < nf -> f_prolong E LK up xc xf (dof (e_Lf E) j i l) = f_prolong E LK up xc' xf' (dof (e_Lf E) j i l))
    /\ ((forall l, l < nf -> xf (dof (e_Lf E) j i l) = xf' (dof (e_Lf E) j i l)) ->
      forall l, l < nk -> f_restrict E DK LK down xf xc (dof LK j i l) = f_restrict E DK LK down xf' xc' (dof LK j i l)).
  Proof.
    intros Hj Hi. destruct (C111_components xc xf) as [P1 [_ [R1 _]]]. destruct (C111_components xc' xf') as [P2 [_ [R2 _]]]. split; intros H l Hl.
    - destruct (P1 j i l Hj Hi Hl) as [u [U1 ->]]. destruct (P2 j i l Hj Hi Hl) as [w [W1 ->]]. apply HU; [|exact Hl]. intros l' Hl'. rewrite U1, W1 by exact Hl'. apply H, Hl'.
    - destruct (R1 j i l Hj Hi Hl) as [u [U1 ->]]. destruct (R2 j i l Hj Hi Hl) as [w [W1 ->]]. apply HD; [|exact Hl]. intros l' Hl'. rewrite U1, W1 by exact Hl'. apply H, Hl'.
  Qed.
  Lemma dof_c J : J < lay_dim LK -> exists j i l, j < 4 /\ i < nc_full c j /\ l < nk /\ J = dof LK j i l.
  Proof.
    intro HJ. apply (wl_range _ _ _ _ (tg_L _ _ _ HT)) in HJ. unfold all_dofs in HJ. apply in_flat_map in HJ as [j [Hj HJ]]. apply in_flat_map in HJ as [i [Hi HJ]].
    apply in_seq in Hj. apply in_seq in Hi. destruct (In_nth _ _ 0 HJ) as [l [Hl El]]. rewrite (wl_len _ _ _ _ (tg_L _ _ _ HT)), (dims _ _ (tg_c _ _ _ HT)) in Hl by lia.
    exists j, i, l. repeat split; try lia. unfold dof. congruence.
  Qed.
  Lemma dof_f J : J < lay_dim (e_Lf E) -> exists j i l, j < 4 /\ i < nc_full c j /\ l < nf /\ J = dof (e_Lf E) j i l.
  Proof.
    intro HJ. destruct (dof_of E 4 (nc_full c) _ J (eo_f _ (tg_E _ _ _ HT)) HJ) as [j [i [l [Hj [Hi [Hl ->]]]]]]. rewrite (dims _ _ (tg_f _ _ _ HT)) in Hl. exists j, i, l. auto.
  Qed.
  (** If interpolating up and down gives back the bits of the coefficients, so do prolongation and restriction. *)
  Theorem C111_back xc xf yc : (forall u l, l < nk -> down (up u) l = u l) -> forall I, I < lay_dim LK -> f_restrict E DK LK down (f_prolong E LK up xc xf) yc I = xc I.
  Proof.
    intros HI I HJ. destruct (dof_c I HJ) as [j [i [l [Hj [Hi [Hl ->]]]]]].
    destruct (C111_components yc (f_prolong E LK up xc xf)) as [_ [_ [R1 _]]]. destruct (R1 j i l Hj Hi Hl) as [u [U1 ->]].
    destruct HT as [HE HL Sf Sc]. transitivity (down (up (node (fz 0) LK xc j i)) l).
    - apply HD; [|exact Hl]. intros l' Hl'. rewrite U1 by exact Hl'. apply (transfer_entry (fz 0) E (e_D E)); try assumption. apply (eo_f _ HE).
    - rewrite HI by exact Hl. apply (node_at (fz 0) E DK); assumption.
  Qed.
  (** q_op: the coarse solve between the two transfers.  With a coarse solver that does not look at its
      start vector, nothing left in tmp1_coarse, tmp2_coarse or the target matters. *)
  Section Coarse.
    Variable sol : (nat -> spec_float) -> (nat -> spec_float) -> nat -> spec_float.
    Hypothesis HS : forall r r' w w', (forall J, J < lay_dim LK -> r J = r' J) -> forall J, J < lay_dim LK -> sol r w J = sol r' w' J.
    Theorem C111_q_op x x' t1 t1' t2 t2' out out' : (forall J, J < lay_dim (e_Lf E) -> x J = x' J) ->
      forall J, J < lay_dim (e_Lf E) -> snd (f_q_op E DK LK up down sol x t1 t2 out) J = snd (f_q_op E DK LK up down sol x' t1' t2' out') J.
    Proof.
      intros Hx J HJ. unfold f_q_op. cbn [snd]. destruct (dof_f J HJ) as [j [i [l [Hj [Hi [Hl ->]]]]]].
      apply (proj1 (C111_local _ _ out out' j i Hj Hi)); [|exact Hl]. intros l' Hl'.
      assert (LT : forall j0 i0 l0, j0 < 4 -> i0 < nc_full c j0 -> l0 < nf -> dof (e_Lf E) j0 i0 l0 < lay_dim (e_Lf E)).
      { intros j0 i0 l0 G1 G2 G3. apply (dof_lt E 4 (nc_full c)); auto; [apply (eo_f _ (tg_E _ _ _ HT))|]. rewrite (dims _ _ (tg_f _ _ _ HT)). exact G3. }
      apply HS.
      - intros K HK. destruct (dof_c K HK) as [j0 [i0 [l0 [G1 [G2 [G3 ->]]]]]]. apply (proj2 (C111_local t1 t1' x x' j0 i0 G1 G2)); [|exact G3].
        intros l1 Hl1. apply Hx, LT; assumption.
      - apply (wl_range _ _ _ _ (tg_L _ _ _ HT)). apply (in_all_dofs 4 (nc_full c) LK j i); auto. unfold dof. apply nth_In.
        rewrite (wl_len _ _ _ _ (tg_L _ _ _ HT)), (dims _ _ (tg_c _ _ _ HT)) by assumption. exact Hl'.
    Qed.
  End Coarse.
End Doubles.

(** ** The loops are those of the model over the reals *)
Theorem C111_reals E K xc xf : two_grids E (k_D K) (k_L K) ->
  (exists v, prolong E K xc xf = (Ok tt, v) /\ forall I, v I = transfer 0%R E (k_L K) (e_Lf E) (d_dim (e_D E) Vp) (k_up K) xc xf I)
  /\ (exists v, restrict E K xf xc = (Ok tt, v) /\ forall I, v I = transfer 0%R E (e_Lf E) (k_L K) (d_dim (k_D K) Vp) (k_down K) xf xc I).
Proof.
  intro HT. pose proof HT as [HE HL Sf Sc]. pose proof (eo_f _ HE) as HF. split.
  - destruct (trans_run E (k_D K) (e_D E) (k_L K) (e_Lf E) (k_up K) xc HL HF Sc Sf xf) as [v [E1 [A1 A2]]]. exists v. split; [exact E1|]. intro I.
    destruct (Nat.lt_ge_cases I (lay_dim (e_Lf E))) as [L|L].
    + destruct (dof_f E (k_D K) (k_L K) HT I L) as [j [i [l [Hj [Hi [Hl ->]]]]]]. rewrite (transfer_entry 0%R E (e_D E)) by assumption.
      apply (A1 j i l Hj Hi). rewrite (dims _ _ Sf). exact Hl.
    + rewrite (transfer_out 0%R E (e_D E)) by assumption. apply A2, L.
  - destruct (trans_run E (e_D E) (k_D K) (e_Lf E) (k_L K) (k_down K) xf HF HL Sf Sc xc) as [v [E1 [A1 A2]]]. exists v. split; [exact E1|]. intro I.
    destruct (Nat.lt_ge_cases I (lay_dim (k_L K))) as [L|L].
    + destruct (dof_c E (k_D K) (k_L K) HT I L) as [j [i [l [Hj [Hi [Hl ->]]]]]]. rewrite (transfer_entry 0%R E (k_D K)) by assumption.
      apply (A1 j i l Hj Hi). rewrite (dims _ _ Sc). exact Hl.
    + rewrite (transfer_out 0%R E (k_D K)) by assumption. apply A2, L.
Qed.

(** ** Examples *)
(** two slabs, two copies of one mesh; coefficients doubled on the way up and halved on the way down *)
Definition ex_half : spec_float := fdiv (fz 1) (fz 2).
Definition ex_up : (nat -> spec_float) -> nat -> spec_float := f_mult (fun l => [(l, fz 2)]).
Definition ex_down : (nat -> spec_float) -> nat -> spec_float := f_mult (fun l => [(l, ex_half)]).
Theorem C111_nonvacuous : exists c, let E := exE exI c in let LK := std_layout 4 (nc_full c) (fun j => d_dim exI (spc j)) in
  two_grids E exI LK /\ c_N c = 2 /\ coeffs 3 3 ex_up /\ coeffs 3 3 ex_down /\ d_dim exI Vp = 3
  /\ f_prolong E LK ex_up ex_x (fun _ => S754_nan) 7 = fz 14 /\ f_restrict E exI LK ex_down (fun J => fn (2 * J)) (fun _ => S754_nan) 7 = fz 7
  /\ snd (f_q_op E exI LK ex_up ex_down (fun r _ J => fadd (r J) (fz 1)) (fun J => fn (2 * J)) (fun _ => S754_nan) (fun _ => S754_nan) (fun _ => S754_nan)) 7 = fz 16.
Proof.
  destruct (ex_env 1 2) as [c [_ [H1 [H2 H3]]]]; try lia. exists c. cbv zeta.
  destruct c as [cq cqs ck cks cN cT ct cdt clam cst cj cwp cel cqr cqh cph cdp csm cep cv cdv]. cbn in H1, H2, H3. subst cq cqs cN.
  set (c := mkCfg _ _ _ _ _ _ _ _ _ _ _ _ _ _ _ _ _ _ _ _ _). set (E := exE exI c).
  split; [constructor; [apply exE_ok; cbn; lia|apply std_layout_ok|reflexivity|reflexivity]|].
  split; [reflexivity|]. split; [intros u u' H l Hl; unfold ex_up, f_mult; cbn [fold_left]; rewrite H by exact Hl; reflexivity|].
  split; [intros u u' H l Hl; unfold ex_down, f_mult; cbn [fold_left]; rewrite H by exact Hl; reflexivity|]. split; [reflexivity|].
  split; [vm_compute; reflexivity|]. split; vm_compute; reflexivity.
Qed.
(** An interpolation that adds up basis functions times coefficients gives back the numbers but not all bits: the
    negative zero comes back positive, and large numbers come back infinite. *)
Theorem C111_back_refuted : exists c, let E := exE exI c in let LK := std_layout 4 (nc_full c) (fun j => d_dim exI (spc j)) in
  two_grids E exI LK /\ coeffs 3 3 ex_up /\ coeffs 3 3 ex_down
  /\ f_restrict E exI LK ex_down (f_prolong E LK ex_up (fun _ => S754_zero true) (fun _ => fz 0)) (fun _ => fz 0) 7 = S754_zero false
  /\ f_restrict E exI LK ex_down (f_prolong E LK ex_up (fun _ => S754_finite false (2 ^ 53 - 1) 971) (fun _ => fz 0)) (fun _ => fz 0) 7 = S754_infinity false
  /\ f_restrict E exI LK ex_down (f_prolong E LK ex_up ex_x (fun _ => fz 0)) (fun _ => fz 0) 7 = ex_x 7.
Proof.
  destruct (ex_env 1 2) as [c [_ [H1 [H2 H3]]]]; try lia. exists c. cbv zeta.
  destruct c as [cq cqs ck cks cN cT ct cdt clam cst cj cwp cel cqr cqh cph cdp csm cep cv cdv]. cbn in H1, H2, H3. subst cq cqs cN.
  set (c := mkCfg _ _ _ _ _ _ _ _ _ _ _ _ _ _ _ _ _ _ _ _ _). set (E := exE exI c).
  split; [constructor; [apply exE_ok; cbn; lia|apply std_layout_ok|reflexivity|reflexivity]|].
  split; [intros u u' H l Hl; unfold ex_up, f_mult; cbn [fold_left]; rewrite H by exact Hl; reflexivity|].
  split; [intros u u' H l Hl; unfold ex_down, f_mult; cbn [fold_left]; rewrite H by exact Hl; reflexivity|].
  split; [vm_compute; reflexivity|]. split; vm_compute; reflexivity.
Qed.
(** nodal values that are copied (one mesh, two numberings of its spaces) come back, bits and all *)
Theorem C111_back_nonvacuous : exists c, let E := exE exI c in let LK := std_layout 4 (nc_full c) (fun j => d_dim exI (spc j)) in
  let copy := fun (u : nat -> spec_float) l => u (2 - l) in
  two_grids E exI LK /\ coeffs 3 3 copy /\ (forall u l, l < 3 -> copy (copy u) l = u l)
  /\ f_prolong E LK copy ex_x (fun _ => fz 0) 7 = fz 7 /\ f_prolong E LK copy ex_x (fun _ => fz 0) 6 = fz 8
  /\ forall xc xf yc I, I < lay_dim LK -> f_restrict E exI LK copy (f_prolong E LK copy xc xf) yc I = xc I.
Proof.
  destruct (ex_env 1 2) as [c [_ [H1 [H2 H3]]]]; try lia. exists c. cbv zeta.
  destruct c as [cq cqs ck cks cN cT ct cdt clam cst cj cwp cel cqr cqh cph cdp csm cep cv cdv]. cbn in H1, H2, H3. subst cq cqs cN.
  set (c := mkCfg _ _ _ _ _ _ _ _ _ _ _ _ _ _ _ _ _ _ _ _ _). set (E := exE exI c). set (LK := std_layout _ _ _).
  assert (HT : two_grids E exI LK) by (constructor; [apply exE_ok; cbn; lia|apply std_layout_ok|reflexivity|reflexivity]).
  assert (HC : coeffs 3 3 (fun u l => u (2 - l))) by (intros u u' H l Hl; apply H; lia).
  assert (HI : forall (u : nat -> spec_float) l, l < 3 -> u (2 - (2 - l)) = u l) by (intros u l Hl; f_equal; lia).
  split; [exact HT|]. split; [exact HC|]. split; [exact HI|]. split; [vm_compute; reflexivity|]. split; [vm_compute; reflexivity|].
  intros xc xf yc I HJ. apply C111_back; try assumption.
Qed.

Print Assumptions C111_back_nonvacuous.
Print Assumptions C111_components. Print Assumptions C111_local. Print Assumptions C111_back. Print Assumptions C111_q_op.
Print Assumptions C111_reals. Print Assumptions C111_nonvacuous. Print Assumptions C111_back_refuted.
