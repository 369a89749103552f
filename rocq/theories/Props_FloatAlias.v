(** Props_FloatAlias.v -- apply_spacetime_matrix with one vector for input and output, in double
    precision (/repo/src/dxss/space_time.py:1135-1184).  Property C110. *)
From Coq Require Import ZArith Reals List Bool Lia Lra.
From Coq Require Import Floats.SpecFloat.
From Flocq Require Import Core IEEE754.BinarySingleNaN.
From Verif Require Import Base FormModel FormSpec FormProofs SpaceTimeForms FormTime FormBlocks FormExample SpaceTimeModel SlabOps ApplyProofs OpsExample
  FloatModel FloatRound FloatSamples FloatTime FloatLocal FloatErrors FloatErrorsProofs FloatApply FloatApplyProofs Props_FloatApply FloatAlias.
Import ListNotations.
Local Open Scope nat_scope.

(** all stored entries are numbers *)
Definition stored (d : nat) (A : frows) : Prop := forall I, I < d -> List.Forall (fun p => fst p < d /\ double (snd p) /\ finite (snd p)) (A I).

Lemma mul_zero a : double a -> finite a -> fmul a (fz 0) = S754_zero (match a with S754_zero s | S754_infinity s | S754_finite s _ _ => s | S754_nan => false end).
Proof.
  intros D [F1 [F2 F3]]. destruct a as [s|s| |s m e]; cbn; try congruence.
  - destruct s; reflexivity.
  - destruct s; congruence.
  - destruct s; reflexivity.
Qed.
Lemma plus_zero s : fadd (fz 0) (S754_zero s) = fz 0.
Proof. destruct s; reflexivity. Qed.
(** a row times positive zeros is the positive zero *)
Lemma row_zero d A y I : stored d A -> I < d -> (forall J, J < d -> y J = fz 0) -> f_mult A y I = fz 0.
Proof.
  intros HS HI Hy. unfold f_mult. specialize (HS I HI). induction (A I) as [|[J a] row IH]; [reflexivity|].
  inversion HS as [|? ? [H1 [H2 H3]] H4]; subst. cbn [fst snd] in *. cbn [fold_left]. rewrite (Hy J H1), (mul_zero a H2 H3), plus_zero. apply IH, H4.
Qed.

Section Zero.
  Variable P : nat -> Prop.
  Lemma puts_zero idx : forall (w : nat -> spec_float) vals, (forall J, P J -> w J = fz 0) -> (forall v, In v vals -> v = fz 0) -> forall J, P J -> puts w idx vals J = fz 0.
  Proof.
    induction idx as [|i idx IH]; intros w vals Hw Hv J HJ; [apply Hw, HJ|]. destruct vals as [|v vals]; [apply Hw, HJ|]. cbn [puts].
    apply IH; [|intros u Hu; apply Hv; right; exact Hu|exact HJ]. intros K HK. unfold put1. destruct (Nat.eqb K i); [apply Hv; left; reflexivity|apply Hw, HK].
  Qed.
  (** adding zeros to zeros *)
  Lemma add_zero Ld Ls prs src : (forall jd id js is J, In ((jd, id), (js, is)) prs -> In J (lay_sub Ls js is) -> src J = fz 0) ->
    (forall jd id js is J, In ((jd, id), (js, is)) prs -> In J (lay_sub Ld jd id) -> P J) ->
    forall dst, (forall J, P J -> dst J = fz 0) -> forall J, P J -> copies fadd true Ld Ls prs src dst J = fz 0.
  Proof.
    unfold copies. induction prs as [|[[jd id] [js is]] prs IH]; intros HS HP dst Hd J HJ; [apply Hd, HJ|]. cbn [fold_left].
    apply IH; [intros; eapply HS; [right; eassumption|assumption]|intros; eapply HP; [right; eassumption|assumption]| |exact HJ].
    clear J HJ. intros J HJ. apply puts_zero; [exact Hd| |exact HJ]. intros v Hv.
    assert (G : forall l l', (forall a, In a l -> P a) -> (forall b, In b l' -> src b = fz 0) -> In v (map2 fadd (map dst l) (map src l')) -> v = fz 0).
    { induction l as [|a l IHl]; intros [|b l'] Ha Hb Hi; cbn in Hi; try contradiction. destruct Hi as [<-|Hi].
      - rewrite (Hd a) by (apply Ha; left; reflexivity). rewrite (Hb b (or_introl eq_refl)). reflexivity.
      - apply (IHl l'); [intros c Hc; apply Ha; right; exact Hc|intros c Hc; apply Hb; right; exact Hc|exact Hi]. }
    eapply G; [| |exact Hv]; [intros a Ha; eapply HP; [left; reflexivity|exact Ha]|intros b Hb; eapply HS; [left; reflexivity|exact Hb]].
  Qed.
End Zero.

Section Alias.
  Variables (E : env) (A B : frows).
  Hypothesis HE : env_ok E.
  Hypothesis HA : stored (lay_dim (e_Lp E)) A.
  Hypothesis HB : 1 < c_N (e_c E) -> stored (lay_dim (e_Lc E)) B.
  Notation inside := (fun J => J < lay_dim (e_Lf E)).
  Lemma sub_lt nb nc L j i J : lay_ok (e_D E) nb nc L -> j < nb -> i < nc j -> In J (lay_sub L j i) -> J < lay_dim L.
  Proof. intros H Hj Hi HJ. apply (wl_range _ _ _ _ H). apply (in_all_dofs nb nc L j i); assumption. Qed.
  Lemma pass_zero n st : n < c_N (e_c E) -> (forall J, J < lay_dim (e_Lf E) -> snd st J = fz 0) ->
    forall J, J < lay_dim (e_Lf E) -> snd (alias_pass fadd E (f_mult A) (f_mult B) n (cntn (e_c E) n) st) J = fz 0.
  Proof.
    intros Hn. destruct st as [[v1 w1] x]. cbn [snd]. intro Hx. unfold alias_pass.
    set (x1 := copies fadd true (e_Lf E) (e_Lp E) _ _ _).
    assert (H1 : forall J, J < lay_dim (e_Lf E) -> x1 J = fz 0).
    { unfold x1. apply (add_zero inside); [| |exact Hx].
      - intros jd id js is J HI HJ. apply (proj1 (in_flip _ _ _)) in HI. destruct (slab_valid E n Hn _ _ _ _ HI) as [X1 [X2 _]].
        apply (row_zero (lay_dim (e_Lp E))); [exact HA|apply (sub_lt 4 (nc_pre (e_c E)) _ js is); auto; apply (eo_p _ HE)|].
        intros K HK. destruct (dof_of E 4 (nc_pre (e_c E)) _ K (eo_p _ HE) HK) as [j0 [i0 [l0 [G1 [G2 [G3 ->]]]]]].
        rewrite (slab_copy (fz 0) fadd E HE x n Hn) by assumption. apply Hx. apply (dof_lt E 4 (nc_full (e_c E))); auto; [apply (eo_f _ HE)|].
        unfold nc_full, nc_pre in *. nia.
      - intros jd id js is J HI HJ. apply (proj1 (in_flip _ _ _)) in HI. destruct (slab_valid E n Hn _ _ _ _ HI) as [_ [_ [X3 [X4 _]]]].
        apply (sub_lt 4 (nc_full (e_c E)) _ jd id); auto. apply (eo_f _ HE). }
    destruct (Nat.ltb_spec 0 n) as [H0|H0]; cbn [snd]; [|exact H1].
    apply (add_zero inside); [| |exact H1].
    - intros jd id js is J HI HJ. apply (proj1 (in_flip _ _ _)) in HI. destruct (jump_valid E n Hn H0 _ _ _ _ HI) as [X1 [X2 _]].
      apply (row_zero (lay_dim (e_Lc E))); [apply HB; lia|apply (sub_lt 2 nc_coup _ js is); auto; apply (eo_c _ HE)|].
      intros K HK. destruct (dof_of E 2 nc_coup _ K (eo_c _ HE) HK) as [j0 [i0 [l0 [G1 [G2 [G3 ->]]]]]].
      rewrite (jump_copy (fz 0) fadd E HE x1 n Hn H0) by assumption. apply H1. apply (dof_lt E 4 (nc_full (e_c E))); auto; [apply (eo_f _ HE)|].
      apply (up_coup_lt (e_c E) n); auto. apply in_coup_idx. auto.
    - intros jd id js is J HI HJ. apply (proj1 (in_flip _ _ _)) in HI. destruct (jump_valid E n Hn H0 _ _ _ _ HI) as [_ [_ [X3 [X4 _]]]].
      apply (sub_lt 4 (nc_full (e_c E)) _ jd id); auto. apply (eo_f _ HE).
  Qed.
  Lemma passes_zero k : forall m st, m + k = c_N (e_c E) -> (forall J, J < lay_dim (e_Lf E) -> snd st J = fz 0) ->
    forall J, J < lay_dim (e_Lf E) -> snd (alias_passes fadd E (f_mult A) (f_mult B) (seq m k) (cntn (e_c E) m) st) J = fz 0.
  Proof.
    induction k as [|k IH]; intros m st Hm Hx; [exact Hx|]. cbn [seq alias_passes]. rewrite cnt_next_n. apply IH; [lia|]. apply pass_zero; [lia|exact Hx].
  Qed.
  (** Whatever the vector held before, infinities and nan included: every entry is the positive zero. *)
  Theorem C110_zero v1 w1 J : J < lay_dim (e_Lf E) -> f_alias E A B v1 w1 J = fz 0.
  Proof.
    intro HJ. unfold f_alias, alias_loops. rewrite (cnt0_n (e_c E)). apply (passes_zero (c_N (e_c E)) 0); [reflexivity| |exact HJ].
    intros K HK. reflexivity.
  Qed.
End Alias.

(** ** Infinities and nan in the matrices *)
Lemma nan_add a : fadd S754_nan a = S754_nan. Proof. reflexivity. Qed.
Lemma row_nan_zero A y I : List.Forall (fun p => double (snd p) /\ y (fst p) = fz 0) (A I) -> List.Exists (fun p => ~ finite (snd p)) (A I) -> f_mult A y I = S754_nan.
Proof.
  unfold f_mult. generalize (fz 0) at 2. induction (A I) as [|[J a] row IH]; intros s H X; [inversion X|]. inversion H as [|? ? [H1 H2] H3]; subst. cbn [fst snd] in *.
  assert (K : forall r, fold_left (fun s '(j, v) => fadd s (fmul v (y j))) r S754_nan = S754_nan) by (induction r as [|[j v] r IHr]; [reflexivity|exact IHr]).
  cbn [fold_left]. inversion X as [? ? X1|? ? X1]; subst; [|apply IH; assumption].
  cbn [snd] in X1. rewrite H2. assert (EM : fmul a (fz 0) = S754_nan).
  { destruct a as [b|b| |b m e]; try reflexivity; exfalso; apply X1; repeat split; discriminate. }
  rewrite EM. destruct s; apply K.
Qed.
Section Nan.
  Variables (E : env) (A B : frows).
  Hypothesis HE : env_ok E.
  Hypothesis HA : forall I, I < lay_dim (e_Lp E) -> List.Forall (fun p => fst p < lay_dim (e_Lp E) /\ double (snd p)) (A I).
  Definition bad (j i l : nat) : Prop := List.Exists (fun p => ~ finite (snd p)) (A (dof (e_Lp E) j i l)).
  Definition after_slabs (m : nat) (x : nat -> spec_float) : Prop := forall n j i l, index E n j i l ->
    (m <= n -> x (row_of E n j i l) = fz 0) /\ (n < m -> bad j i l -> x (row_of E n j i l) = S754_nan).
  Lemma pass_nan n st : n < c_N (e_c E) -> after_slabs n (snd st) -> after_slabs (S n) (snd (alias_pass fadd E (f_mult A) (f_mult B) n (cntn (e_c E) n) st)).
  Proof.
    intros Hn. destruct st as [[v1 w1] x]. cbn [snd]. intro Hx. unfold alias_pass. set (y := copies fadd false (e_Lp E) (e_Lf E) _ x v1).
    assert (Hy : forall J, J < lay_dim (e_Lp E) -> y J = fz 0).
    { intros K HK. destruct (dof_of E 4 (nc_pre (e_c E)) _ K (eo_p _ HE) HK) as [j0 [i0 [l0 [G1 [G2 [G3 ->]]]]]]. unfold y.
      rewrite (slab_copy (fz 0) fadd E HE x n Hn) by assumption. apply (Hx n j0 i0 l0); [repeat split; assumption|lia]. }
    set (x1 := copies fadd true (e_Lf E) (e_Lp E) _ _ _).
    assert (H1 : after_slabs (S n) x1).
    { intros n' j i l [I1 [I2 [I3 I4]]]. unfold row_of, x1. rewrite (slab_add (fz 0) fadd E HE n Hn) by assumption. destruct (Hx n' j i l) as [Z N]; [repeat split; assumption|].
      unfold row_of in Z, N. split.
      - intro L. destruct (Nat.eqb_spec n' n); [lia|]. apply Z. lia.
      - intros L b. destruct (Nat.eqb_spec n' n) as [->|D].
        + rewrite Z by lia. rewrite row_nan_zero; [reflexivity| |exact b].
          eapply List.Forall_impl; [|apply HA; apply (dof_lt E 4 (nc_pre (e_c E))); auto; apply (eo_p _ HE)]. intros p [P1 P2]. split; [exact P2|apply Hy, P1].
        + apply N; [lia|exact b]. }
    destruct (Nat.ltb_spec 0 n) as [H0|H0]; cbn [snd]; [|exact H1].
    intros n' j i l [I1 [I2 [I3 I4]]]. unfold row_of. rewrite (jump_add (fz 0) fadd E HE n Hn H0) by assumption. destruct (H1 n' j i l) as [Z N]; [repeat split; assumption|].
    unfold row_of in Z, N. split.
    - intro L. destruct (Nat.eqb_spec (S n') n); [lia|]. destruct (Nat.eqb_spec n' n); [lia|]. rewrite !andb_false_r. cbn [andb]. apply Z, L.
    - intros L b. rewrite (N L b), !nan_add. destruct (_ && _ && _); [reflexivity|]. destruct (_ && _ && _); reflexivity.
  Qed.
  (** In every slab, a row of the slab matrix with an infinity or a nan gives nan, though the vector is zero. *)
  Theorem C110_nan v1 w1 n j i l : index E n j i l -> bad j i l -> f_alias E A B v1 w1 (row_of E n j i l) = S754_nan.
  Proof.
    intros Hi b. unfold f_alias, alias_loops. rewrite (cnt0_n (e_c E)).
    assert (G : forall k m st, m + k = c_N (e_c E) -> after_slabs m (snd st) -> after_slabs (c_N (e_c E)) (snd (alias_passes fadd E (f_mult A) (f_mult B) (seq m k) (cntn (e_c E) m) st))).
    { induction k as [|k IH]; intros m st Hm Hx; [replace (c_N (e_c E)) with m by lia; exact Hx|]. cbn [seq alias_passes]. rewrite cnt_next_n. apply IH; [lia|]. apply pass_nan; [lia|exact Hx]. }
    apply (G (c_N (e_c E)) 0); [reflexivity| |exact Hi|exact (proj1 Hi)|exact b]. intros n' j' i' l' Hi'. split; [reflexivity|lia].
  Qed.
End Nan.

(** ** The loops are those of the model over the reals *)
Section Reals.
  Variables (E : env) (A B : matrix) (v : nat).
  Notation c := (e_c E).
  Let mA := mult (lay_dim (e_Lp E)) A.
  Let mB := mult (lay_dim (e_Lc E)) B.
  Definition holds1 (st : vec * vec * vec) (s : state) : Prop :=
    let '(v1, w1, x) := st in
    s_fes s = true /\ s_njm s = Some A /\ s_vs1 s = Some v1 /\ s_heap s v = x /\ (1 < c_N c -> s_com s = Some B /\ s_vc1 s = Some w1).
  Lemma alias_pass_real st s n k : n < c_N c -> holds1 st s -> exists s', apply_slab E v v n k s = (Ok tt, s') /\ holds1 (alias_pass Rplus E mA mB n k st) s'.
  Proof.
    intros Hn. destruct st as [[v1 w1] x]. intros [Hf [Hm [H1 [Hx Hc]]]].
    unfold apply_slab, need_fes, err_if, bind, get, need, modify, ret, raise.
    rewrite Hf. cbn [negb]. cbv beta iota zeta. rewrite H1. cbv beta iota zeta.
    cbn [s_njm w_vs1 w_vs2 put w_heap s_heap]. rewrite Hm. cbv beta iota zeta.
    cbn [s_heap w_vs1 w_vs2 s_vc1 w_heap put]. rewrite Hx.
    unfold alias_pass. rewrite !moves. fold mA mB.
    destruct (Nat.ltb_spec 0 n) as [H0|H0].
    - destruct (Hc ltac:(lia)) as [Hb H2].
      match goal with |- context [s_vc1 (put ?a ?b (w_vs2 ?p (w_vs1 ?q s)))] => change (s_vc1 (put a b (w_vs2 p (w_vs1 q s)))) with (s_vc1 s) end.
      rewrite H2. cbv beta iota zeta.
      match goal with |- context [s_com ?t] => change (s_com t) with (s_com s) end.
      rewrite Hb. cbv beta iota zeta.
      match goal with |- context [s_heap (w_vc2 ?a (w_vc1 ?b ?t))] => change (s_heap (w_vc2 a (w_vc1 b t))) with (s_heap t) end.
      rewrite put_same.
      eexists. split; [reflexivity|]. rewrite !moves. fold mB. unfold holds1. repeat split; [exact Hf|exact Hm|rewrite put_same; reflexivity|exact Hb].
    - eexists. split; [reflexivity|]. unfold holds1. repeat split; [exact Hf|exact Hm|rewrite put_same; reflexivity|apply Hc; assumption|apply Hc; assumption].
  Qed.
  Lemma alias_passes_real ns : forall st s k, (forall n, In n ns -> n < c_N c) -> holds1 st s ->
    exists s', slabs c (apply_slab E v v) ns k s = (Ok tt, s') /\ holds1 (alias_passes Rplus E mA mB ns k st) s'.
  Proof.
    induction ns as [|n ns IH]; intros st s k Hns H; [exists s; split; [reflexivity|exact H]|].
    destruct (alias_pass_real st s n k (Hns n (or_introl eq_refl)) H) as [s1 [E1 H1]].
    destruct (IH _ s1 (cnt_next c k) (fun m Hm => Hns m (or_intror Hm)) H1) as [s' [E' H']]. exists s'. split; [|exact H'].
    cbn [slabs]. unfold bind. rewrite E1. exact E'.
  Qed.
  (** With real numbers the loops compute what apply_spacetime_matrix of SpaceTimeModel.v does with one vector. *)
  Theorem C110_reals s v1 w1 : s_fes s = true -> s_njm s = Some A -> s_vs1 s = Some v1 -> (1 < c_N c -> s_com s = Some B /\ s_vc1 s = Some w1) ->
    exists s', apply_spacetime_matrix E v v s = (Ok tt, s')
      /\ s_heap s' v = alias_loops 0%R Rplus E (mult (lay_dim (e_Lp E)) A) (mult (lay_dim (e_Lc E)) B) v1 w1.
  Proof.
    intros Hf Hm H1 Hc. unfold apply_spacetime_matrix. unfold bind at 1, modify.
    destruct (alias_passes_real (seq 0 (c_N c)) (v1, w1, fun _ => 0%R) (put v vzero s) cnt0) as [s' [E' H']].
    - intros n Hn. apply in_seq in Hn. lia.
    - unfold holds1. split; [exact Hf|]. split; [exact Hm|]. split; [exact H1|]. split; [apply put_same|]. exact Hc.
    - exists s'. split; [exact E'|]. unfold alias_loops. destruct (alias_passes Rplus E mA mB (seq 0 (c_N c)) cnt0 (v1, w1, fun _ => 0%R)) as [[a b] o] eqn:EP.
      destruct H' as [_ [_ [_ [H' _]]]]. rewrite H'. transitivity (snd (a, b, o)); [reflexivity|]. rewrite <- EP. reflexivity.
  Qed.
End Reals.

(** ** Examples *)
Definition exInf : frows := fun I => match I with 2 => [(0, fz 1); (1, S754_infinity false)] | _ => [(I, fz 1)] end.
(** Two slabs, the matrices and the vector of C92_nonvacuous: the call with one vector gives zero where
    the product is 10 (the claim of C23 is false in doubles too); with an infinity in a row the result is nan in both slabs. *)
Theorem C110_nonvacuous : exists c, let E := exE exI c in env_ok E /\ c_N c = 2
  /\ stored (lay_dim (e_Lp E)) exA /\ stored (lay_dim (e_Lc E)) exB /\ index E 0 0 1 2
  /\ f_alias E exA exB ex_x ex_x (row_of E 0 0 1 2) = fz 0 /\ f_apply E exA exB ex_x ex_x ex_x (row_of E 0 0 1 2) = fz 10.
Proof.
  destruct (ex_env 1 2) as [c [_ [H1 [H2 H3]]]]; try lia. exists c. cbv zeta.
  destruct c as [cq cqs ck cks cN cT ct cdt clam cst cj cwp cel cqr cqh cph cdp csm cep cv cdv]. cbn in H1, H2, H3. subst cq cqs cN.
  set (c := mkCfg _ _ _ _ _ _ _ _ _ _ _ _ _ _ _ _ _ _ _ _ _). set (E := exE exI c).
  assert (L1 : lay_dim (e_Lp E) = 24) by (vm_compute; reflexivity). assert (L2 : lay_dim (e_Lc E) = 12) by (vm_compute; reflexivity).
  assert (F : forall z, (z = 1 \/ z = 2 \/ z = -1)%Z -> double (fz z) /\ finite (fz z)).
  { intros z [-> |[-> | ->]]; (split; [reflexivity|repeat split; discriminate]). }
  assert (SA : stored (lay_dim (e_Lp E)) exA).
  { rewrite L1. intros I HI. repeat (apply List.Forall_cons; [cbn [fst snd]; split; [lia|apply F; auto]|]). apply List.Forall_nil. }
  assert (SB : stored (lay_dim (e_Lc E)) exB).
  { rewrite L2. intros I HI. repeat (apply List.Forall_cons; [cbn [fst snd]; split; [lia|apply F; auto]|]). apply List.Forall_nil. }
  assert (HE : env_ok E) by (apply exE_ok; cbn; lia). assert (HI : index E 0 0 1 2) by (vm_compute; lia).
  split; [exact HE|]. split; [reflexivity|]. split; [exact SA|]. split; [exact SB|]. split; [exact HI|]. split; [|vm_compute; reflexivity].
  apply C110_zero; [exact HE|exact SA|intros _; exact SB|]. vm_compute. lia.
Qed.
Theorem C110_nan_nonvacuous : exists c, let E := exE exI c in env_ok E /\ index E 1 0 0 2 /\ bad E exInf 0 0 2
  /\ (forall I, I < lay_dim (e_Lp E) -> List.Forall (fun p => fst p < lay_dim (e_Lp E) /\ double (snd p)) (exInf I))
  /\ f_alias E exInf exB ex_x ex_x (row_of E 1 0 0 2) = S754_nan.
Proof.
  destruct (ex_env 1 2) as [c [_ [H1 [H2 H3]]]]; try lia. exists c. cbv zeta.
  destruct c as [cq cqs ck cks cN cT ct cdt clam cst cj cwp cel cqr cqh cph cdp csm cep cv cdv]. cbn in H1, H2, H3. subst cq cqs cN.
  set (c := mkCfg _ _ _ _ _ _ _ _ _ _ _ _ _ _ _ _ _ _ _ _ _). set (E := exE exI c).
  assert (L1 : lay_dim (e_Lp E) = 24) by (vm_compute; reflexivity).
  assert (HE : env_ok E) by (apply exE_ok; cbn; lia). assert (HI : index E 1 0 0 2) by (vm_compute; lia).
  assert (HB : bad E exInf 0 0 2).
  { unfold bad. replace (dof (e_Lp E) 0 0 2) with 2 by (vm_compute; reflexivity). cbn [exInf]. apply List.Exists_cons_tl, List.Exists_cons_hd. cbn [snd]. intros [_ [_ H]]. apply H. reflexivity. }
  assert (HA : forall I, I < lay_dim (e_Lp E) -> List.Forall (fun p => fst p < lay_dim (e_Lp E) /\ double (snd p)) (exInf I)).
  { rewrite L1. intros I HI'. do 3 (destruct I as [|I]; [repeat (apply List.Forall_cons; [cbn [fst snd]; split; [lia|reflexivity]|]); apply List.Forall_nil|]).
    apply List.Forall_cons; [cbn [fst snd]; split; [lia|reflexivity]|apply List.Forall_nil]. }
  split; [exact HE|]. split; [exact HI|]. split; [exact HB|]. split; [exact HA|]. apply C110_nan; assumption.
Qed.

Print Assumptions C110_zero. Print Assumptions C110_nan. Print Assumptions C110_reals. Print Assumptions C110_nonvacuous. Print Assumptions C110_nan_nonvacuous.
