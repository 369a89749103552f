(** Props_FloatClient.v -- the iterative solver sees two fixed maps, in double precision
    (/repo/src/dxss/space_time.py:1867-1926, /repo/src/dxss/gmres.py:50-96).  Property C109. *)
From Coq Require Import ZArith Reals List Bool Lia Lra String.
From Coq Require Import Floats.SpecFloat.
From Verif Require Import Base FormModel FormSpec FormProofs SpaceTimeForms FormTime FormBlocks FormExample SpaceTimeModel SlabOps ApplyProofs OpsExample MarchLoops
  FloatModel FloatRound FloatErrors FloatErrorsProofs FloatApply FloatApplyProofs Props_FloatApply FloatMarch Props_FloatMarch FloatPre Props_FloatPre FloatClient.
Import ListNotations.
Local Open Scope nat_scope.

Definition client_data (E : env) (A B M : frows) (asm1 sol0 sol1 : fvec -> fvec -> fvec) : Prop :=
  pre_data E asm1 sol0 sol1 /\ size (lay_dim (e_Lp E)) A /\ size (lay_dim (e_Lc E)) B /\ size (lay_dim (e_Lb E)) M.

(** every entry of a space-time vector belongs to a slab *)
Lemma every_index E I : env_ok E -> I < lay_dim (e_Lf E) -> exists n j i l, index E n j i l /\ I = row_of E n j i l.
Proof.
  intros HE HI. destruct (dof_of E 4 (nc_full (e_c E)) _ I (eo_f _ HE) HI) as [j [i [l [Hj [Hi [Hl ->]]]]]]. unfold nc_full in Hi.
  assert (P : ntime (e_c E) j <> 0) by (unfold ntime; lia).
  exists (i / ntime (e_c E) j), j, (i mod ntime (e_c E) j), l. unfold row_of. split.
  - split; [apply Nat.div_lt_upper_bound; [exact P|nia]|]. split; [exact Hj|]. split; [apply Nat.mod_upper_bound, P|exact Hl].
  - f_equal. rewrite Nat.mul_comm. apply Nat.div_mod, P.
Qed.
Lemma entries_ext E x y : env_ok E -> (forall n j i l, index E n j i l -> x (row_of E n j i l) = y (row_of E n j i l)) -> entries E x = entries E y.
Proof.
  intros HE H. unfold entries. apply map_ext_in. intros I HI. apply in_seq in HI. destruct (every_index E I HE) as [n [j [i [l [Hi ->]]]]]; [lia|]. apply H, Hi.
Qed.
Lemma at_entries E x I : I < lay_dim (e_Lf E) -> at_list (entries E x) I = x I.
Proof.
  intro HI. unfold at_list, entries. rewrite (nth_indep _ _ (x 0)) by (rewrite map_length, seq_length; exact HI). rewrite map_nth, seq_nth by exact HI. reflexivity.
Qed.
Lemma row_in E n j i l : env_ok E -> index E n j i l -> row_of E n j i l < lay_dim (e_Lf E).
Proof.
  intros HE [Hn [Hj [Hi Hl]]]. unfold row_of. apply (dof_lt E 4 (nc_full (e_c E))); [apply (eo_f _ HE)|exact Hj| |exact Hl]. unfold nc_full. nia.
Qed.

Section Maps.
  Variables (E : env) (A B M : frows) (asm0 : fvec) (asm1 sol0 sol1 : fvec -> fvec -> fvec) (improved : bool).
  Hypothesis HD : client_data E A B M asm1 sol0 sol1.
  Let z : fvec := fun _ => fz 0.
  Let a (v : dvec) : dvec := entries E (f_apply E A B (at_list v) z z).
  Let p (v : dvec) : dvec := entries E (if improved then f_march E sol0 sol1 M false (at_list v) z z else f_pre E asm0 asm1 sol0 sol1 false (at_list v) z z z z).
  Lemma mult_fixed v s : fst (mult_call E A B v s) = a v.
  Proof.
    destruct HD as [[HE _] [HA [HB _]]]. unfold mult_call. destruct (passes _ _ _ _ _ _ _ _) as [[v1 w1] out] eqn:EP. cbn [fst].
    apply (entries_ext E _ _ HE). intros n j i l Hi. rewrite (C92_scratch E A B (at_list v) z z (f_v1 s) (f_w1 s) n j i l HE HA HB Hi).
    unfold f_apply, apply_loops. rewrite EP. reflexivity.
  Qed.
  Lemma prec_fixed same v old s : fst (prec_call E M asm0 asm1 sol0 sol1 improved same v old s) = p v.
  Proof.
    destruct HD as [HP [HA [HB HM]]]. pose proof HP as [HE [HS [D0 D1]]]. unfold prec_call, p. destruct improved.
    - destruct (march_passes _ _ _ _ _ _ _ _ _ _ _) as [[r uh] x] eqn:EP. cbn [fst]. apply (entries_ext E _ _ HE). intros n j i l [Hn [Hj [Hi Hl]]].
      transitivity (march_loops (fz 0) fadd E sol0 sol1 (f_mult M) same (at_list v) (f_uh s) (at_list old) (row_of E n j i l)).
      + unfold march_loops. rewrite EP. reflexivity.
      + unfold f_march, row_of. rewrite !(march_entry (fz 0) fadd E HE sol0 sol1 (f_mult M) D0 D1 (f_mult_local _ _ HM)) by assumption. reflexivity.
    - destruct (pre_passes _ _ _ _ _ _ _ _ _ _ _ _) as [[[u1 u2] uh] x] eqn:EP. cbn [fst]. apply (entries_ext E _ _ HE). intros n j i l Hi.
      rewrite <- (C108_causal E asm0 asm1 sol0 sol1 same (at_list v) (f_u1 s) (f_u2 s) (f_uh s) (at_list old) false (at_list v) z z z z n j i l HP Hi) by reflexivity.
      unfold f_pre, pre_loops. rewrite EP. reflexivity.
  Qed.
  (** Whatever the client does, and whatever the scratch vectors and the target vectors contain, in place
      or not: both calls act as one map each, bit by bit.  The maps are those of C92, and of C97 or C108. *)
  Theorem C109_maps : exists a p,
    (forall c s, fst (run E A B M asm0 asm1 sol0 sol1 improved c s) = run_maps a p c)
    /\ (forall v, List.length (a v) = lay_dim (e_Lf E) /\ List.length (p v) = lay_dim (e_Lf E))
    /\ (forall v n j i l v1 w1, index E n j i l -> at_list (a v) (row_of E n j i l) = f_apply E A B (at_list v) v1 w1 (row_of E n j i l))
    /\ (forall v n j i l same u1 u2 w x, index E n j i l -> at_list (p v) (row_of E n j i l) =
         if improved then f_march E sol0 sol1 M same (at_list v) w x (row_of E n j i l) else f_pre E asm0 asm1 sol0 sol1 same (at_list v) u1 u2 w x (row_of E n j i l)).
  Proof.
    pose proof HD as [HP [HA [HB HM]]]. pose proof HP as [HE [HS [D0 D1]]]. exists a, p. split; [|split; [|split]].
    - induction c as [r|v old k IH|same v old k IH]; intro s; cbn [run run_maps]; [reflexivity| |].
      + pose proof (mult_fixed v s) as F. destruct (mult_call E A B v s) as [y s']. cbn [fst] in F. rewrite F. apply IH.
      + pose proof (prec_fixed same v old s) as F. destruct (prec_call E M asm0 asm1 sol0 sol1 improved same v old s) as [y s']. cbn [fst] in F. rewrite F. apply IH.
    - intro v. unfold a, p, entries. rewrite !map_length, !seq_length. auto.
    - intros v n j i l v1 w1 Hi. unfold a. rewrite at_entries by (apply row_in; assumption). apply C92_scratch; assumption.
    - intros v n j i l same u1 u2 w x Hi. unfold p. rewrite at_entries by (apply row_in; assumption). destruct improved.
      + destruct Hi as [Hn [Hj [Hi Hl]]]. unfold f_march, row_of. rewrite !(march_entry (fz 0) fadd E HE sol0 sol1 (f_mult M) D0 D1 (f_mult_local _ _ HM)) by assumption. reflexivity.
      + apply C108_causal; [exact HP|exact Hi|reflexivity].
  Qed.
  (** Reproducible: the same client gets the same bits after any other client. *)
  Theorem C109_again c c' s s' : fst (run E A B M asm0 asm1 sol0 sol1 improved c (snd (run E A B M asm0 asm1 sol0 sol1 improved c' s))) = fst (run E A B M asm0 asm1 sol0 sol1 improved c s').
  Proof. destruct C109_maps as [a0 [p0 [H _]]]. rewrite !H. reflexivity. Qed.
  (** only the entries of the vector matter *)
  Theorem C109_entries v v' same old same' old' s s' :
    (forall I, I < lay_dim (e_Lf E) -> at_list v I = at_list v' I) ->
    fst (prec_call E M asm0 asm1 sol0 sol1 improved same v old s) = fst (prec_call E M asm0 asm1 sol0 sol1 improved same' v' old' s').
  Proof.
    intro H. rewrite !prec_fixed. unfold p. destruct HD as [HP [HA [HB HM]]]. pose proof HP as [HE [HS [D0 D1]]]. apply (entries_ext E _ _ HE). intros n j i l Hi. destruct improved.
    - destruct Hi as [Hn [Hj [Hi Hl]]]. unfold f_march, row_of. rewrite !(march_entry (fz 0) fadd E HE sol0 sol1 (f_mult M) D0 D1 (f_mult_local _ _ HM)) by assumption.
      assert (P : forall j i l, j < 4 -> i < ntime (e_c E) j -> l < d_dim (e_D E) (spc j) -> dof (e_Lp E) j i l < lay_dim (e_Lp E)).
      { intros j0 i0 l0 X1 X2 X3. apply (dof_lt E 4 (nc_pre (e_c E))); auto. apply (eo_p _ HE). }
      assert (Q : forall n, n < c_N (e_c E) -> forall J, J < lay_dim (e_Lp E) ->
        slab_sol (fz 0) fadd E sol0 sol1 (f_mult M) (at_list v) n J = slab_sol (fz 0) fadd E sol0 sol1 (f_mult M) (at_list v') n J).
      { clear n j i l Hn Hj Hi Hl. induction n as [|n IH]; intros Hn J HJ; cbn [slab_sol]; [apply D0|apply D1]; try exact HJ; clear J HJ;
          intros J HJ; destruct (dof_of E 4 (nc_pre (e_c E)) _ J (eo_p _ HE) HJ) as [j [i [l [Hj [Hi [Hl ->]]]]]]; unfold load; rewrite !(load_at (fz 0) fadd E HE) by assumption.
        - f_equal. apply H. apply (row_in E 0 j i l HE). repeat split; assumption.
        - f_equal; [|apply H; apply (row_in E (S n) j i l HE); repeat split; assumption].
          rewrite !(carry_at (fz 0) fadd E HE (f_mult M)) by assumption. destruct (Nat.ltb_spec j 2) as [Hj2|Hj2]; cbn [andb]; [|reflexivity]. destruct (Nat.eqb i 0); [|reflexivity]. f_equal.
          apply (f_mult_local _ _ HM); [|apply (dof_lt E 2 nc_bnd); unfold nc_bnd; auto; apply (eo_b _ HE)]. intros J HJ'.
          destruct (dof_of E 2 nc_bnd _ J (eo_b _ HE) HJ') as [j' [i' [l' [Hj' [Hi' [Hl' ->]]]]]]. unfold nc_bnd in Hi'. assert (i' = 0) by lia. subst i'.
          rewrite !(hand_in_at (fz 0) fadd E HE) by assumption. f_equal. apply IH; [lia|]. apply P; [lia|apply q_lt, Hj'|exact Hl']. }
      apply Q; [exact Hn|apply P; assumption].
    - apply (C108_causal E asm0 asm1 sol0 sol1 false (at_list v) z z z z false (at_list v') z z z z n j i l HP Hi). intros m j' i' l' _ Hm. apply H, row_in; assumption.
  Qed.
End Maps.

(** ** Example *)
(** one step of an iteration: precondition a vector in place, multiply, precondition the result *)
Definition ex_client (d : nat) : client :=
  Prec true (map fn (seq 0 d)) [] (fun y => Mult y [] (fun r => Prec false r y Done)).
Definition ex_scratch : scratch := mkScratch ex_x ex_x ex_x ex_x ex_x.
Theorem C109_nonvacuous : exists c, let E := exE exI c in
  client_data E exA exB exM exA1 id_sol half_sol
  /\ let out := run E exA exB exM exA0 exA1 id_sol half_sol true (ex_client (lay_dim (e_Lf E))) ex_scratch in
     nth (row_of E 1 0 0 2) (fst out) (fz 0) <> fz 0 /\ f_uh (snd out) 2 <> f_uh ex_scratch 2 /\ f_v1 (snd out) 2 <> f_v1 ex_scratch 2
     /\ fst (run E exA exB exM exA0 exA1 id_sol half_sol true (ex_client (lay_dim (e_Lf E))) (snd out)) = fst out.
Proof.
  destruct (ex_env 1 2) as [c [_ [H1 [H2 H3]]]]; try lia. exists c. cbv zeta.
  destruct c as [cq cqs ck cks cN cT ct cdt clam cst cj cwp cel cqr cqh cph cdp csm cep cv cdv]. cbn in H1, H2, H3. subst cq cqs cN.
  set (c := mkCfg _ _ _ _ _ _ _ _ _ _ _ _ _ _ _ _ _ _ _ _ _). set (E := exE exI c).
  assert (L1 : lay_dim (e_Lp E) = 24) by (vm_compute; reflexivity). assert (L2 : lay_dim (e_Lb E) = 6) by (vm_compute; reflexivity).
  assert (L3 : lay_dim (e_Lc E) = 12) by (vm_compute; reflexivity). assert (L4 : d_dim (e_D E) Vp = 3) by (vm_compute; reflexivity).
  assert (CD : client_data E exA exB exM exA1 id_sol half_sol).
  { destruct (ex_solvers 24) as [S0 S1]. split; [|split; [|split]].
    - split; [apply exE_ok; cbn; lia|]. rewrite L1, L4. split; [apply ex_assembly; lia|]. split; [exact (proj1 S0)|exact (proj1 S1)].
    - rewrite L1. apply (ex_rows 24). lia.
    - rewrite L3. apply (ex_rows 12). lia.
    - rewrite L2. intros I HI. apply List.Forall_cons; [exact HI|]. apply List.Forall_cons; [cbn; lia|apply List.Forall_nil]. }
  split; [exact CD|]. split; [vm_compute; discriminate|]. split; [vm_compute; discriminate|]. split; [vm_compute; discriminate|].
  apply C109_again, CD.
Qed.

Print Assumptions C109_maps.
Print Assumptions C109_again.
Print Assumptions C109_entries.
Print Assumptions C109_nonvacuous.
