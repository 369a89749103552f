(** Props_Scratch.v -- C106: the contents of the node functions u_node_fine, u_node_coarse. *)
From Coq Require Import Reals List ZArith Lra Lia Bool String FunctionalExtensionality.
From Verif Require Import Base TimeModel FormModel FormSpec FormProofs SpaceTimeForms FormBlocks FormTime FormC12 FormWf FormExample Props_Forms SpaceTimeModel SlabOps ApplyProofs
  MarchProofs MarchLoops ErrorsModel Lifecycle LifeProofs OpsProofs SetupOk LinAlg OpsExample Props_Ops LifeFrames Props_Life Transfer Props_Transfer ScratchNodes.
Import ListNotations.
Open Scope R_scope.
Open Scope monad_scope.

(** * Nothing depends on the contents *)
(** the same answer and the same output vector *)
Definition same_out (m : M nodes unit) (m0 : M vec unit) : Prop :=
  forall s, fst (m s) = fst (m0 (n_out s)) /\ n_out (snd (m s)) = snd (m0 (n_out s)).
Lemma same_each {A} (l : list A) (f : A -> M nodes unit) (g : A -> M vec unit) :
  (forall a, same_out (f a) (g a)) -> same_out (for_each l f) (for_each l g).
Proof.
  intro H. induction l as [|a l IH]; intro s; [split; reflexivity|].
  cbn [for_each]. unfold bind. destruct (H a s) as [H1 H2].
  destruct (f a s) as [[[]|e] s1], (g a (n_out s)) as [[[]|e'] v1]; cbn [fst snd] in *; try discriminate.
  - subst v1. apply IH.
  - split; [exact H1|exact H2].
Qed.
Lemma same_loop E (f : nat * nat -> M nodes unit) (g : nat * nat -> M vec unit) :
  (forall a, same_out (f a) (g a)) -> forall ns k, same_out (nodes_loop E f ns k) (trans_loop E g ns k).
Proof.
  intros H ns. induction ns as [|n ns IH]; intros k s; [split; reflexivity|].
  cbn [nodes_loop trans_loop]. unfold bind. destruct (same_each (trans_pairs E k) f g H s) as [H1 H2].
  destruct (for_each (trans_pairs E k) f s) as [[[]|e] s1], (for_each (trans_pairs E k) g (n_out s)) as [[[]|e'] v1]; cbn [fst snd] in *; try discriminate.
  - subst v1. apply IH.
  - split; [exact H1|exact H2].
Qed.
Lemma of_array u n l : (l < n)%nat -> of_list (array u n) l = u l.
Proof.
  intro H. unfold of_list, array. rewrite (nth_indep _ 0 (u 0%nat)) by (rewrite map_length, seq_length; exact H).
  rewrite map_nth, seq_nth by exact H. reflexivity.
Qed.
Lemma array_of u n : array (of_list (array u n)) n = array u n.
Proof. unfold array at 1 3. apply map_ext_in. intros l H. apply in_seq in H. apply of_array. lia. Qed.
Lemma prolong_comp_same E K xc a : same_out (prolong_comp E K xc a)
  ((fun '(j, i) => trans_comp (k_up K) (d_dim (k_D K) Vp) (d_dim (e_D E) Vp) xc (lay_sub (k_L K) j i) (lay_sub (e_Lf E) j i)) a).
Proof.
  destruct a as [j i]. intro s. unfold prolong_comp, trans_comp, bind, lift, modify, get, ret.
  destruct (np_assign (d_dim (k_D K) Vp) (gather xc (lay_sub (k_L K) j i))) as [a|e]; [|split; reflexivity].
  cbn [n_fine n_coarse w_fine w_coarse n_out]. rewrite array_of.
  change (array (k_up K (of_list a)) (d_dim (e_D E) Vp)) with (map (k_up K (of_list a)) (seq 0 (d_dim (e_D E) Vp))).
  destruct (np_assign _ (map _ _)); split; reflexivity.
Qed.
Lemma restrict_comp_same E K xf a : same_out (restrict_comp E K xf a)
  ((fun '(j, i) => trans_comp (k_down K) (d_dim (e_D E) Vp) (d_dim (k_D K) Vp) xf (lay_sub (e_Lf E) j i) (lay_sub (k_L K) j i)) a).
Proof.
  destruct a as [j i]. intro s. unfold restrict_comp, trans_comp, bind, lift, modify, get, ret.
  destruct (np_assign (d_dim (e_D E) Vp) (gather xf (lay_sub (e_Lf E) j i))) as [a|e]; [|split; reflexivity].
  cbn [n_fine n_coarse w_fine w_coarse n_out]. rewrite array_of.
  change (array (k_down K (of_list a)) (d_dim (k_D K) Vp)) with (map (k_down K (of_list a)) (seq 0 (d_dim (k_D K) Vp))).
  destruct (np_assign _ (map _ _)); split; reflexivity.
Qed.
(** Whatever the node functions held, both operations answer and write as in the model without
    them: for all spaces, dof maps and vectors, also when they fail. *)
Theorem C106_prolongation : forall E K xc s,
  fst (prolong_n E K xc s) = fst (prolong E K xc (n_out s)) /\ n_out (snd (prolong_n E K xc s)) = snd (prolong E K xc (n_out s)).
Proof. intros E K xc s. exact (same_loop E _ _ (prolong_comp_same E K xc) _ _ s). Qed.
Theorem C106_restriction : forall E K xf s,
  fst (restrict_n E K xf s) = fst (restrict E K xf (n_out s)) /\ n_out (snd (restrict_n E K xf s)) = snd (restrict E K xf (n_out s)).
Proof. intros E K xf s. exact (same_loop E _ _ (restrict_comp_same E K xf) _ _ s). Qed.

(** * What the node functions hold *)
(** the components in the order in which they are handled: slab by slab, in each slab u1, u2, z1,
    z2, each with its time functions *)
Definition visits (E : env) : list (nat * nat) := flat_map (slab_comps E) (seq 0 (c_N (e_c E))).
Lemma each_app {S A} (l1 l2 : list A) (f : A -> M S unit) s :
  for_each (l1 ++ l2) f s = bind (for_each l1 f) (fun _ => for_each l2 f) s.
Proof.
  revert s. induction l1 as [|a l1 IH]; intro s; [reflexivity|].
  cbn [app for_each]. unfold bind. destruct (f a s) as [[[]|e] s1]; [|reflexivity]. rewrite IH. reflexivity.
Qed.
Lemma loop_flat E f : forall m a s, nodes_loop E f (seq a m) (cntn (e_c E) a) s = for_each (flat_map (slab_comps E) (seq a m)) f s.
Proof.
  induction m as [|m IH]; intros a s; [reflexivity|].
  cbn [seq nodes_loop flat_map]. rewrite (trans_pairs_n E), each_app, cnt_next_n. unfold bind.
  destruct (for_each (slab_comps E a) f s) as [[[]|e] s1]; [apply IH|reflexivity].
Qed.
Lemma prolong_flat E K xc s : prolong_n E K xc s = for_each (visits E) (prolong_comp E K xc) s.
Proof. unfold prolong_n. rewrite (cnt0_n (e_c E)). apply loop_flat. Qed.
Lemma restrict_flat E K xf s : restrict_n E K xf s = for_each (visits E) (restrict_comp E K xf) s.
Proof. unfold restrict_n. rewrite (cnt0_n (e_c E)). apply loop_flat. Qed.

(** the last one: the last time function of z2 in the last slab *)
Lemma visits_last E n : c_N (e_c E) = S n -> exists l, visits E = l ++ [(3, nc_full (e_c E) 3 - 1)%nat].
Proof.
  intro HN. unfold visits. rewrite HN, seq_S. cbn [Nat.add]. rewrite flat_map_app. cbn [flat_map]. rewrite app_nil_r.
  assert (L : exists l, slab_comps E n = l ++ [(3, nc_full (e_c E) 3 - 1)%nat]).
  { unfold slab_comps. rewrite (seq_S 3 0), flat_map_app. cbn [Nat.add flat_map]. rewrite app_nil_r.
    assert (M : map (fun ell => (3, n * ntime (e_c E) 3 + ell)%nat) (seq 0 (ntime (e_c E) 3)) =
      map (fun ell => (3, n * ntime (e_c E) 3 + ell)%nat) (seq 0 (sto (e_c E) 3)) ++ [(3, nc_full (e_c E) 3 - 1)%nat]).
    { replace (seq 0 (ntime (e_c E) 3)) with (seq 0 (S (sto (e_c E) 3))) by reflexivity.
      rewrite seq_S, map_app. cbn [map Nat.add]. do 2 f_equal. f_equal. unfold nc_full. rewrite HN. unfold ntime. nia. }
    rewrite M, app_assoc. eauto. }
  destruct L as [l ->]. rewrite app_assoc. eauto.
Qed.
(** a successful loop ends with its last pass *)
Lemma each_last {S A} (l : list A) a (f : A -> M S unit) s t : for_each (l ++ [a]) f s = (Ok tt, t) ->
  exists s1, f a s1 = (Ok tt, t).
Proof.
  rewrite each_app. unfold bind. destruct (for_each l f s) as [[[]|e] s1]; [|discriminate].
  cbn [for_each]. unfold bind. destruct (f a s1) as [[[]|e] s2] eqn:Ef; [|discriminate]. cbn. intro H. injection H; intros; subst. eauto.
Qed.
Lemma prolong_comp_holds E K xc j i s t : prolong_comp E K xc (j, i) s = (Ok tt, t) ->
  exists a, np_assign (d_dim (k_D K) Vp) (gather xc (lay_sub (k_L K) j i)) = Ok a /\
    n_coarse t = of_list a /\ n_fine t = of_list (array (k_up K (of_list a)) (d_dim (e_D E) Vp)).
Proof.
  unfold prolong_comp, bind, lift, modify, get, ret.
  destruct (np_assign (d_dim (k_D K) Vp) _) as [a|e]; [|discriminate]. cbn [n_fine n_coarse w_fine w_coarse n_out].
  destruct (np_assign _ _) as [b|e]; [|discriminate]. intro H. injection H; intros; subst. exists a. auto.
Qed.
Lemma restrict_comp_holds E K xf j i s t : restrict_comp E K xf (j, i) s = (Ok tt, t) ->
  exists a, np_assign (d_dim (e_D E) Vp) (gather xf (lay_sub (e_Lf E) j i)) = Ok a /\
    n_fine t = of_list a /\ n_coarse t = of_list (array (k_down K (of_list a)) (d_dim (k_D K) Vp)).
Proof.
  unfold restrict_comp, bind, lift, modify, get, ret.
  destruct (np_assign (d_dim (e_D E) Vp) _) as [a|e]; [|discriminate]. cbn [n_fine n_coarse w_fine w_coarse n_out].
  destruct (np_assign _ _) as [b|e]; [|discriminate]. intro H. injection H; intros; subst. exists a. auto.
Qed.
Lemma assign_part D nc L x j i : lay_ok D 4 nc L -> d_dim D Vd = d_dim D Vp -> (j < 4)%nat -> (i < nc j)%nat ->
  np_assign (d_dim D Vp) (gather x (lay_sub L j i)) = Ok (gather x (lay_sub L j i))
  /\ of_list (gather x (lay_sub L j i)) = part (d_dim D Vp) L x j i.
Proof.
  intros HL HD Hj Hi. split; [|exact (part_comp D nc L x j i HL HD Hj Hi)].
  unfold np_assign. rewrite length_gather, (wl_len _ _ _ _ HL) by assumption.
  replace (d_dim D (spc j)) with (d_dim D Vp) by (unfold spc; destruct (Nat.ltb j 2); auto). rewrite Nat.eqb_refl. reflexivity.
Qed.
Lemma last_comp E : (1 <= c_N (e_c E))%nat -> (nc_full (e_c E) 3 - 1 < nc_full (e_c E) 3)%nat.
Proof. intro H. unfold nc_full, ntime. nia. Qed.
(** After prolongation u_node_coarse holds the last component of the coarse vector (the last time
    function of z2 in the last slab) and u_node_fine its interpolation; the earlier contents are gone. *)
Theorem C106_after_prolongation : forall E K xc s, env_ok E -> fits E K ->
  exists t, prolong_n E K xc s = (Ok tt, t) /\
    n_coarse t = part (d_dim (k_D K) Vp) (k_L K) xc 3 (nc_full (e_c E) 3 - 1) /\
    (forall l, (l < d_dim (e_D E) Vp)%nat ->
       n_fine t l = k_up K (part (d_dim (k_D K) Vp) (k_L K) xc 3 (nc_full (e_c E) 3 - 1)) l).
Proof.
  intros E K xc s HE HF.
  destruct (trans_run E (k_D K) (e_D E) (k_L K) (e_Lf E) (k_up K) xc (ft_L _ _ HF) (eo_f _ HE) (ft_c _ _ HF) (ft_f _ _ HF) (n_out s)) as [v [E1 _]].
  destruct (C106_prolongation E K xc s) as [H1 _]. unfold prolong in H1. rewrite E1 in H1. cbn [fst] in H1.
  destruct (prolong_n E K xc s) as [r t] eqn:Er. cbn [fst] in H1. subst r. exists t. split; [reflexivity|].
  rewrite prolong_flat in Er. pose proof (eo_N _ HE) as HN. destruct (c_N (e_c E)) as [|n] eqn:EN; [lia|].
  destruct (visits_last E n EN) as [l0 El]. rewrite El in Er. destruct (each_last _ _ _ _ _ Er) as [s1 Es].
  apply prolong_comp_holds in Es. destruct Es as [a [Ha [Hc Hf]]].
  destruct (assign_part (k_D K) _ (k_L K) xc 3 (nc_full (e_c E) 3 - 1) (ft_L _ _ HF) (ft_c _ _ HF) ltac:(lia) (last_comp E ltac:(lia))) as [A1 A2].
  rewrite A1 in Ha. injection Ha; intro; subst a. rewrite A2 in Hc, Hf. split; [exact Hc|].
  intros l Hl. rewrite Hf. apply of_array, Hl.
Qed.
Theorem C106_after_restriction : forall E K xf s, env_ok E -> fits E K ->
  exists t, restrict_n E K xf s = (Ok tt, t) /\
    n_fine t = part (d_dim (e_D E) Vp) (e_Lf E) xf 3 (nc_full (e_c E) 3 - 1) /\
    (forall l, (l < d_dim (k_D K) Vp)%nat ->
       n_coarse t l = k_down K (part (d_dim (e_D E) Vp) (e_Lf E) xf 3 (nc_full (e_c E) 3 - 1)) l).
Proof.
  intros E K xf s HE HF.
  destruct (trans_run E (e_D E) (k_D K) (e_Lf E) (k_L K) (k_down K) xf (eo_f _ HE) (ft_L _ _ HF) (ft_f _ _ HF) (ft_c _ _ HF) (n_out s)) as [v [E1 _]].
  destruct (C106_restriction E K xf s) as [H1 _]. unfold restrict in H1. rewrite E1 in H1. cbn [fst] in H1.
  destruct (restrict_n E K xf s) as [r t] eqn:Er. cbn [fst] in H1. subst r. exists t. split; [reflexivity|].
  rewrite restrict_flat in Er. pose proof (eo_N _ HE) as HN. destruct (c_N (e_c E)) as [|n] eqn:EN; [lia|].
  destruct (visits_last E n EN) as [l0 El]. rewrite El in Er. destruct (each_last _ _ _ _ _ Er) as [s1 Es].
  apply restrict_comp_holds in Es. destruct Es as [a [Ha [Hc Hf]]].
  destruct (assign_part (e_D E) _ (e_Lf E) xf 3 (nc_full (e_c E) 3 - 1) (eo_f _ HE) (ft_f _ _ HF) ltac:(lia) (last_comp E ltac:(lia))) as [A1 A2].
  rewrite A1 in Ha. injection Ha; intro; subst a. rewrite A2 in Hc, Hf. split; [exact Hc|].
  intros l Hl. rewrite Hf. apply of_array, Hl.
Qed.

(** * When it fails *)
Lemma each_err {S A} (f : A -> M S unit) l : forall s e t, for_each l f s = (Err e, t) ->
  exists l1 a l2 s1, l = l1 ++ a :: l2 /\ for_each l1 f s = (Ok tt, s1) /\ f a s1 = (Err e, t).
Proof.
  induction l as [|a l IH]; intros s e t H; [discriminate|]. cbn [for_each] in H. unfold bind in H.
  destruct (f a s) as [[[]|e'] s1] eqn:Ef.
  - destruct (IH s1 e t H) as [l1 [b [l2 [s2 [-> [H1 H2]]]]]]. exists (a :: l1), b, l2, s2.
    split; [reflexivity|]. split; [|exact H2]. cbn [for_each]. unfold bind. rewrite Ef. exact H1.
  - injection H; intros; subst. exists [], a, l, s. auto.
Qed.
Lemma assign_err n vals e : np_assign n vals = Err e -> e = ValueError /\ List.length vals <> n /\ List.length vals <> 1%nat.
Proof.
  unfold np_assign. destruct (Nat.eqb_spec (List.length vals) n); [discriminate|].
  destruct (Nat.eqb_spec (List.length vals) 1); [discriminate|]. intro H. injection H. auto.
Qed.
(** A failure is a ValueError at the first component that does not fit.  All components before it are
    done; the output vector is not touched any more.  If the input component does not fit, the node
    functions keep what the component before left; otherwise they hold this component and its
    interpolation.  Nothing is assumed about the spaces or dof maps. *)
Theorem C106_failed_prolongation : forall E K xc s e t, prolong_n E K xc s = (Err e, t) ->
  e = ValueError /\ exists l1 j i l2 s1, visits E = l1 ++ (j, i) :: l2 /\
    for_each l1 (prolong_comp E K xc) s = (Ok tt, s1) /\ n_out t = n_out s1 /\
    ((List.length (lay_sub (k_L K) j i) <> d_dim (k_D K) Vp /\ t = s1) \/
     (List.length (lay_sub (e_Lf E) j i) <> d_dim (e_D E) Vp /\
      exists a, np_assign (d_dim (k_D K) Vp) (gather xc (lay_sub (k_L K) j i)) = Ok a /\ n_coarse t = of_list a /\
        n_fine t = of_list (array (k_up K (of_list a)) (d_dim (e_D E) Vp)))).
Proof.
  intros E K xc s e t H. rewrite prolong_flat in H. destruct (each_err _ _ _ _ _ H) as [l1 [[j i] [l2 [s1 [El [H1 H2]]]]]].
  unfold prolong_comp, bind, lift, modify, get, ret in H2.
  destruct (np_assign (d_dim (k_D K) Vp) (gather xc (lay_sub (k_L K) j i))) as [a|e'] eqn:Ea.
  - cbn [n_fine n_coarse w_fine w_coarse n_out] in H2. destruct (np_assign _ (array _ _)) as [b|e'] eqn:Eb; [discriminate|].
    injection H2; intros <- <-. destruct (assign_err _ _ _ Eb) as [-> [N1 N2]]. split; [reflexivity|].
    exists l1, j, i, l2, s1. split; [exact El|]. split; [exact H1|]. split; [reflexivity|]. right.
    split; [|exists a; auto]. unfold array in N1. rewrite map_length, seq_length in N1. intro X. apply N1. symmetry. exact X.
  - injection H2; intros <- <-. destruct (assign_err _ _ _ Ea) as [-> [N1 N2]]. split; [reflexivity|].
    exists l1, j, i, l2, s1. split; [exact El|]. split; [exact H1|]. split; [reflexivity|]. left.
    split; [|reflexivity]. rewrite length_gather in N1. exact N1.
Qed.
Theorem C106_failed_restriction : forall E K xf s e t, restrict_n E K xf s = (Err e, t) ->
  e = ValueError /\ exists l1 j i l2 s1, visits E = l1 ++ (j, i) :: l2 /\
    for_each l1 (restrict_comp E K xf) s = (Ok tt, s1) /\ n_out t = n_out s1 /\
    ((List.length (lay_sub (e_Lf E) j i) <> d_dim (e_D E) Vp /\ t = s1) \/
     (List.length (lay_sub (k_L K) j i) <> d_dim (k_D K) Vp /\
      exists a, np_assign (d_dim (e_D E) Vp) (gather xf (lay_sub (e_Lf E) j i)) = Ok a /\ n_fine t = of_list a /\
        n_coarse t = of_list (array (k_down K (of_list a)) (d_dim (k_D K) Vp)))).
Proof.
  intros E K xf s e t H. rewrite restrict_flat in H. destruct (each_err _ _ _ _ _ H) as [l1 [[j i] [l2 [s1 [El [H1 H2]]]]]].
  unfold restrict_comp, bind, lift, modify, get, ret in H2.
  destruct (np_assign (d_dim (e_D E) Vp) (gather xf (lay_sub (e_Lf E) j i))) as [a|e'] eqn:Ea.
  - cbn [n_fine n_coarse w_fine w_coarse n_out] in H2. destruct (np_assign _ (array _ _)) as [b|e'] eqn:Eb; [discriminate|].
    injection H2; intros <- <-. destruct (assign_err _ _ _ Eb) as [-> [N1 N2]]. split; [reflexivity|].
    exists l1, j, i, l2, s1. split; [exact El|]. split; [exact H1|]. split; [reflexivity|]. right.
    split; [|exists a; auto]. unfold array in N1. rewrite map_length, seq_length in N1. intro X. apply N1. symmetry. exact X.
  - injection H2; intros <- <-. destruct (assign_err _ _ _ Ea) as [-> [N1 N2]]. split; [reflexivity|].
    exists l1, j, i, l2, s1. split; [exact El|]. split; [exact H1|]. split; [reflexivity|]. left.
    split; [|reflexivity]. rewrite length_gather in N1. exact N1.
Qed.

(** * A history of calls *)
(** prolongation ([true]) or restriction ([false]) of vector number a into vector number b, on the
    heap of vectors and the two node functions kept between the calls *)
Definition call : Type := bool * nat * nat.
Definition heap_set (h : nat -> vec) (i : nat) (v : vec) : nat -> vec := fun k => if Nat.eqb k i then v else h k.
Definition call_n E K (op : call) (st : (nat -> vec) * (vec * vec)) : res unit * ((nat -> vec) * (vec * vec)) :=
  let '(up, a, b) := op in let '(h, (uf, uc)) := st in
  let '(r, t) := (if up then prolong_n E K (h a) else restrict_n E K (h a)) (mkNodes (h b) uf uc) in
  (r, (heap_set h b (n_out t), (n_fine t, n_coarse t))).
Definition call_0 E K (op : call) (h : nat -> vec) : res unit * (nat -> vec) :=
  let '(up, a, b) := op in
  let '(r, v) := (if up then prolong E K (h a) else restrict E K (h a)) (h b) in (r, heap_set h b v).
(** the answers of all calls (a failed call does not end the history) and the state in the end *)
Fixpoint run_calls {S} (f : call -> S -> res unit * S) (ops : list call) (s : S) : list (res unit) * S :=
  match ops with
  | [] => ([], s)
  | op :: ops' => let '(r, s1) := f op s in let '(rs, s2) := run_calls f ops' s1 in (r :: rs, s2)
  end.
(** Any sequence of prolongations and restrictions sharing the two node functions gives the answers
    and vectors of the model without them. *)
Theorem C106_history : forall E K ops h uf uc,
  fst (run_calls (call_n E K) ops (h, (uf, uc))) = fst (run_calls (call_0 E K) ops h) /\
  fst (snd (run_calls (call_n E K) ops (h, (uf, uc)))) = snd (run_calls (call_0 E K) ops h).
Proof.
  intros E K ops. induction ops as [|[[up a] b] ops IH]; intros h uf uc; [split; reflexivity|].
  cbn [run_calls].
  assert (X : fst (call_n E K (up, a, b) (h, (uf, uc))) = fst (call_0 E K (up, a, b) h) /\
    fst (snd (call_n E K (up, a, b) (h, (uf, uc)))) = snd (call_0 E K (up, a, b) h)).
  { unfold call_n, call_0. pose proof (C106_prolongation E K (h a) (mkNodes (h b) uf uc)) as P. pose proof (C106_restriction E K (h a) (mkNodes (h b) uf uc)) as R.
    cbn [n_out] in P, R. destruct up.
    - destruct (prolong_n _ _ _ _) as [r t], (prolong _ _ _ _) as [r0 v]. cbn [fst snd] in *. destruct P as [-> <-]. split; reflexivity.
    - destruct (restrict_n _ _ _ _) as [r t], (restrict _ _ _ _) as [r0 v]. cbn [fst snd] in *. destruct R as [-> <-]. split; reflexivity. }
  destruct (call_n E K (up, a, b) (h, (uf, uc))) as [r [h1 [uf1 uc1]]], (call_0 E K (up, a, b) h) as [r0 h0]. cbn [fst snd] in X. destruct X as [-> ->].
  destruct (IH h0 uf1 uc1) as [I1 I2].
  destruct (run_calls (call_n E K) ops (h0, (uf1, uc1))) as [rs s2], (run_calls (call_0 E K) ops h0) as [rs0 h2].
  cbn [fst snd] in *. subst. split; reflexivity.
Qed.

(** * Examples *)
(** spaces that fit, on any number of slabs: the node functions change from zero to something else *)
Theorem C106_nonvacuous : forall N, (1 <= N)%nat -> exists E K xc t, env_ok E /\ fits E K /\ c_N (e_c E) = N /\
  prolong_n E K xc (fresh_nodes vzero) = (Ok tt, t) /\ n_coarse t 0%nat = 1 /\ n_fine t 0%nat = 2.
Proof.
  intros N HN. destruct (exP_ok 1 1 N false false) as [c HC]; try lia. pose proof (construct_inv _ _ HC) as HB.
  assert (HE : env_ok (exE exI c)) by apply exE_ok, (bu_N _ _ HB).
  assert (HF : fits (exE exI c) (exK c)) by (constructor; [apply std_layout_ok|reflexivity|reflexivity]).
  destruct (C106_after_prolongation (exE exI c) (exK c) (fun _ => 1) (fresh_nodes vzero) HE HF) as [t [H1 [H2 H3]]].
  exists (exE exI c), (exK c), (fun _ => 1), t. split; [exact HE|]. split; [exact HF|]. split; [exact (bu_NP _ _ HB)|]. split; [exact H1|].
  specialize (H3 0%nat ltac:(cbn; lia)). rewrite H2, H3. cbn [exK k_up]. unfold part, field_of. cbn [Nat.ltb Nat.leb d_dim k_D exK exI].
  split; lra.
Qed.
(** spaces that do not fit: prolongation fails at the first component of z1 *)
Theorem C106_failed_nonvacuous : exists E K, env_ok E /\ forall xc s, exists t, prolong_n E K xc s = (Err ValueError, t).
Proof.
  destruct (exP_ok 1 1 2 false false) as [c HC]; try lia. pose proof (construct_inv _ _ HC) as HB.
  assert (HE : env_ok (exE exI2 c)) by apply exE_ok, (bu_N _ _ HB).
  exists (exE exI2 c), (exK2 c). split; [exact HE|]. intros xc s.
  destruct (misfit (exE exI2 c) exI2 exI2 (k_L (exK2 c)) (e_Lf (exE exI2 c)) (fun u => u) xc (std_layout_ok _ _ _) (eo_f _ HE) (n_out s) (eo_N _ HE)) as [v Hv].
  { left. cbn. lia. }
  destruct (C106_prolongation (exE exI2 c) (exK2 c) xc s) as [H1 _]. unfold prolong in H1.
  cbn [k_D k_L k_up exK2] in H1, Hv. change (e_D (exE exI2 c)) with exI2 in H1. rewrite Hv in H1. cbn [fst] in H1.
  destruct (prolong_n _ _ xc s) as [r t]. cbn [fst] in H1. subst r. eauto.
Qed.
Print Assumptions C106_prolongation.
Print Assumptions C106_restriction.
Print Assumptions C106_after_prolongation.
Print Assumptions C106_after_restriction.
Print Assumptions C106_failed_prolongation.
Print Assumptions C106_failed_restriction.
Print Assumptions C106_history.
