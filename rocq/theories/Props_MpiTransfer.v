(** Props_MpiTransfer.v -- C107: the grid transfers on several MPI processes. *)
From Coq Require Import Reals List ZArith Lra Lia Bool Permutation.
From Coq Require Import Relation_Operators.
From Verif Require Import Base TimeModel FormModel FormSpec FormProofs SpaceTimeForms FormBlocks FormTime FormExample
  SpaceTimeModel SlabOps ApplyProofs ErrorsModel OpsProofs OpsExample Transfer Props_Transfer ScratchNodes Props_Scratch MpiModel Props_Mpi MpiTransfer.
Import ListNotations.
Open Scope R_scope.
Open Scope monad_scope.

(** primal and dual functions have the same nodes, on every rank *)
Record same_nodes (D : disc) (S : split) : Prop := {
  sn_dim : d_dim D Vd = d_dim D Vp;
  sn_owner : forall l, sp_owner S Vd l = sp_owner S Vp l;
  sn_ghost : forall r, sp_ghost S r Vd = sp_ghost S r Vp }.
Lemma sn_owned D S r s : same_nodes D S -> owned D S r s = owned D S r Vp.
Proof.
  intro H. destruct s; [reflexivity|]. unfold owned. rewrite (sn_dim _ _ H). apply filter_ext. intro l. rewrite (sn_owner _ _ H). reflexivity.
Qed.
Lemma sn_ghosts D S r s : same_nodes D S -> sp_ghost S r s = sp_ghost S r Vp.
Proof. intro H. destruct s; [reflexivity|]. apply (sn_ghost _ _ H). Qed.
Lemma sn_on D S r : same_nodes D S -> ghosts_on S r <-> sp_ghost S r Vp <> [].
Proof. intro H. split; [intros [s Hs]; rewrite <- (sn_ghosts D S r s H); exact Hs|intro Hs; exists Vp; exact Hs]. Qed.

Lemma trans_flat E body : forall m a s, trans_loop E body (seq a m) (cntn (e_c E) a) s = for_each (flat_map (slab_comps E) (seq a m)) body s.
Proof.
  induction m as [|m IH]; intros a s; [reflexivity|].
  cbn [seq trans_loop flat_map]. rewrite (trans_pairs_n E), each_app, cnt_next_n. unfold bind.
  destruct (for_each (slab_comps E a) body s) as [[[]|e] s1]; [apply IH|reflexivity].
Qed.
Lemma rank_flat E body : forall m a s, rank_loop E body (seq a m) (cntn (e_c E) a) s = for_each (flat_map (slab_comps E) (seq a m)) body s.
Proof.
  induction m as [|m IH]; intros a s; [reflexivity|].
  cbn [seq rank_loop flat_map]. rewrite (trans_pairs_n E), each_app, cnt_next_n. unfold bind.
  destruct (for_each (slab_comps E a) body s) as [[[]|e] s1]; [apply IH|reflexivity].
Qed.
Lemma in_visits E j i : In (j, i) (visits E) -> (j < 4)%nat /\ (i < nc_full (e_c E) j)%nat.
Proof.
  unfold visits. rewrite in_flat_map. intros [n [Hn H]]. apply in_seq in Hn. apply in_slab_comps in H. unfold nc_full. split; [tauto|]. nia.
Qed.
Lemma visits_first E : (1 <= c_N (e_c E))%nat -> exists l, visits E = (0, 0)%nat :: l.
Proof.
  intro H. unfold visits. destruct (c_N (e_c E)) as [|n]; [lia|]. cbn [seq flat_map]. unfold slab_comps at 1. cbn [seq flat_map].
  replace (seq 0 (ntime (e_c E) 0)) with (0%nat :: seq 1 (sto (e_c E) 0)) by reflexivity. cbn [map app Nat.mul Nat.add]. eauto.
Qed.

Section Transfer.
  Variables (E : env) (D1 D2 : disc) (S1 S2 : split) (L1 L2 : layout) (n1 n2 : numbering) (interp : vec -> vec) (r : nat).
  Notation c := (e_c E).
  Hypothesis HN : (1 <= c_N c)%nat.
  Hypothesis H1 : lay_ok D1 4 (nc_full c) L1.
  Hypothesis H2 : lay_ok D2 4 (nc_full c) L2.
  Hypothesis HS1 : split_ok D1 S1.
  Hypothesis HS2 : split_ok D2 S2.
  Hypothesis M1 : same_nodes D1 S1.
  Hypothesis M2 : same_nodes D2 S2.
  Hypothesis N1 : numbers D1 S1 4 (nc_full c) L1 n1.
  Hypothesis N2 : numbers D2 S2 4 (nc_full c) L2 n2.
  Notation serial := (fun src '(j, i) => trans_comp interp (d_dim D1 Vp) (d_dim D2 Vp) src (lay_sub L1 j i) (lay_sub L2 j i)).
  (** what interpolation leaves in the target function on rank r: the values at its nodes *)
  Definition nodal (src : vec) (ji : nat * nat) : list R :=
    map (interp (comp_of L1 src (fst ji) (snd ji))) (owned D2 S2 r Vp ++ sp_ghost S2 r Vp).

  Lemma serial_comp src j i w : (j < 4)%nat -> (i < nc_full c j)%nat ->
    serial src (j, i) w = (Ok tt, scatter w (lay_sub L2 j i) (map (interp (comp_of L1 src j i)) (seq 0 (d_dim D2 Vp)))).
  Proof.
    intros Hj Hi.
    assert (A1 : List.length (lay_sub L1 j i) = d_dim D1 Vp).
    { rewrite (wl_len _ _ _ _ H1) by assumption. unfold spc. destruct (Nat.ltb j 2); [reflexivity|apply (sn_dim _ _ M1)]. }
    assert (A2 : List.length (lay_sub L2 j i) = d_dim D2 Vp).
    { rewrite (wl_len _ _ _ _ H2) by assumption. unfold spc. destruct (Nat.ltb j 2); [reflexivity|apply (sn_dim _ _ M2)]. }
    unfold trans_comp, np_assign. rewrite length_gather, A1, Nat.eqb_refl. unfold bind at 1. cbn [lift].
    rewrite map_length, seq_length, A2, Nat.eqb_refl. reflexivity.
  Qed.

  Lemma read src j i : (j < 4)%nat -> (i < nc_full c j)%nat -> sp_ghost S1 r Vp = [] ->
    exists v, take (vec_array n1 r src) (local_map D1 S1 L1 n1 r j i) = Ok v /\ np_assign (node_size r D1 S1) v = Ok v.
  Proof.
    intros Hj Hi HG. eexists. rewrite (take_rank D1 S1 4 (nc_full c) L1 n1 r HS1 H1 N1 src j i Hj Hi).
    rewrite (sn_ghosts D1 S1 r (spc j) M1), HG. split; [reflexivity|]. unfold np_assign, node_size. rewrite HG, map_length, (sn_owned D1 S1 r (spc j) M1).
    cbn [List.length]. rewrite Nat.add_0_r, Nat.eqb_refl. reflexivity.
  Qed.
  Lemma write w j i vals : (j < 4)%nat -> (i < nc_full c j)%nat -> sp_ghost S2 r Vp = [] ->
    store_from (vec_array n2 r w) (local_map D2 S2 L2 n2 r j i) (map vals (owned D2 S2 r Vp))
    = Ok (vec_array n2 r (scatter w (lay_sub L2 j i) (map vals (seq 0 (d_dim D2 Vp))))).
  Proof.
    intros Hj Hi HG.
    assert (A2 : List.length (lay_sub L2 j i) = d_dim D2 Vp).
    { rewrite (wl_len _ _ _ _ H2) by assumption. unfold spc. destruct (Nat.ltb j 2); [reflexivity|apply (sn_dim _ _ M2)]. }
    assert (Hdim : d_dim D2 (spc j) = d_dim D2 Vp) by (unfold spc; destruct (Nat.ltb j 2); [reflexivity|apply (sn_dim _ _ M2)]).
    set (u := scatter w (lay_sub L2 j i) (map vals (seq 0 (d_dim D2 Vp)))).
    assert (Hu : forall l, (l < d_dim D2 Vp)%nat -> u (dof L2 j i l) = vals l).
    { intros l Hl. pose proof (set1_hit D2 4 (nc_full c) L2 H2 false w j i (map vals (seq 0 (d_dim D2 Vp))) l Hj Hi) as A. cbn [setter] in A.
      unfold field_of in A. fold u in A. rewrite A.
      - rewrite (nth_indep _ 0 (vals 0%nat)) by (rewrite map_length, seq_length; exact Hl). rewrite map_nth, seq_nth by exact Hl. cbn [Nat.add]. ring.
      - rewrite Hdim. exact Hl.
      - rewrite map_length, seq_length. symmetry. exact Hdim. }
    assert (EG : sp_ghost S2 r (spc j) = []) by (rewrite (sn_ghosts D2 S2 r (spc j) M2); exact HG).
    assert (EV : map vals (owned D2 S2 r Vp) = map (fun l => u (dof L2 j i l)) (owned D2 S2 r (spc j))).
    { rewrite (sn_owned D2 S2 r (spc j) M2). apply map_ext_in. intros l Hl. apply in_owned in Hl as [Hl _]. symmetry. apply Hu, Hl. }
    pose proof (store_rank D2 S2 4 4 (nc_full c) (nc_full c) L2 L2 n2 r HS2 H2 H2 N2 false w u j i j i Hj Hi Hj Hi eq_refl EG) as A.
    rewrite <- EV in A. unfold store in A. unfold store_from.
    destruct (take (vec_array n2 r w) (local_map D2 S2 L2 n2 r j i)) as [old|e]; [|discriminate A]. cbn [rbind] in *.
    unfold np_assign. destruct (Nat.eqb (List.length (map vals (owned D2 S2 r Vp))) (List.length (local_map D2 S2 L2 n2 r j i))) eqn:EL; [|discriminate A].
    cbn [negb rbind] in *. injection A as A. rewrite A. f_equal. unfold vec_array. apply map_ext_in. intros I HI.
    cbn [setter]. destruct (own_dof D2 S2 4 (nc_full c) L2 n2 r N2 I HI) as [j' [i' [l' [Hj' [Hi' [Hl' [Ho ->]]]]]]].
    destruct (pair_eqb_spec (j', i') (j, i)) as [X|X].
    - injection X; intros; subst j' i'. rewrite (Hu l') by (rewrite <- Hdim; exact Hl').
      pose proof (set1_hit D2 4 (nc_full c) L2 H2 false w j i (gather u (lay_sub L2 j i)) l' Hj Hi Hl') as B. cbn [setter] in B. unfold field_of in B. rewrite B.
      + rewrite nth_gather by (rewrite A2, <- Hdim; exact Hl'). fold (dof L2 j i l'). rewrite Hu by (rewrite <- Hdim; exact Hl'). ring.
      + rewrite length_gather, A2. symmetry. exact Hdim.
    - pose proof (set1_miss D2 4 (nc_full c) L2 H2 false w j i j' i' (gather u (lay_sub L2 j i)) l' Hj Hi Hj' Hi' Hl' X) as B.
      pose proof (set1_miss D2 4 (nc_full c) L2 H2 false w j i j' i' (map vals (seq 0 (d_dim D2 Vp))) l' Hj Hi Hj' Hi' Hl' X) as C.
      cbn [setter] in B, C. unfold field_of in B, C. rewrite B. unfold u. rewrite C. reflexivity.
  Qed.

  Lemma share_each src : sp_ghost S1 r Vp = [] -> sp_ghost S2 r Vp = [] -> forall l w, (forall j i, In (j, i) l -> (j < 4)%nat /\ (i < nc_full c j)%nat) ->
    exists w', for_each l (serial src) w = (Ok tt, w') /\
      for_each l (comp_rank D1 D2 S1 S2 L1 L2 n1 n2 r (nodal src) (vec_array n1 r src)) (vec_array n2 r w) = (Ok tt, vec_array n2 r w').
  Proof.
    intros G1 G2 l. induction l as [|[j i] l IH]; intros w Hl; [exists w; split; reflexivity|].
    destruct (Hl j i (or_introl eq_refl)) as [Hj Hi].
    destruct (IH (scatter w (lay_sub L2 j i) (map (interp (comp_of L1 src j i)) (seq 0 (d_dim D2 Vp))))) as [w' [E1 E2]];
      [intros j' i' H; apply Hl; right; exact H|].
    exists w'. cbn [for_each]. split.
    - unfold bind. rewrite serial_comp by assumption. exact E1.
    - destruct (read src j i Hj Hi G1) as [v [Ev Ea]]. unfold bind at 1. unfold comp_rank at 1. unfold bind at 1. rewrite Ev. cbn [lift].
      unfold bind at 1. rewrite Ea. cbn [lift]. unfold bind at 1. cbn [get].
      unfold nodal at 1. cbn [fst snd]. rewrite G2, app_nil_r. unfold bind at 1. rewrite (write w j i) by assumption. cbn [lift]. unfold modify at 1. exact E2.
  Qed.
  (** the rank stops at the first component, its array unchanged, whatever interpolation gives *)
  Lemma stop got src w : ghosts_on S1 r \/ ghosts_on S2 r ->
    transfer_rank E D1 D2 S1 S2 L1 L2 n1 n2 r got (vec_array n1 r src) (vec_array n2 r w) = (Err IndexError, vec_array n2 r w).
  Proof.
    intro HG. unfold transfer_rank. rewrite (cnt0_n c), rank_flat. fold (visits E). destruct (visits_first E HN) as [l ->].
    assert (Hi : (0 < nc_full c 0)%nat) by (unfold nc_full, ntime; nia). assert (Hj : (0 < 4)%nat) by lia.
    cbn [for_each]. unfold bind at 1. unfold comp_rank at 1. unfold bind at 1.
    destruct (sp_ghost S1 r Vp) as [|g gs] eqn:G1.
    - destruct (read src 0 0 Hj Hi G1) as [v [Ev Ea]]. rewrite Ev. cbn [lift]. unfold bind at 1. rewrite Ea. cbn [lift]. unfold bind at 1. cbn [get]. unfold bind at 1.
      unfold store_from. rewrite (take_rank D2 S2 4 (nc_full c) L2 n2 r HS2 H2 N2 w 0 0 Hj Hi).
      destruct HG as [HG|HG]; [apply (sn_on D1 S1 r M1) in HG; contradiction|]. apply (sn_on D2 S2 r M2) in HG.
      change (spc 0) with Vp. destruct (sp_ghost S2 r Vp); [contradiction|]. reflexivity.
    - rewrite (take_rank D1 S1 4 (nc_full c) L1 n1 r HS1 H1 N1 src 0 0 Hj Hi). change (spc 0) with Vp. rewrite G1. reflexivity.
  Qed.
  Lemma share src w : ~ ghosts_on S1 r -> ~ ghosts_on S2 r ->
    exists w', trans_loop E (serial src) (seq 0 (c_N c)) cnt0 w = (Ok tt, w') /\
      transfer_rank E D1 D2 S1 S2 L1 L2 n1 n2 r (nodal src) (vec_array n1 r src) (vec_array n2 r w) = (Ok tt, vec_array n2 r w').
  Proof.
    intros G1 G2. unfold transfer_rank. rewrite (cnt0_n c), rank_flat, trans_flat. apply share_each; try (apply no_ghosts; assumption).
    intros j i H. exact (in_visits E j i H).
  Qed.
End Transfer.

(** * C107 *)
(** a coarse and a fine mesh, each distributed in its own way *)
Record spread (E : env) (K : coarse) (Sc Sf : split) (nc nf : numbering) : Prop := {
  sd_env : env_ok E; sd_fits : fits E K;
  sd_c : split_ok (k_D K) Sc; sd_f : split_ok (e_D E) Sf;
  sd_sc : same_nodes (k_D K) Sc; sd_sf : same_nodes (e_D E) Sf;
  sd_nc : numbers (k_D K) Sc 4 (nc_full (e_c E)) (k_L K) nc;
  sd_nf : numbers (e_D E) Sf 4 (nc_full (e_c E)) (e_Lf E) nf }.
(** A rank with a ghost node in either mesh raises IndexError in both operations, at the first
    component and before anything is written, whatever interpolation gives. *)
Theorem C107_stops : forall E K Sc Sf nc nf r, spread E K Sc Sf nc nf -> ghosts_on Sc r \/ ghosts_on Sf r -> forall got xc xf,
  prolong_rank E K Sc Sf nc nf r got (vec_array nc r xc) (vec_array nf r xf) = (Err IndexError, vec_array nf r xf) /\
  restrict_rank E K Sc Sf nc nf r got (vec_array nf r xf) (vec_array nc r xc) = (Err IndexError, vec_array nc r xc).
Proof.
  intros E K Sc Sf nc nf r H HG got xc xf. destruct H as [HE HF Hc Hf Sc' Sf' Nc Nf]. split.
  - unfold prolong_rank. apply stop; try assumption; [apply (eo_N _ HE)|apply (ft_L _ _ HF)|apply (eo_f _ HE)].
  - unfold restrict_rank. apply stop; try assumption; [apply (eo_N _ HE)|apply (eo_f _ HE)|apply (ft_L _ _ HF)|tauto].
Qed.
(** A rank without ghosts in both meshes gets its share of the serial result, if interpolation sets
    the values of the serial interpolation at its nodes. *)
Theorem C107_share : forall E K Sc Sf nc nf r, spread E K Sc Sf nc nf -> ~ ghosts_on Sc r -> ~ ghosts_on Sf r -> forall xc xf,
  (exists w, prolong E K xc xf = (Ok tt, w) /\
     prolong_rank E K Sc Sf nc nf r (nodal (e_D E) Sf (k_L K) (k_up K) r xc) (vec_array nc r xc) (vec_array nf r xf) = (Ok tt, vec_array nf r w)) /\
  (exists w, restrict E K xf xc = (Ok tt, w) /\
     restrict_rank E K Sc Sf nc nf r (nodal (k_D K) Sc (e_Lf E) (k_down K) r xf) (vec_array nf r xf) (vec_array nc r xc) = (Ok tt, vec_array nc r w)).
Proof.
  intros E K Sc Sf nc nf r H G1 G2 xc xf. destruct H as [HE HF Hc Hf Sc' Sf' Nc Nf]. split.
  - unfold prolong, prolong_rank. apply share; try assumption; [apply (ft_L _ _ HF)|apply (eo_f _ HE)].
  - unfold restrict, restrict_rank. apply share; try assumption; [apply (eo_f _ HE)|apply (ft_L _ _ HF)].
Qed.
(** On one process both are the serial operations. *)
Theorem C107_one : forall E K Sc Sf nc nf, spread E K Sc Sf nc nf -> sp_n Sc = 1%nat -> sp_n Sf = 1%nat -> forall xc xf,
  (exists w, prolong E K xc xf = (Ok tt, w) /\
     prolong_rank E K Sc Sf nc nf 0 (nodal (e_D E) Sf (k_L K) (k_up K) 0 xc) (vec_array nc 0 xc) (vec_array nf 0 xf) = (Ok tt, vec_array nf 0 w)) /\
  (exists w, restrict E K xf xc = (Ok tt, w) /\
     restrict_rank E K Sc Sf nc nf 0 (nodal (k_D K) Sc (e_Lf E) (k_down K) 0 xf) (vec_array nf 0 xf) (vec_array nc 0 xc) = (Ok tt, vec_array nc 0 w)).
Proof.
  intros E K Sc Sf nc nf H Hn Hm. apply C107_share; [exact H| |].
  - apply (alone_no_ghosts (k_D K)); [apply (sd_c _ _ _ _ _ _ H)|exact Hn|lia].
  - apply (alone_no_ghosts (e_D E)); [apply (sd_f _ _ _ _ _ _ H)|exact Hm|lia].
Qed.
(** On a connected mesh, as soon as two processes have cells of it, some process fails in both. *)
Theorem C107_refuted : forall E K Sc Sf nc nf, spread E K Sc Sf nc nf ->
  (connected (k_D K) /\ (exists p p', In p (d_pts (k_D K) Dx) /\ In p' (d_pts (k_D K) Dx) /\ sp_cell Sc Dx p <> sp_cell Sc Dx p')) \/
  (connected (e_D E) /\ (exists p p', In p (d_pts (e_D E) Dx) /\ In p' (d_pts (e_D E) Dx) /\ sp_cell Sf Dx p <> sp_cell Sf Dx p')) ->
  exists r, forall got xc xf,
    fst (prolong_rank E K Sc Sf nc nf r got (vec_array nc r xc) (vec_array nf r xf)) = Err IndexError /\
    fst (restrict_rank E K Sc Sf nc nf r got (vec_array nf r xf) (vec_array nc r xc)) = Err IndexError.
Proof.
  intros E K Sc Sf nc nf H [[HC [p [p' [Hp [Hp' Hne]]]]]|[HC [p [p' [Hp [Hp' Hne]]]]]].
  - destruct (chain_ghosts (k_D K) Sc p p' (sd_c _ _ _ _ _ _ H) (HC p p' Hp Hp') Hne) as [r [_ HG]]. exists r. intros got xc xf.
    destruct (C107_stops E K Sc Sf nc nf r H (or_introl HG) got xc xf) as [-> ->]. split; reflexivity.
  - destruct (chain_ghosts (e_D E) Sf p p' (sd_f _ _ _ _ _ _ H) (HC p p' Hp Hp') Hne) as [r [_ HG]]. exists r. intros got xc xf.
    destruct (C107_stops E K Sc Sf nc nf r H (or_intror HG) got xc xf) as [-> ->]. split; reflexivity.
Qed.
(** two processes sharing a node of the interval: connected, and all hypotheses hold; and the same
    mesh with all cells on the first of two processes, where nothing fails *)
Definition exAll : split := mkSplit 2 (fun _ _ => 0%nat) (fun _ _ => 0%nat) (fun _ _ => []).
Lemma exAll_ok : split_ok exI exAll.
Proof.
  constructor; cbn [exAll sp_n sp_cell sp_owner sp_ghost].
  - intros. lia.
  - intros. lia.
  - intros r s l [].
  - intros. constructor.
  - intros. left. reflexivity.
Qed.
Theorem C107_nonvacuous : exists E K nc nf mc mf, spread E K exSplit exSplit nc nf /\ connected (k_D K) /\ connected (e_D E) /\
  (exists p p', In p (d_pts (k_D K) Dx) /\ In p' (d_pts (k_D K) Dx) /\ sp_cell exSplit Dx p <> sp_cell exSplit Dx p') /\
  spread E K exAll exAll mc mf /\ ~ ghosts_on exAll 0 /\ ~ ghosts_on exAll 1.
Proof.
  destruct (exP_ok 1 1 2 false false) as [c HC]; try lia. pose proof (construct_inv _ _ HC) as HB.
  set (E := exE exI c).
  exists E, (exK c), (exNum exI exSplit 4 (nc_full c) (k_L (exK c))), (exNum exI exSplit 4 (nc_full c) (e_Lf E)),
    (exNum exI exAll 4 (nc_full c) (k_L (exK c))), (exNum exI exAll 4 (nc_full c) (e_Lf E)).
  assert (HE : env_ok E) by apply exE_ok, (bu_N _ _ HB).
  assert (HF : fits E (exK c)) by (constructor; [apply std_layout_ok|reflexivity|reflexivity]).
  assert (X : forall S, split_ok exI S -> same_nodes exI S ->
    spread E (exK c) S S (exNum exI S 4 (nc_full c) (k_L (exK c))) (exNum exI S 4 (nc_full c) (e_Lf E))).
  { intros S HS HM. constructor; try assumption; intro r; split; apply Permutation_refl. }
  split; [apply X; [apply exSplit_ok|constructor; reflexivity]|]. split; [exact exI_connected|]. split; [exact exI_connected|].
  split; [exists 0%nat, 3%nat; cbn; repeat split; auto; discriminate|].
  split; [apply X; [apply exAll_ok|constructor; reflexivity]|]. split; intros [s H]; apply H; reflexivity.
Qed.
Print Assumptions C107_stops.
Print Assumptions C107_share.
Print Assumptions C107_one.
Print Assumptions C107_refuted.
Print Assumptions C107_nonvacuous.
