(** Props_Transfer.v -- properties of the coarse grid correction: prolongation,
    restriction, q_op, pre_twolvl. *)
From Coq Require Import Reals List ZArith Lra Lia Bool String FunctionalExtensionality.
From Verif Require Import Base TimeModel FormModel FormSpec FormProofs SpaceTimeForms FormBlocks FormTime FormC12 FormWf FormExample Props_Forms SpaceTimeModel SlabOps ApplyProofs
  MarchProofs MarchLoops ErrorsModel Lifecycle LifeProofs OpsProofs SetupOk LinAlg OpsExample Props_Ops LifeFrames Props_Life Transfer.
Import ListNotations.
Open Scope R_scope.
Open Scope monad_scope.

(** the coefficients of the component (j, i) of the function with coefficient
    vector x, on a space with n functions *)
Definition part (n : nat) (L : layout) (x : vec) (j i : nat) : vec :=
  fun l => if Nat.ltb l n then field_of L x j i l else 0.
(** coarse and fine space fit together and both have one and the same spatial
    space for primal and dual functions *)
Record fits (E : env) (K : coarse) : Prop := {
  ft_L : lay_ok (k_D K) 4 (nc_full (e_c E)) (k_L K);
  ft_f : d_dim (e_D E) Vd = d_dim (e_D E) Vp;
  ft_c : d_dim (k_D K) Vd = d_dim (k_D K) Vp }.

Lemma part_comp D nc L x j i : lay_ok D 4 nc L -> d_dim D Vd = d_dim D Vp -> (j < 4)%nat -> (i < nc j)%nat ->
  comp_of L x j i = part (d_dim D Vp) L x j i.
Proof.
  intros HL HD Hj Hi. apply functional_extensionality. intro l. unfold comp_of, part, of_list.
  assert (Hn : List.length (lay_sub L j i) = d_dim D Vp).
  { rewrite (wl_len _ _ _ _ HL) by assumption. unfold spc. destruct (Nat.ltb j 2); auto. }
  destruct (Nat.ltb_spec l (d_dim D Vp)).
  - apply nth_gather. lia.
  - apply nth_overflow. rewrite length_gather. lia.
Qed.

(** * C40 *)
(** Prolongation returns, changes only the output vector, and each component
    of it becomes the interpolation of the same component of the input. *)
Theorem C40_prolongation : forall E K s xc xf, env_ok E -> fits E K -> s_crs s = Some K -> s_nod s = true ->
  exists v, step E (Prolong xc xf) s = (Ok Done, put xf v s) /\
    (forall j i l, (j < 4)%nat -> (i < nc_full (e_c E) j)%nat -> (l < d_dim (e_D E) (spc j))%nat ->
       field_of (e_Lf E) v j i l = k_up K (part (d_dim (k_D K) Vp) (k_L K) (s_heap s xc) j i) l) /\
    (forall I, (lay_dim (e_Lf E) <= I)%nat -> v I = s_heap s xf I).
Proof.
  intros E K s xc xf HE HF Hk Hn.
  destruct (trans_run E (k_D K) (e_D E) (k_L K) (e_Lf E) (k_up K) (s_heap s xc) (ft_L _ _ HF) (eo_f _ HE) (ft_c _ _ HF) (ft_f _ _ HF) (s_heap s xf))
    as [v [E1 [A1 A2]]].
  exists v. split; [|split; [|exact A2]].
  - cbn [step]. unfold done, answers. rewrite (bind_ok _ _ s tt (put xf v s)); [reflexivity|].
    unfold prolongation. rewrite (bind_ok _ _ s K s).
    + rewrite bind_get. unfold on_heap, prolong. rewrite E1. reflexivity.
    + unfold need_coarse. rewrite bind_get, Hk. rewrite (bind_need _ _ _ _ _ eq_refl). rewrite Hn. reflexivity.
  - intros j i l Hj Hi Hl. rewrite A1 by assumption. unfold moved.
    rewrite (part_comp (k_D K) (nc_full (e_c E))); auto; [apply (ft_L _ _ HF)|apply (ft_c _ _ HF)].
Qed.
Theorem C40_restriction : forall E K s xc xf, env_ok E -> fits E K -> s_crs s = Some K -> s_nod s = true ->
  exists v, step E (Restrict xc xf) s = (Ok Done, put xc v s) /\
    (forall j i l, (j < 4)%nat -> (i < nc_full (e_c E) j)%nat -> (l < d_dim (k_D K) (spc j))%nat ->
       field_of (k_L K) v j i l = k_down K (part (d_dim (e_D E) Vp) (e_Lf E) (s_heap s xf) j i) l) /\
    (forall I, (lay_dim (k_L K) <= I)%nat -> v I = s_heap s xc I).
Proof.
  intros E K s xc xf HE HF Hk Hn.
  destruct (trans_run E (e_D E) (k_D K) (e_Lf E) (k_L K) (k_down K) (s_heap s xf) (eo_f _ HE) (ft_L _ _ HF) (ft_f _ _ HF) (ft_c _ _ HF) (s_heap s xc))
    as [v [E1 [A1 A2]]].
  exists v. split; [|split; [|exact A2]].
  - cbn [step]. unfold done, answers. rewrite (bind_ok _ _ s tt (put xc v s)); [reflexivity|].
    unfold restriction. rewrite (bind_ok _ _ s K s).
    + rewrite bind_get. unfold on_heap, restrict. rewrite E1. reflexivity.
    + unfold need_coarse. rewrite bind_get, Hk. rewrite (bind_need _ _ _ _ _ eq_refl). rewrite Hn. reflexivity.
  - intros j i l Hj Hi Hl. rewrite A1 by assumption. unfold moved.
    rewrite (part_comp (e_D E) (nc_full (e_c E))); auto; [apply (eo_f _ HE)|apply (ft_f _ _ HF)].
Qed.

(** every entry of a vector belongs to a component *)
Lemma entry D nb nc L : lay_ok D nb nc L -> forall I, (I < lay_dim L)%nat ->
  exists j i l, (j < nb)%nat /\ (i < nc j)%nat /\ (l < d_dim D (spc j))%nat /\ I = dof L j i l.
Proof.
  intros HL I HI. apply (wl_range _ _ _ _ HL) in HI. unfold all_dofs in HI.
  apply in_flat_map in HI. destruct HI as [j [Hj HI]]. apply in_flat_map in HI. destruct HI as [i [Hi HI]].
  apply in_seq in Hj. apply in_seq in Hi. destruct (In_nth _ _ 0%nat HI) as [l [Hl El]].
  exists j, i, l. rewrite (wl_len _ _ _ _ HL) in Hl by lia. repeat split; try lia. symmetry. exact El.
Qed.

(** a linear map of coefficient vectors *)
Definition linear_map (f : vec -> vec) : Prop := forall a b u v w,
  (forall l, w l = a * u l + b * v l) -> forall l, f w l = a * f u l + b * f v l.
(** The output depends on the input vector only, and linearly if the spatial
    interpolation is linear. *)
Theorem C40_linear : forall E K s xc yc zc xf a b, env_ok E -> fits E K -> s_crs s = Some K -> s_nod s = true ->
  linear_map (k_up K) -> (forall I, (I < lay_dim (k_L K))%nat -> s_heap s zc I = a * s_heap s xc I + b * s_heap s yc I) ->
  let out i := s_heap (snd (step E (Prolong i xf) s)) xf in
  forall I, (I < lay_dim (e_Lf E))%nat -> out zc I = a * out xc I + b * out yc I.
Proof.
  intros E K s xc yc zc xf a b HE HF Hk Hn HL Hz out I HI.
  destruct (entry _ _ _ _ (eo_f _ HE) I HI) as [j [i [l [Hj [Hi [Hl EI]]]]]].
  assert (A : forall u, out u I = k_up K (part (d_dim (k_D K) Vp) (k_L K) (s_heap s u) j i) l).
  { intro u. destruct (C40_prolongation E K s u xf HE HF Hk Hn) as [v [E1 [A1 _]]]. unfold out. rewrite E1.
    rewrite EI. cbn [snd]. unfold put at 1. cbn [s_heap w_heap]. rewrite Nat.eqb_refl. apply A1; assumption. }
  rewrite !A. apply HL. intro l'. unfold part. destruct (Nat.ltb_spec l' (d_dim (k_D K) Vp)) as [Hl'|_]; [|ring].
  unfold field_of. apply Hz. eapply dof_lt; [apply (ft_L _ _ HF)|exact Hj|exact Hi|].
  unfold spc. destruct (Nat.ltb j 2); rewrite ?(ft_c _ _ HF); exact Hl'.
Qed.
Theorem C40_linear_restriction : forall E K s xf yf zf xc a b, env_ok E -> fits E K -> s_crs s = Some K -> s_nod s = true ->
  linear_map (k_down K) -> (forall I, (I < lay_dim (e_Lf E))%nat -> s_heap s zf I = a * s_heap s xf I + b * s_heap s yf I) ->
  let out i := s_heap (snd (step E (Restrict xc i) s)) xc in
  forall I, (I < lay_dim (k_L K))%nat -> out zf I = a * out xf I + b * out yf I.
Proof.
  intros E K s xf yf zf xc a b HE HF Hk Hn HL Hz out I HI.
  destruct (entry _ _ _ _ (ft_L _ _ HF) I HI) as [j [i [l [Hj [Hi [Hl EI]]]]]].
  assert (A : forall u, out u I = k_down K (part (d_dim (e_D E) Vp) (e_Lf E) (s_heap s u) j i) l).
  { intro u. destruct (C40_restriction E K s xc u HE HF Hk Hn) as [v [E1 [A1 _]]]. unfold out. rewrite E1.
    rewrite EI. cbn [snd]. unfold put at 1. cbn [s_heap w_heap]. rewrite Nat.eqb_refl. apply A1; assumption. }
  rewrite !A. apply HL. intro l'. unfold part. destruct (Nat.ltb_spec l' (d_dim (e_D E) Vp)) as [Hl'|_]; [|ring].
  unfold field_of. apply Hz. eapply dof_lt; [apply (eo_f _ HE)|exact Hj|exact Hi|].
  unfold spc. destruct (Nat.ltb j 2); rewrite ?(ft_f _ _ HF); exact Hl'.
Qed.
(** If restricting a prolonged spatial function gives it back, restricting a
    prolonged vector gives it back. *)
Theorem C40_restrict_prolong : forall E K s xc xf yc, env_ok E -> fits E K -> s_crs s = Some K -> s_nod s = true ->
  (forall u v, (forall l, (l < d_dim (e_D E) Vp)%nat -> u l = v l) ->
     forall l, (l < d_dim (k_D K) Vp)%nat -> k_down K u l = k_down K v l) ->
  (forall u l, (l < d_dim (k_D K) Vp)%nat -> k_down K (k_up K u) l = u l) ->
  let s' := after E [Prolong xc xf; Restrict yc xf] s in
  forall I, (I < lay_dim (k_L K))%nat -> s_heap s' yc I = s_heap s xc I.
Proof.
  intros E K s xc xf yc HE HF Hk Hn Hext Hinv s' I HI.
  destruct (C40_prolongation E K s xc xf HE HF Hk Hn) as [v [E1 [A1 _]]].
  destruct (C40_restriction E K (put xf v s) yc xf HE HF Hk Hn) as [w [E2 [A2 _]]].
  assert (X : s_heap s' yc = w).
  { unfold s', after. cbn [fold_left]. rewrite E1. cbn [snd]. rewrite E2. cbn [snd]. unfold put at 1. cbn [s_heap w_heap].
    rewrite Nat.eqb_refl. reflexivity. }
  rewrite X. destruct (entry _ _ _ _ (ft_L _ _ HF) I HI) as [j [i [l [Hj [Hi [Hl EI]]]]]].
  assert (Hl' : (l < d_dim (k_D K) Vp)%nat).
  { revert Hl. unfold spc. destruct (Nat.ltb j 2); rewrite ?(ft_c _ _ HF); auto. }
  rewrite EI. change (field_of (k_L K) w j i l = field_of (k_L K) (s_heap s xc) j i l). rewrite A2 by assumption.
  rewrite (Hext _ (k_up K (part (d_dim (k_D K) Vp) (k_L K) (s_heap s xc) j i))); [|  |exact Hl'].
  2: { intros l0 Hl0. unfold part at 1. destruct (Nat.ltb_spec l0 (d_dim (e_D E) Vp)); [|lia].
       unfold put; cbn [s_heap w_heap]. rewrite Nat.eqb_refl. apply A1; auto.
       unfold spc; destruct (Nat.ltb j 2); rewrite ?(ft_f _ _ HF); assumption. }
  rewrite Hinv by exact Hl'. unfold part. destruct (Nat.ltb_spec l (d_dim (k_D K) Vp)); [reflexivity|lia].
Qed.

(** * C41 *)
(** With different numbers of primal and dual functions both raise ValueError
    (unless a dual space has one function only, which numpy repeats). *)
Theorem C41_refuted : forall E K s xc xf, env_ok E -> lay_ok (k_D K) 4 (nc_full (e_c E)) (k_L K) ->
  s_crs s = Some K -> s_nod s = true -> d_dim (k_D K) Vd <> d_dim (k_D K) Vp -> d_dim (e_D E) Vd <> d_dim (e_D E) Vp ->
  (1 < d_dim (k_D K) Vd)%nat -> (1 < d_dim (e_D E) Vd)%nat ->
  returns E (Prolong xc xf) s = Err ValueError /\ returns E (Restrict xc xf) s = Err ValueError.
Proof.
  intros E K s xc xf HE HK Hk Hn N1 N2 G1 G2.
  assert (NC : need_coarse s = (Ok K, s)).
  { unfold need_coarse. rewrite bind_get, Hk. rewrite (bind_need _ _ _ _ _ eq_refl). rewrite Hn. reflexivity. }
  assert (M1 : d_dim (k_D K) Vd <> 1%nat) by lia. assert (M2 : d_dim (e_D E) Vd <> 1%nat) by lia.
  destruct (misfit E (k_D K) (e_D E) (k_L K) (e_Lf E) (k_up K) (s_heap s xc) HK (eo_f _ HE) (s_heap s xf) (eo_N _ HE) (or_introl (conj N1 M1))) as [v1 E1].
  destruct (misfit E (e_D E) (k_D K) (e_Lf E) (k_L K) (k_down K) (s_heap s xf) (eo_f _ HE) HK (s_heap s xc) (eo_N _ HE) (or_introl (conj N2 M2))) as [v2 E2].
  unfold returns. cbn [step]. unfold done, answers, prolongation, restriction.
  split; unfold bind at 1; rewrite (bind_ok _ _ _ _ _ NC), bind_get; unfold on_heap, prolong, restrict; [rewrite E1|rewrite E2]; reflexivity.
Qed.

(** * C42 *)
(** pre_twolvl never runs. *)
Theorem C42_refuted : forall E b x s, step E (Twolvl b x) s = (Err AttributeError, s).
Proof. reflexivity. Qed.
(** The coarse correction itself, q_op: restrict, solve, prolong. *)
Theorem C42_partial : forall E K s S0 t1 t2 xi xo, env_ok E -> fits E K -> s_crs s = Some K -> s_nod s = true ->
  s_sco s = Some S0 -> s_tc1 s = Some t1 -> s_tc2 s = Some t2 ->
  exists r,
    (forall j i l, (j < 4)%nat -> (i < nc_full (e_c E) j)%nat -> (l < d_dim (k_D K) (spc j))%nat ->
       field_of (k_L K) r j i l = k_down K (part (d_dim (e_D E) Vp) (e_Lf E) (s_heap s xi) j i) l) /\
    match S0 r t2 with
    | Ok u => returns E (Qop xi xo) s = Ok Done /\
        forall j i l, (j < 4)%nat -> (i < nc_full (e_c E) j)%nat -> (l < d_dim (e_D E) (spc j))%nat ->
        field_of (e_Lf E) (s_heap (snd (step E (Qop xi xo) s)) xo) j i l = k_up K (part (d_dim (k_D K) Vp) (k_L K) u j i) l
    | Err e => returns E (Qop xi xo) s = Err e /\ s_heap (snd (step E (Qop xi xo) s)) = s_heap s
    end.
Proof.
  intros E K s S0 t1 t2 xi xo HE HF Hk Hn Hs H1 H2.
  destruct (trans_run E (e_D E) (k_D K) (e_Lf E) (k_L K) (k_down K) (s_heap s xi) (eo_f _ HE) (ft_L _ _ HF) (ft_f _ _ HF) (ft_c _ _ HF) t1)
    as [r [E1 [A1 _]]].
  exists r. split.
  { intros j i l Hj Hi Hl. rewrite A1 by assumption. unfold moved.
    rewrite (part_comp (e_D E) (nc_full (e_c E))); auto; [apply (eo_f _ HE)|apply (ft_f _ _ HF)]. }
  assert (NC : need_coarse s = (Ok K, s)).
  { unfold need_coarse. rewrite bind_get, Hk. rewrite (bind_need _ _ _ _ _ eq_refl). rewrite Hn. reflexivity. }
  assert (Q : q_op E xi xo s = bind (lift (S0 r t2)) (fun u => modify (w_tc2 (Some u)) ;; on_heap xo (prolong E K u)) (w_tc1 (Some r) s)).
  { unfold q_op. rewrite (bind_ok _ _ _ _ _ NC), bind_get, H1. rewrite (bind_need _ _ _ _ _ eq_refl).
    unfold restrict. rewrite E1. rewrite bind_modify. rewrite (bind_lift_ok _ _ tt) by reflexivity. rewrite bind_get.
    change (s_sco (w_tc1 (Some r) s)) with (s_sco s). change (s_tc2 (w_tc1 (Some r) s)) with (s_tc2 s). rewrite Hs, H2.
    rewrite !(bind_need _ _ _ _ _ eq_refl). reflexivity. }
  unfold returns. destruct (S0 r t2) as [u|e].
  - destruct (trans_run E (k_D K) (e_D E) (k_L K) (e_Lf E) (k_up K) u (ft_L _ _ HF) (eo_f _ HE) (ft_c _ _ HF) (ft_f _ _ HF) (s_heap s xo))
      as [v [E3 [A3 _]]].
    set (s2 := w_tc2 (Some u) (w_tc1 (Some r) s)) in *.
    assert (R : step E (Qop xi xo) s = (Ok Done, put xo v s2)).
    { cbn [step]. unfold done, answers. rewrite (bind_ok _ _ s tt (put xo v s2)); [reflexivity|]. rewrite Q.
      rewrite (bind_lift_ok _ _ u) by reflexivity. rewrite bind_modify. fold s2. unfold on_heap.
      change (s_heap s2 xo) with (s_heap s xo). unfold prolong. rewrite E3. reflexivity. }
    rewrite R. split; [reflexivity|]. intros j i l Hj Hi Hl. cbn [snd]. unfold put at 1. cbn [s_heap w_heap]. rewrite Nat.eqb_refl.
    rewrite A3 by assumption. unfold moved.
    rewrite (part_comp (k_D K) (nc_full (e_c E))); auto; [apply (ft_L _ _ HF)|apply (ft_c _ _ HF)].
  - assert (R : step E (Qop xi xo) s = (Err e, w_tc1 (Some r) s)).
    { cbn [step]. unfold done, answers. apply bind_err. rewrite Q. reflexivity. }
    rewrite R. split; reflexivity.
Qed.

(** How the hypotheses are reached: on an object with admissible parameters,
    after these four calls. *)
Theorem C42_prepared : forall P E g K S0 s, good P E g ->
  let s' := after E [Setup_fes; Setup_rhs; Prepare_coarse K; Set_coarse S0] s in
  s_crs s' = Some K /\ s_nod s' = true /\ s_sco s' = Some S0 /\ s_tc1 s' = Some vzero /\ s_tc2 s' = Some vzero
  /\ s_cmt s' = Some (st_matrix (k_D K) (k_L K) (e_c E) g (k_om K (s_om s)) false).
Proof.
  intros P E g K S0 s HG s'.
  unfold s'. change [Setup_fes; Setup_rhs; Prepare_coarse K; Set_coarse S0] with ([Setup_fes] ++ [Setup_rhs] ++ [Prepare_coarse K; Set_coarse S0]).
  rewrite !after_app. assert (F0 : s_fes (after E [Setup_fes] s) = true /\ s_om (after E [Setup_fes] s) = s_om s) by (split; reflexivity).
  generalize dependent (after E [Setup_fes] s). intros s1 [F0 F0'].
  destruct (rhs_run P E g HG s1 F0) as [f Hf].
  assert (N2 : after E [Setup_rhs] s1 = snd (setup_rhs E s1)).
  { unfold after. cbn [fold_left step]. unfold done, answers. rewrite (bind_ok _ _ _ _ _ Hf). rewrite Hf. reflexivity. }
  assert (F2 : s_fes (snd (setup_rhs E s1)) = true /\ s_lfi (snd (setup_rhs E s1)) = Some f /\ s_om (snd (setup_rhs E s1)) = s_om s).
  { rewrite Hf. cbn [snd]. split; [exact F0|]. split; [reflexivity|exact F0']. }
  rewrite N2. clear N2 Hf. destruct (setup_rhs E s1) as [r0 s2]. cbn [snd] in *. destruct F2 as [F1 [F2 F3]].
  assert (PC : exists s3, prepare_coarse E K s2 = (Ok tt, s3) /\ s_crs s3 = Some K /\ s_nod s3 = true /\ s_tc1 s3 = Some vzero /\ s_tc2 s3 = Some vzero
     /\ s_cmt s3 = Some (st_matrix (k_D K) (k_L K) (e_c E) g (k_om K (s_om s)) false)).
  { unfold prepare_coarse. rewrite bind_modify. rewrite bind_fes_ok by exact F1. rewrite bind_modify, bind_get.
    change (s_om (w_nod true (w_crs (Some K) s2))) with (s_om s2). rewrite F3.
    rewrite (bind_ok _ _ _ (st_matrix (k_D K) (k_L K) (e_c E) g (k_om K (s_om s)) false, st_form (e_c E) g (k_om K (s_om s)) false) (w_nod true (w_crs (Some K) s2))).
    - rewrite bind_modify, bind_get.
      match goal with |- context [s_lfi ?t] => change (s_lfi t) with (s_lfi s2) end. rewrite F2.
      rewrite (bind_need _ _ _ _ _ eq_refl). eexists. split; [reflexivity|]. repeat split.
    - unfold setup_spacetime_matrix. rewrite (bind_lift_ok _ _ g) by apply (g_stab _ _ _ HG).
      rewrite (bind_lift_ok _ _ (st_form (e_c E) g (k_om K (s_om s)) false)); [reflexivity|].
      apply (st_accepted P); [apply (g_built _ _ _ HG)|apply (g_dt_nz _ _ _ HG)|apply (gd_k _ _ _ HG)|apply (gd_dual _ _ _ HG)|apply (gd_primal _ _ _ HG)]. }
  destruct PC as [s3 [E3 [A1 [A2 [A3 [A4 A5]]]]]].
  assert (N3 : after E [Prepare_coarse K; Set_coarse S0] s2 = w_sco (Some S0) s3).
  { unfold after. cbn [fold_left step]. unfold done, answers. rewrite (bind_ok _ _ _ _ _ E3). reflexivity. }
  rewrite N3. repeat split; assumption.
Qed.

(** ** Example: two copies of the example space, identical or doubled coefficients *)
Definition exK (c : config) : coarse := mkCoarse exI (std_layout 4 (nc_full c) (fun j => d_dim exI (spc j)))
  (fun om => om) (fun u l => 2 * u l) (fun u l => u l / 2).
Example transfer_nonvacuous : forall N, (1 <= N)%nat -> exists P E g K s, good P E g /\ env_ok E /\ fits E K /\ s_crs s = Some K /\ s_nod s = true
  /\ c_N (e_c E) = N /\ linear_map (k_up K) /\ linear_map (k_down K)
  /\ (forall u v, (forall l, (l < d_dim (e_D E) Vp)%nat -> u l = v l) ->
        forall l, (l < d_dim (k_D K) Vp)%nat -> k_down K u l = k_down K v l)
  /\ (forall u l, (l < d_dim (k_D K) Vp)%nat -> k_down K (k_up K u) l = u l).
Proof.
  intros N HN. destruct (exP_ok 1 1 N false false) as [c HC]; try lia. pose proof (construct_inv _ _ HC) as HB.
  assert (HG : good (exP 1 1 N false false) (exE exI c) exG) by apply (exE_good exI _ _ _ _ _ _ HC).
  exists (exP 1 1 N false false), (exE exI c), exG, (exK c),
    (after (exE exI c) [Setup_fes; Setup_rhs; Prepare_coarse (exK c); Set_coarse (fun b _ => Ok b)] (ex0 0)).
  split; [exact HG|]. split; [apply exE_ok, (bu_N _ _ HB)|].
  split; [constructor; [apply std_layout_ok|reflexivity|reflexivity]|].
  destruct (C42_prepared _ _ _ (exK c) (fun b _ => Ok b) (ex0 0) HG) as [A [B _]]. split; [exact A|]. split; [exact B|].
  split; [exact (bu_NP _ _ HB)|]. split; [|split; [|split]].
  - intros a b u v w H l. cbn. rewrite H. ring.
  - intros a b u v w H l. cbn. rewrite H. field.
  - intros u v H l Hl. cbn. rewrite H by exact Hl. reflexivity.
  - intros u l _. cbn. field.
Qed.
(** the same with only the first two functions in the dual space: the
    transfers fail for every vector *)
Definition exI2 : disc := {|
  d_gd := d_gd exI; d_pts := d_pts exI; d_w := d_w exI; d_x := d_x exI; d_h := d_h exI; d_hp := d_hp exI; d_hm := d_hm exI;
  d_dim := fun sp => match sp with Vp => 3%nat | Vd => 2%nat end; d_tab := d_tab exI |}.
Definition exK2 (c : config) : coarse := mkCoarse exI2 (std_layout 4 (nc_full c) (fun j => d_dim exI2 (spc j)))
  (fun om => om) (fun u => u) (fun u => u).
Theorem C41_different_orders_refuted : exists P E g K s, good P E g /\ env_ok E
  /\ lay_ok (k_D K) 4 (nc_full (e_c E)) (k_L K) /\ reached E om1 s
  /\ forall xc xf, returns E (Prolong xc xf) s = Err ValueError /\ returns E (Restrict xc xf) s = Err ValueError.
Proof.
  destruct (exP_ok 1 1 2 false false) as [c HC]; try lia. pose proof (construct_inv _ _ HC) as HB.
  assert (HG : good (exP 1 1 2 false false) (exE exI2 c) exG) by apply (exE_good exI2 _ _ _ _ _ _ HC).
  set (s := after (exE exI2 c) [Setup_fes; Setup_rhs; Prepare_coarse (exK2 c); Set_coarse (fun b _ => Ok b)] (ex0 0)).
  exists (exP 1 1 2 false false), (exE exI2 c), exG, (exK2 c), s.
  assert (HE : env_ok (exE exI2 c)) by apply exE_ok, (bu_N _ _ HB).
  assert (HL : lay_ok exI2 4 (nc_full c) (k_L (exK2 c))) by apply std_layout_ok.
  split; [exact HG|]. split; [exact HE|]. split; [exact HL|].
  split; [apply reached_after; exact (reached_init (exE exI2 c) false om1 _ 5)|].
  intros xc xf. destruct (C42_prepared _ _ _ (exK2 c) (fun b _ => Ok b) (ex0 0) HG) as [A [B _]].
  apply (C41_refuted (exE exI2 c) (exK2 c) s xc xf HE HL A B); cbn; lia.
Qed.
(** What the getter then hands out: the matrix of the coarse mesh, not the fine one. *)
Theorem C42_coarse_matrix : forall P E g K S0 s, good P E g ->
  returns E Get_coarse (after E [Setup_fes; Setup_rhs; Prepare_coarse K; Set_coarse S0] s) =
  Ok (AMat (Some (st_matrix (k_D K) (k_L K) (e_c E) g (k_om K (s_om s)) false))).
Proof.
  intros P E g K S0 s HG. destruct (C42_prepared P E g K S0 s HG) as [_ [_ [_ [_ [_ H]]]]].
  unfold returns. cbn [step]. unfold answers, get_spacetime_matrix_coarse, bind, get, ret. cbn [fst]. rewrite H. reflexivity.
Qed.
(** One component of a transfer when numpy repeats a single value: a coarse component with
    one dof fills the whole node function. *)
Theorem C41_single_value : forall interp nsrc src i ids dst, (2 <= nsrc)%nat ->
  trans_comp interp nsrc (List.length ids) src [i] ids dst =
  (Ok tt, scatter dst ids (map (interp (of_list (repeat (src i) nsrc))) (seq 0 (List.length ids)))).
Proof.
  intros interp nsrc src i ids dst Hn. unfold trans_comp, np_assign. cbn [gather map List.length].
  destruct (Nat.eqb_spec 1 nsrc); [lia|]. cbn [Nat.eqb nth]. unfold bind at 1. cbn [lift].
  unfold bind. rewrite map_length, seq_length, Nat.eqb_refl. reflexivity.
Qed.
Print Assumptions C42_coarse_matrix.
Print Assumptions C41_single_value.
Print Assumptions C40_prolongation.
Print Assumptions C40_restriction.
Print Assumptions C40_linear.
Print Assumptions C40_linear_restriction.
Print Assumptions C40_restrict_prolong.
Print Assumptions C41_refuted.
Print Assumptions C41_different_orders_refuted.
Print Assumptions C42_refuted.
Print Assumptions C42_partial.
Print Assumptions C42_prepared.
