(** OpsProofs.v -- the matrix-free product and the two time-marching routines in
    every state a SpaceTime object can reach. *)
From Coq Require Import Reals List ZArith Lra Lia Bool String.
From Verif Require Import Base TimeModel FormModel FormSpec FormProofs SpaceTimeForms FormBlocks SpaceTimeModel SlabOps
  ApplyProofs MarchProofs MarchLoops MarchSum MarchUnique ErrorsModel Lifecycle LifeProofs.
Import ListNotations.
Open Scope R_scope.
Open Scope monad_scope.

(** [s] is reached from a newly constructed object, whose data indicator is [om],
    by some sequence of public calls *)
Definition reached (E : env) (om : nat -> R) (s : state) : Prop :=
  exists fitted ind heap next calls,
    s = after E calls (init_state fitted ind heap next) /\ om = s_om (init_state fitted ind heap next).
Lemma reached_wf E om s : reached E om s -> wfst E om s.
Proof. intros [f [i [h [nx [ks [-> ->]]]]]]. apply after_wf, init_wf. Qed.
Lemma reached_init E (fitted : bool) ind heap next : reached E (if fitted then fun _ => 0 else ind) (init_state fitted ind heap next).
Proof. exists fitted, ind, heap, next, []. split; reflexivity. Qed.
Lemma reached_after E om s ks : reached E om s -> reached E om (after E ks s).
Proof.
  intros [f [i [h [n [ks0 [-> ->]]]]]]. exists f, i, h, n, (ks0 ++ ks). split; [symmetry; apply after_app|reflexivity].
Qed.

Lemma gammas_jump st g : get_gammas st = Ok g -> lookup st "primal-jump" = Ok (g_jump g).
Proof.
  unfold get_gammas, rbind. destruct (lookup st "data"); [|discriminate]. destruct (lookup st "dual"); [|discriminate].
  destruct (lookup st "primal"); [|discriminate]. destruct (lookup st "primal-jump"); [|discriminate].
  intro H. injection H as <-. reflexivity.
Qed.

Section Ops.
  Variable E : env.
  Notation c := (e_c E).
  Notation D := (e_D E).
  Hypothesis HE : env_ok E.
  Variable om : nat -> R.

  (** what apply_spacetime_matrix needs *)
  Definition can_apply (s : state) : Prop :=
    s_fes s = true /\ s_njm s <> None /\ ((1 < c_N c)%nat -> s_com s <> None).
  Lemma wf_ready s : wfst E om s -> can_apply s ->
    exists g, get_gammas (c_stab c) = Ok g /\ ready E g (g_jump g) om s.
  Proof.
    intros HW [Hf [Hn Hc]]. destruct HW. destruct (s_njm s) as [A|] eqn:En; [|congruence].
    unfold slab_pair in i_nj. destruct (s_njb s) as [f|]; [|contradiction].
    destruct i_nj as [g [Hg [-> ->]]]. exists g. split; [exact Hg|].
    split; [exact Hf|]. split; [apply i_vs; congruence|]. split; [exact En|].
    intro H1. specialize (Hc H1). split; [apply i_vc; exact Hc|].
    destruct (s_com s) as [A|]; [|congruence]. destruct i_co as [gj [H2 ->]].
    apply gammas_jump in Hg. rewrite Hg in H2. injection H2 as <-. reflexivity.
  Qed.
  Lemma slab0_vc1 vi vo s : s_vc1 (snd (apply_slab E vi vo 0 cnt0 s)) = s_vc1 s.
  Proof.
    unfold apply_slab, need_fes, bind, get, err_if, need, modify, ret, raise.
    destruct (s_fes s); cbn [negb]; [|reflexivity]. destruct (s_vs1 s); [|reflexivity].
    match goal with |- context [s_njm ?t] => change (s_njm t) with (s_njm s) end.
    destruct (s_njm s); reflexivity.
  Qed.
  Lemma slab1_vc1 vi vo n k s : (0 < n)%nat -> s_vc1 s = None -> exists e, fst (apply_slab E vi vo n k s) = Err e.
  Proof.
    intros Hn Hv. unfold apply_slab, need_fes, bind, get, err_if, need, modify, ret, raise.
    destruct (s_fes s); cbn [negb]; [|eexists; reflexivity]. destruct (s_vs1 s); [|eexists; reflexivity].
    match goal with |- context [s_njm ?t] => change (s_njm t) with (s_njm s) end.
    destruct (s_njm s); [|eexists; reflexivity].
    destruct (Nat.ltb_spec 0 n); [|lia].
    match goal with |- context [s_vc1 ?t] => change (s_vc1 t) with (s_vc1 s) end. rewrite Hv. eexists; reflexivity.
  Qed.
  Lemma apply_ok_can s vi vo s' : wfst E om s -> apply_spacetime_matrix E vi vo s = (Ok tt, s') -> can_apply s.
  Proof.
    intros HW. unfold apply_spacetime_matrix. rewrite bind_modify. pose proof (eo_N _ HE) as HN.
    assert (HWp : wfst E om (put vo vzero s)).
    { apply (P_step E om s (Write vo vzero) s); split; [exact HW|apply later_refl]. }
    unfold can_apply.
    change (s_fes s) with (s_fes (put vo vzero s)). change (s_njm s) with (s_njm (put vo vzero s)).
    change (s_com s) with (s_com (put vo vzero s)). revert HWp.
    generalize (put vo vzero s). clear s HW. intros s HW.
    destruct (c_N c) as [|m] eqn:EN; [lia|]. cbn [seq slabs]. intro Hrun.
    destruct (s_fes s) eqn:Ef.
    2:{ exfalso. revert Hrun. unfold bind at 1, apply_slab, need_fes. unfold bind at 1, bind at 1, get, err_if. rewrite Ef. cbn. discriminate. }
    destruct (s_njm s) as [A|] eqn:En.
    2:{ exfalso. assert (Hv : s_vs1 s = None).
        { destruct HW. destruct (s_vs1 s) eqn:Ev; [|reflexivity]. exfalso. apply (proj1 (proj1 i_vs)); congruence. }
        revert Hrun. unfold bind at 1, apply_slab. rewrite bind_fes_ok by exact Ef. rewrite bind_get, Hv. cbn. discriminate. }
    split; [reflexivity|]. split; [discriminate|]. intros Hm HC.
    assert (Hv : s_vc1 s = None).
    { destruct HW. destruct (s_vc1 s) eqn:Ev; [|reflexivity]. exfalso. apply (proj1 (proj1 i_vc)); congruence. }
    destruct m as [|m]; [lia|]. cbn [seq slabs] in Hrun. revert Hrun. unfold bind at 1.
    pose proof (slab0_vc1 vi vo s) as H0.
    destruct (apply_slab E vi vo 0 cnt0 s) as [[[]|e] s1]; [|discriminate]. cbn [snd] in H0. rewrite Hv in H0.
    unfold bind at 1. destruct (slab1_vc1 vi vo 1 (cnt_next c cnt0) s1 ltac:(lia) H0) as [e He].
    destruct (apply_slab E vi vo 1 (cnt_next c cnt0) s1) as [[[]|e'] s2]; cbn in He; discriminate.
  Qed.

  (** * apply_spacetime_matrix with the same vector twice *)
  Lemma eval_zero nb nc f X Y : wf_bform nb nc f = true -> feq D nb nc X (fun _ _ _ => 0) -> eval D f X Y = 0.
  Proof.
    intros Hf HX. rewrite (eval_ext D nb nc f X (fun _ _ _ => 0) Y Y Hf HX (feq_refl _ _ _ _)).
    rewrite (eval_ext D nb nc f _ (fun j i l => Rsum (@nil nat) (fun a => 0 * 0)) Y Y Hf); [|intros j i l _ _ _; reflexivity|apply feq_refl].
    rewrite (eval_linX D f (@nil nat) (fun _ => 0) (fun _ _ _ _ => 0) Y); [reflexivity|]. apply (wf_bform_proper nb nc); exact Hf.
  Qed.
  Notation nul v := (forall I, (I < lay_dim (e_Lf E))%nat -> v I = 0).
  Lemma nul_field v j i l : nul v -> (j < 4)%nat -> (i < nc_full c j)%nat -> (l < d_dim D (spc j))%nat -> field_of (e_Lf E) v j i l = 0.
  Proof. intros Hv Hj Hi Hl. unfold field_of. apply Hv. apply (dof_lt D 4 (nc_full c)); auto. apply (eo_f _ HE). Qed.
  Lemma aS_nul g n x Y : (n < c_N c)%nat -> nul x -> aS E g om n (field_of (e_Lf E) x) Y = 0.
  Proof.
    intros Hn Hx. unfold aS. apply (eval_zero 4 (nc_pre c)); [apply wf_slab|].
    intros j i l Hj Hi Hl. rewrite restr_at. apply nul_field; auto. 
    pose proof (up_slab_lt c n j i Hn (proj2 (in_slab_idx c j i) (conj Hj Hi))) as H. unfold up_slab in H. exact H.
  Qed.
  Lemma aC_nul gj n x Y : (n < c_N c)%nat -> nul x -> aC E gj n (field_of (e_Lf E) x) Y = 0.
  Proof.
    intros Hn Hx. unfold aC. destruct (Nat.ltb_spec 0 n); [|reflexivity].
    apply (eval_zero 2 nc_coup); [apply wf_coup|].
    intros j i l Hj Hi Hl. unfold pull. apply nul_field; auto; apply up_coup_lt; auto; apply in_coup_idx; auto.
  Qed.
  Lemma alias_slab g gj v n s : (n < c_N c)%nat -> ready E g gj om s -> nul (s_heap s v) ->
    exists s', apply_slab E v v n (cntn c n) s = (Ok tt, s') /\ scr s s' /\ ready E g gj om s' /\ nul (s_heap s' v)
      /\ forall k, k <> v -> s_heap s' k = s_heap s k.
  Proof.
    intros Hn [Hf [H1 [Hm Hc2]]] Hz.
    destruct (s_vs1 s) as [v1|] eqn:E1; [|congruence].
    unfold apply_slab, need_fes, err_if, bind, get, need, modify, ret, raise.
    rewrite Hf. cbn [negb]. cbv beta iota zeta. rewrite E1. cbv beta iota zeta.
    cbn [s_njm w_vs1 w_vs2 put w_heap s_heap]. rewrite Hm. cbv beta iota zeta.
    set (v1' := move false (e_Lp E) (e_Lf E) (slab_pairs c (cntn c n)) (s_heap s v) v1).
    set (v2 := mult (lay_dim (e_Lp E)) (assemble D (e_Lp E) (slab_form c g om false)) v1').
    cbn [s_heap w_vs1 w_vs2 s_vc1 w_heap put].
    set (o1 := move true (e_Lf E) (e_Lp E) (flip_pairs (slab_pairs c (cntn c n))) v2 (s_heap s v)).
    assert (Ho : nul o1).
    { intros I HI. unfold o1, v2, v1'. rewrite (slab_mult E HE) by assumption.
      rewrite Hz by exact HI. rewrite aS_nul by assumption. ring. }
    destruct (Nat.ltb_spec 0 n) as [H0|H0].
    - destruct (Hc2 ltac:(lia)) as [H2 Hc].
      destruct (s_vc1 s) as [w1|] eqn:E2; [|congruence].
      change (s_vc1 (put v o1 (w_vs2 (Some v2) (w_vs1 (Some v1') s)))) with (s_vc1 s).
      rewrite E2. cbv beta iota zeta.
      match goal with |- context [s_com ?t] => change (s_com t) with (s_com s) end.
      rewrite Hc. cbv beta iota zeta.
      match goal with |- context [s_heap (w_vc2 ?a (w_vc1 ?b ?t))] =>
        change (s_heap (w_vc2 a (w_vc1 b t))) with (s_heap t) end.
      rewrite put_same.
      eexists. split; [reflexivity|].
      split; [solve_scr|].
      split; [split; [exact Hf|]; split; [discriminate|]; split; [exact Hm|]; intros _; split; [discriminate|exact Hc]|].
      split.
      + intros I HI. cbn [put s_heap w_heap w_vc1 w_vc2 w_vs1 w_vs2]. rewrite Nat.eqb_refl.
        rewrite (coup_mult E HE) by assumption. rewrite Ho by exact HI.
        pose proof (aC_nul gj n o1 (field_of (e_Lf E) (unitv I)) Hn Ho) as Hac. unfold aC in Hac.
        destruct (Nat.ltb_spec 0 n); [|lia]. rewrite Hac. ring.
      + intros k Hk. apply Nat.eqb_neq in Hk. cbn. rewrite !Hk. reflexivity.
    - eexists. split; [reflexivity|].
      split; [solve_scr|].
      split; [split; [exact Hf|]; split; [discriminate|]; split; [exact Hm|]; exact Hc2|].
      split.
      + intros I HI. cbn [put s_heap w_heap w_vc1 w_vc2 w_vs1 w_vs2]. rewrite Nat.eqb_refl. apply Ho; exact HI.
      + intros k Hk. apply Nat.eqb_neq in Hk. cbn. rewrite !Hk. reflexivity.
  Qed.
  Lemma alias_run g gj v s : ready E g gj om s ->
    exists s', apply_spacetime_matrix E v v s = (Ok tt, s') /\ nul (s_heap s' v)
      /\ forall k, k <> v -> s_heap s' k = s_heap s k.
  Proof.
    intros Hr. unfold apply_spacetime_matrix. rewrite bind_modify. rewrite (cnt0_n c).
    destruct (slabs_ok c (apply_slab E v v)
      (fun n s' => ready E g gj om s' /\ nul (s_heap s' v) /\ forall k, k <> v -> s_heap s' k = s_heap s k)
      (c_N c) 0%nat (put v vzero s)) as [s' [E' [H1 H2]]].
    - intros n s1 Hn [A [B C]]. destruct (alias_slab g gj v n s1 ltac:(lia) A B) as [s2 [E2 [_ [A2 [B2 C2]]]]].
      exists s2. split; [exact E2|]. split; [exact A2|]. split; [exact B2|]. intros k Hk. rewrite C2, C by exact Hk. reflexivity.
    - split; [exact Hr|]. split; [intros I HI; rewrite put_same; reflexivity|intros k Hk; apply put_other; exact Hk].
    - exists s'. split; [exact E'|exact H2].
  Qed.

  (** * The time-marching routines *)
  Variables S0 S1 : solver.

  Lemma wf_slab_mats s A0 A1 : wfst E om s -> s_fim s = Some A0 -> s_slm s = Some A1 ->
    s_fes s = true /\ exists g, get_gammas (c_stab c) = Ok g
      /\ A0 = assemble D (e_Lp E) (fn E g om 0) /\ A1 = assemble D (e_Lp E) (fn E g om 1).
  Proof.
    intros HW H0 H1. destruct HW. split.
    { destruct (s_fes s) eqn:Ef; [reflexivity|]. destruct (i_fe eq_refl) as [_ [Hn _]]. congruence. }
    rewrite H1 in i_sl. unfold slab_pair in i_sl. destruct (s_slb s) as [f|] eqn:Eb; [|contradiction].
    destruct i_sl as [g [Hg [-> ->]]]. exists g. split; [exact Hg|]. split; [|reflexivity].
    destruct i_fi as [Hfi _]. unfold fn. cbn [Nat.eqb]. destruct (c_wp c).
    - congruence.
    - rewrite <- Hfi, H0 in i_nj. unfold slab_pair in i_nj. destruct (s_njb s) as [f|]; [|contradiction].
      destruct i_nj as [g' [Hg' [-> ->]]]. assert (g' = g) by congruence. subst. reflexivity.
  Qed.
  Lemma fn_S g n : fn E g om (S n) = fn E g om 1.
  Proof. reflexivity. Qed.
  Lemma sol_exact g A0 A1 : A0 = assemble D (e_Lp E) (fn E g om 0) -> A1 = assemble D (e_Lp E) (fn E g om 1) ->
    exact (lay_dim (e_Lp E)) A0 S0 -> exact (lay_dim (e_Lp E)) A1 S1 ->
    forall n r w u, Sn S0 S1 n r w = Ok u -> sol_eq E g om n r u.
  Proof.
    intros -> -> X0 X1 n r w u Hu J HJ. unfold Sn in Hu. destruct n as [|n].
    - apply (X0 r w u Hu J HJ).
    - rewrite fn_S. apply (X1 r w u Hu J HJ).
  Qed.

  (** The outcome of a run: success with a property of the new vector, all other
      vectors untouched, or the failure of a slab solver. *)
  Definition outcome (s : state) (x : nat) (Q : vec -> Prop) (out : res unit * state) : Prop :=
    (forall k, k <> x -> s_heap (snd out) k = s_heap s k) /\
    match fst out with
    | Ok _ => Q (s_heap (snd out) x)
    | Err e => exists r w, S0 r w = Err e \/ S1 r w = Err e
    end.
  Lemma fails_outcome s x n e s' Q : fails S0 S1 s x n e s' -> outcome s x Q (Err e, s').
  Proof.
    intros [_ [H1 [r [w H2]]]]. split; [exact H1|]. exists r, w. unfold Sn in H2.
    destruct (Nat.eqb n 0); [left|right]; exact H2.
  Qed.
  Lemma pre_outcome (sol : nat -> vec -> vec -> Prop) s b x g A0 A1 : wfst E om s -> s_fim s = Some A0 -> s_slm s = Some A1 ->
    s_sfi s = Some S0 -> s_ssl s = Some S1 -> c_dt c <> 0 -> get_gammas (c_stab c) = Ok g ->
    (forall n r w u, Sn S0 S1 n r w = Ok u -> sol n r u) ->
    outcome s x (fun v => forall n, (n < c_N c)%nat ->
        slab_done E sol (carryP c D (g_jump g)) (s_heap s b) n (field_of (e_Lf E) v))
      (pre_time_marching E b x s).
  Proof.
    intros HW HA0 HA1 HS0 HS1 Hdt Hg Hsol. destruct (wf_slab_mats s A0 A1 HW HA0 HA1) as [Hf _].
    destruct (pre_run E HE S0 S1 sol Hsol (g_jump g) s b x (gammas_jump _ _ Hg) (or_introl Hdt)) as [r [s' [-> H]]].
    { split; [exact Hf|split; assumption]. }
    destruct r as [[]|e].
    - destruct H as [_ [H1 [_ [H2 _]]]]. split; [exact H1|]. exact H2.
    - destruct H as [n [_ H]]. apply (fails_outcome s x n e s' _ H).
  Qed.
  Lemma improved_outcome (sol : nat -> vec -> vec -> Prop) s b x g A0 A1 : wfst E om s -> s_fim s = Some A0 -> s_slm s = Some A1 ->
    s_sfi s = Some S0 -> s_ssl s = Some S1 -> c_jumps c = false -> s_mam s <> None -> s_brp s <> None ->
    get_gammas (c_stab c) = Ok g ->
    (forall n r w u, Sn S0 S1 n r w = Ok u -> sol n r u) ->
    outcome s x (fun v => forall n, (n < c_N c)%nat ->
        slab_done E sol (carryI c D (g_jump g)) (s_heap s b) n (field_of (e_Lf E) v))
      (pre_time_marching_improved E b x s).
  Proof.
    intros HW HA0 HA1 HS0 HS1 Hj Hma Hbr Hg Hsol. destruct (wf_slab_mats s A0 A1 HW HA0 HA1) as [Hf _].
    assert (Hmm : s_mam s = Some (assemble D (e_Lb E) (bnd_form c (g_jump g)))).
    { destruct HW. destruct (s_mam s) as [A|]; [|congruence]. destruct i_ma as [gj [H1 ->]].
      rewrite (gammas_jump _ _ Hg) in H1. injection H1 as <-. reflexivity. }
    assert (Hvb : s_vbi s <> None) by (destruct HW; apply i_vb; exact Hma).
    destruct (improved_run E HE S0 S1 sol Hsol (g_jump g) s b x (g_jump g) Hj (gammas_jump _ _ Hg)) as [r [s' [-> H]]];
      [split; [exact Hf|split; [exact Hmm|split; assumption]]|exact Hbr|exact Hvb|].
    destruct r as [[]|e].
    - destruct H as [_ [H1 [_ [H2 _]]]]. split; [exact H1|]. exact H2.
    - destruct H as [n [_ H]]. apply (fails_outcome s x n e s' _ H).
  Qed.
End Ops.
