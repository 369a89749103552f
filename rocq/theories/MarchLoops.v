(** MarchLoops.v -- the loops of pre_time_marching and
    pre_time_marching_improved run through the slabs (C24-C29). *)
From Coq Require Import Reals List ZArith Lra Lia Bool String.
From Verif Require Import Base TimeModel FormModel FormSpec FormProofs SpaceTimeForms SpaceTimeModel FormBlocks SlabOps ApplyProofs MarchProofs.
Import ListNotations.
Open Scope R_scope.

Lemma bind_ok {S A B} (m : M S A) (f : A -> M S B) s a s' : m s = (Ok a, s') -> bind m f s = f a s'.
Proof. intro H. unfold bind. rewrite H. reflexivity. Qed.
Lemma bind_err {S A B} (m : M S A) (f : A -> M S B) s e s' : m s = (Err e, s') -> bind m f s = (Err e, s').
Proof. intro H. unfold bind. rewrite H. reflexivity. Qed.
Lemma bind_get {S B} (f : S -> M S B) s : bind get f s = f s s.
Proof. reflexivity. Qed.
Lemma bind_modify {S B} g (f : unit -> M S B) s : bind (modify g) f s = f tt (g s).
Proof. reflexivity. Qed.
Lemma bind_need {S A B} (o : option A) e (f : A -> M S B) a s : o = Some a -> bind (need o e) f s = f a s.
Proof. intros ->. reflexivity. Qed.
Lemma bind_lift_ok {S A B} (r : res A) (f : A -> M S B) a s : r = Ok a -> bind (lift r) f s = f a s.
Proof. intros ->. reflexivity. Qed.
Lemma bind_fes_ok {B} e (f : unit -> M state B) s : s_fes s = true -> bind (need_fes e) f s = f tt s.
Proof. intro H. unfold bind, need_fes, get. unfold bind. rewrite H. reflexivity. Qed.
Lemma bind_err_if_ok {B} b e (f : unit -> M state B) s : b = false -> bind (err_if b e) f s = f tt s.
Proof. intros ->. reflexivity. Qed.

Section Loops.
  Variable E : env.
  Notation c := (e_c E).
  Notation D := (e_D E).
  Notation Lf := (e_Lf E).
  Notation Lp := (e_Lp E).
  Notation Lb := (e_Lb E).
  Notation nq := (S (c_q c)).
  Hypothesis HE : env_ok E.
  Variables (S0 S1 : solver).
  Variable sol : nat -> vec -> vec -> Prop.
  Hypothesis Hsol : forall n r w u, Sn S0 S1 n r w = Ok u -> sol n r u.
  Variable gj : R.

  (** the solvers are set *)
  Definition solvers (s : state) : Prop := s_sfi s = Some S0 /\ s_ssl s = Some S1.
  Lemma solve_run n r s : solvers s ->
    (exists u, Sn S0 S1 n r (s_uhp s) = Ok u /\ solve_slab n r s = (Ok u, w_uhp u s))
    \/ (exists e, Sn S0 S1 n r (s_uhp s) = Err e /\ solve_slab n r s = (Err e, s)).
  Proof.
    intros [H0 H1]. unfold solve_slab. rewrite bind_get.
    rewrite (bind_need _ _ _ (Sn S0 S1 n)) by (unfold Sn; destruct (Nat.eqb n 0); assumption).
    destruct (Sn S0 S1 n r (s_uhp s)) as [u|e] eqn:Eu; [left; exists u|right; exists e]; (split; [reflexivity|]);
    unfold bind, lift; rewrite ?Eu; reflexivity.
  Qed.

  (** ** improved *)
  Notation cI := (carryI c D gj).
  Definition handI (x n : nat) (s : state) : Prop :=
    s_vbi s <> None /\ exists r, s_brp s = Some r /\
      forall j i l, (j < 4)%nat -> (i < nc_pre c j)%nat -> (l < d_dim D (spc j))%nat ->
      field_of Lp r j i l = carryX E cI n (field_of Lf (s_heap s x)) (field_of Lp (unitv (dof Lp j i l))).

  Definition bnd_idx : list (nat * nat) := [(0, 0); (1, 0)]%nat.
  Lemma in_bnd_idx j i : In (j, i) bnd_idx <-> (j < 2)%nat /\ (i < nc_bnd j)%nat.
  Proof.
    unfold nc_bnd. split.
    - intros [H|[H|[]]]; injection H; intros; subst; lia.
    - intros [H1 H2]. assert (j = 0 \/ j = 1)%nat as [->| ->] by lia; replace i with 0%nat by lia; cbn; auto.
  Qed.
  Lemma nodup_bnd_idx : NoDup bnd_idx.
  Proof. repeat constructor; cbn; intuition congruence. Qed.
  Lemma bnd_inj k j i i' : In (j, i) bnd_idx -> In (j, i') bnd_idx -> (fun _ _ : nat => k : nat) j i = (fun _ _ => k) j i' -> i = i'.
  Proof. intros H1 H2 _. apply in_bnd_idx in H1. apply in_bnd_idx in H2. unfold nc_bnd in *. lia. Qed.
  Lemma up_le k j i : (k <= c_q c)%nat -> In (j, i) bnd_idx -> ((fun _ _ : nat => k) j i < nc_pre c j)%nat.
  Proof.
    intros Hk H. apply in_bnd_idx in H. unfold nc_pre, ntime, sto. destruct (Nat.ltb_spec j 2); lia.
  Qed.
  (** vec_0_bnd_in: the last time component of the slab solution *)
  Lemma bnd_in u j l : (j < 2)%nat -> (l < d_dim D Vp)%nat ->
    field_of Lb (move true Lb Lp [((0, 0), (0, c_q c)); ((1, 0), (1, c_q c))]%nat u vzero) j 0%nat l
    = field_of Lp u j (c_q c) l.
  Proof.
    intros Hj Hl. change [((0, 0), (0, c_q c)); ((1, 0), (1, c_q c))]%nat with (emb (fun _ _ => c_q c) bnd_idx).
    rewrite (copy_in_spec D 4 2 (nc_pre c) nc_bnd Lp Lb (eo_p _ HE) (eo_b _ HE) (fun _ _ => c_q c) bnd_idx).
    - unfold pull. cbv iota. change (field_of Lb vzero j 0%nat l) with 0. ring.
    - intros a b H. apply in_bnd_idx in H. exact H.
    - apply nodup_bnd_idx.
    - lia.
    - intros a b H. apply (up_le (c_q c) a b); [lia|exact H].
    - apply in_bnd_idx. split; [exact Hj|unfold nc_bnd; lia].
    - unfold spc. destruct (Nat.ltb_spec j 2); [exact Hl|lia].
  Qed.
  (** b_rhs_pre after the scaled mass matrix has been applied *)
  Lemma bnd_out vin J : (J < lay_dim Lp)%nat ->
    move true Lp Lb [((0, 0), (0, 0)); ((1, 0), (1, 0))]%nat (mult (lay_dim Lb) (assemble D Lb (bnd_form c gj)) vin) vzero J
    = gj * en D (c_dt c) (field_of Lb vin 0%nat 0%nat) (field_of Lb vin 1%nat 0%nat)
        (field_of Lp (unitv J) 0%nat 0%nat) (field_of Lp (unitv J) 1%nat 0%nat).
  Proof.
    intro HJ. change [((0, 0), (0, 0)); ((1, 0), (1, 0))]%nat with (flip_pairs (emb (fun _ _ : nat => 0%nat) bnd_idx)).
    rewrite (add_out_spec D 4 2 (nc_pre c) nc_bnd Lp Lb (eo_p _ HE) (eo_b _ HE) (fun _ _ => 0%nat) bnd_idx) with
      (phi := fun Y => eval D (bnd_form c gj) (field_of Lb vin) Y).
    - rewrite eval_bnd. unfold vzero, pull. ring.
    - intros a b H. apply in_bnd_idx in H. exact H.
    - apply nodup_bnd_idx.
    - lia.
    - intros a b H. apply (up_le 0 a b); [lia|exact H].
    - intros j i i' H1 H2 _. exact (bnd_inj 0 j i i' H1 H2 eq_refl).
    - intros j i H1 H2. apply in_bnd_idx. auto.
    - intros X X' HX. apply (eval_ext D 2 nc_bnd); [apply wf_bnd|apply feq_refl|exact HX].
    - rewrite eval_bnd. rewrite en_0r. ring.
    - intros K HK. apply (mult_assemble D 2 nc_bnd); [apply (eo_b _ HE)|apply wf_bnd].
    - exact HJ.
  Qed.

  Definition readyI (s : state) : Prop :=
    s_fes s = true /\ s_mam s = Some (assemble D Lb (bnd_form c gj)) /\ solvers s.
  Lemma readyI_scm s s' : scm s s' -> readyI s -> readyI s'.
  Proof.
    intros H [A [B [C F]]]. destruct (scm_fix _ _ H) as [E1 [E2 [E3 E4]]].
    repeat split; congruence.
  Qed.

  Lemma imp_slab_ok s0 b x n s : readyI s0 -> (n < c_N c)%nat ->
    inv E sol cI (handI x) s0 b x n s ->
    exists r s', imp_slab E b x n (cntn c n) s = (r, s')
      /\ match r with Ok _ => inv E sol cI (handI x) s0 b x (S n) s' | Err e => fails S0 S1 s0 x n e s' end.
  Proof.
    intros Hr0 Hn HI. pose proof HI as HI'. destruct HI' as [Hs [Hk [Hm [Hq [Hv [r0 [Er Hr]]]]]]].
    pose proof (readyI_scm _ _ Hs Hr0) as [Hf [Hma Hso]].
    destruct (s_vbi s) as [vb|] eqn:Eb; [|congruence].
    unfold imp_slab. rewrite bind_fes_ok by exact Hf. rewrite bind_get, (bind_need _ _ _ _ _ Er).
    cbv zeta. set (r := move true Lp Lf (slab_pairs c (cntn c n)) (s_heap s b) r0).
    rewrite bind_modify. set (s1 := w_brp (Some r) s).
    assert (Hso1 : solvers s1) by exact Hso.
    destruct (solve_run n r s1 Hso1) as [[u [Eu Es]]|[e [Ee Es]]].
    2: { exists (Err e), s1. rewrite (bind_err _ _ _ _ _ Es). split; [reflexivity|].
         split; [eapply scm_trans; [exact Hs|apply scm_brp]|]. split; [exact Hk|]. eexists _, _; exact Ee. }
    rewrite (bind_ok _ _ _ _ _ Es). rewrite bind_get.
    assert (Eb2 : s_vbi (w_uhp u s1) = Some vb) by exact Eb.
    rewrite (bind_need _ _ _ _ _ Eb2).
    set (vin := move true Lb Lp [((0, 0), (0, c_q c)); ((1, 0), (1, c_q c))]%nat u vzero).
    rewrite bind_modify, bind_get.
    assert (Em : s_mam (w_vbi (Some vin) (w_uhp u s1)) = Some (assemble D Lb (bnd_form c gj))) by exact Hma.
    rewrite (bind_need _ _ _ _ _ Em). rewrite bind_modify.
    set (vout := mult (lay_dim Lb) (assemble D Lb (bnd_form c gj)) vin). rewrite bind_modify, bind_get.
    unfold modify.
    set (rn := move true Lp Lb [((0, 0), (0, 0)); ((1, 0), (1, 0))]%nat vout vzero).
    eexists (Ok tt), _. split; [reflexivity|].
    assert (HR : slab_rhs E cI (s_heap s0 b) n (field_of Lf (s_heap s x)) r).
    { intros j i l Hj Hi Hl. unfold r. rewrite (add_b E HE) by assumption. rewrite Hr by assumption.
      pose proof (same_b E sol cI (handI x) s0 b x n s n HI ltac:(lia)) as Sb.
      rewrite (Sb j i l) by assumption. ring. }
    assert (Hs1 : s_uhp s1 = s_uhp s) by reflexivity.
    pose proof (solved_step E HE S0 S1 sol Hsol cI (carryI_ext c D gj) (carryI_first c D gj) (handI x)
      s0 b x n s r u (s_uhp s1) HI Hn HR Eu) as [G1 [G2 G3]].
    split; [eapply scm_trans; [exact Hs|]; unfold s1; solve_scm|].
    split; [intros k Hkx; rewrite put_other by exact Hkx; apply Hk; exact Hkx|].
    split; [intros m Hm'; rewrite put_same; apply G1; exact Hm'|].
    split; [intros m Hm'; rewrite put_same; apply G2; exact Hm'|].
    split; [cbn; congruence|]. exists rn. split; [reflexivity|].
    intros j i l Hj Hi Hl. rewrite put_same. unfold carryX, carryI.
    destruct (Nat.ltb_spec 0 (S n)) as [_|]; [|lia].
    unfold field_of at 1. unfold rn, vout. rewrite bnd_out by (eapply dof_lt; [apply (eo_p _ HE)| | |]; eauto).
    f_equal. apply en_ext; intros k Hk'; try reflexivity.
    - unfold vin. rewrite bnd_in by (auto; lia). symmetry. apply G3; [lia|exact Hk'].
    - unfold vin. rewrite bnd_in by (auto; lia). symmetry. apply G3; [lia|exact Hk'].
  Qed.

  Lemma improved_run s b x gj' : c_jumps c = false -> lookup (c_stab c) "primal-jump" = Ok gj' ->
    readyI s -> s_brp s <> None -> s_vbi s <> None ->
    exists r s', pre_time_marching_improved E b x s = (r, s')
      /\ match r with Ok _ => inv E sol cI (handI x) s b x (c_N c) s'
         | Err e => exists n, (n < c_N c)%nat /\ fails S0 S1 s x n e s' end.
  Proof.
    intros Hj Hl Hr Hb Hv. destruct (s_brp s) as [r0|] eqn:Eb; [|congruence].
    unfold pre_time_marching_improved. rewrite bind_err_if_ok by exact Hj.
    rewrite (bind_lift_ok _ _ _ _ Hl), bind_get, (bind_need _ _ _ _ _ Eb), bind_modify.
    rewrite (cnt0_n c).
    destruct (slabs_run c (imp_slab E b x) (inv E sol cI (handI x) s b x) (fails S0 S1 s x) (c_N c) 0%nat
      (w_brp (Some vzero) s)) as [r [s' [E' H']]].
    - intros n s1 Hn HI. apply imp_slab_ok; [exact Hr|lia|exact HI].
    - split; [apply scm_brp|]. split; [reflexivity|]. split; [intros m _ j i l _ _ _; reflexivity|].
      split; [intros m Hm; lia|]. split; [exact Hv|]. exists vzero. split; [reflexivity|].
      intros j i l _ _ _. reflexivity.
    - exists r, s'. split; [exact E'|]. destruct r; [exact H'|].
      destruct H' as [n [Hn H']]. exists n. split; [lia|exact H'].
  Qed.

  (** ** pre_time_marching *)
  Notation cP := (carryP c D gj).
  Definition handP (x n : nat) (s : state) : Prop := (0 < n)%nat ->
    veq (d_dim D Vp) (s_u10p s) (field_of Lf (s_heap s x) 0%nat (n * nq - 1)%nat)
    /\ veq (d_dim D Vp) (s_u20p s) (field_of Lf (s_heap s x) 1%nat (n * nq - 1)%nat).
  Definition readyP (s : state) : Prop := s_fes s = true /\ solvers s.
  Lemma pre_slab_ok s0 b x n s : readyP s0 -> (c_dt c <> 0 \/ c_N c = 1%nat) -> (n < c_N c)%nat ->
    inv E sol cP (handP x) s0 b x n s ->
    exists r s', pre_slab E gj b x n (cntn c n) s = (r, s')
      /\ match r with Ok _ => inv E sol cP (handP x) s0 b x (S n) s' | Err e => fails S0 S1 s0 x n e s' end.
  Proof.
    intros Hr0 Hdt Hn HI. pose proof HI as HI'. destruct HI' as [Hs [Hk [Hm [Hq Hh]]]].
    destruct (scm_fix _ _ Hs) as [F1 [F2 [F3 F4]]]. destruct Hr0 as [R1 [R2 R3]].
    assert (Hf : s_fes s = true) by congruence. assert (Hso : solvers s) by (split; congruence).
    unfold pre_slab. rewrite bind_fes_ok by exact Hf.
    rewrite bind_err_if_ok.
    2: { unfold is_zero. destruct (Nat.ltb_spec 0 n); [|reflexivity]. destruct (Req_EM_T (c_dt c) 0); [|reflexivity].
         destruct Hdt; [contradiction|lia]. }
    rewrite bind_get.
    set (f := pre_lform c gj (fev D Dx Vp Val (s_u10p s)) (fev D Dx Vp Grad (s_u10p s)) (fev D Dx Vp Val (s_u20p s)) n).
    assert (Ef : fem_lform 4 (nc_pre c) f = Ok f) by (unfold fem_lform, f; rewrite wf_pre; reflexivity).
    rewrite (bind_lift_ok _ _ _ _ Ef). cbv zeta.
    set (r := move true Lp Lf (slab_pairs c (cntn c n)) (s_heap s b) (assemble_vec D Lp f)).
    destruct (solve_run n r s Hso) as [[u [Eu Es]]|[e [Ee Es]]].
    2: { exists (Err e), s. rewrite (bind_err _ _ _ _ _ Es). split; [reflexivity|].
         split; [exact Hs|]. split; [exact Hk|]. eexists _, _; exact Ee. }
    rewrite (bind_ok _ _ _ _ _ Es). rewrite bind_modify, bind_get. unfold modify.
    eexists (Ok tt), _. split; [reflexivity|].
    assert (HR : slab_rhs E cP (s_heap s0 b) n (field_of Lf (s_heap s x)) r).
    { intros j i l Hj Hi Hl. unfold r. rewrite (add_b E HE) by assumption.
      pose proof (same_b E sol cP (handP x) s0 b x n s n HI ltac:(lia)) as Sb.
      rewrite (Sb j i l) by assumption.
      rewrite Rplus_comm. f_equal. unfold field_of at 1, assemble_vec. unfold f. rewrite leval_pre.
      unfold carryX. destruct (Nat.eq_dec n 0) as [->|Hn0]; [apply carryP_first|].
      destruct (Hh ltac:(lia)) as [A B]. apply carryP_ext; [exact A|exact B|apply feq_refl]. }
    pose proof (solved_step E HE S0 S1 sol Hsol cP (carryP_ext c D gj) (carryP_first c D gj) (handP x)
      s0 b x n s r u (s_uhp s) HI Hn HR Eu) as [G1 [G2 G3]].
    split; [eapply scm_trans; [exact Hs|]; solve_scm|].
    split; [intros k Hkx; rewrite put_other by exact Hkx; apply Hk; exact Hkx|].
    split; [intros m Hm'; rewrite put_same; apply G1; exact Hm'|].
    split; [intros m Hm'; rewrite put_same; apply G2; exact Hm'|].
    intros _. rewrite put_same.
    assert (Hc : forall j l, (j < 2)%nat -> (l < d_dim D Vp)%nat -> comp_of Lp u j (c_q c) l = field_of Lp u j (c_q c) l).
    { intros j l Hj Hl. unfold comp_of, field_of, dof. apply of_list_gather.
      rewrite (wl_len _ _ _ _ (eo_p _ HE)); [|lia|].
      - unfold spc. destruct (Nat.ltb_spec j 2); [exact Hl|lia].
      - unfold nc_pre, ntime, sto. destruct (Nat.ltb_spec j 2); lia. }
    split; intros l Hl.
    - cbn [s_u10p put w_heap w_u20p w_u10p]. rewrite Hc by (auto; lia). symmetry. apply G3; [lia|exact Hl].
    - cbn [s_u20p put w_heap w_u20p w_u10p]. rewrite Hc by (auto; lia). symmetry. apply G3; [lia|exact Hl].
  Qed.
  Lemma pre_run s b x : lookup (c_stab c) "primal-jump" = Ok gj -> (c_dt c <> 0 \/ c_N c = 1%nat) -> readyP s ->
    exists r s', pre_time_marching E b x s = (r, s')
      /\ match r with Ok _ => inv E sol cP (handP x) s b x (c_N c) s'
         | Err e => exists n, (n < c_N c)%nat /\ fails S0 S1 s x n e s' end.
  Proof.
    intros Hl Hdt Hr. unfold pre_time_marching. rewrite (bind_lift_ok _ _ _ _ Hl). rewrite (cnt0_n c).
    destruct (slabs_run c (pre_slab E gj b x) (inv E sol cP (handP x) s b x) (fails S0 S1 s x) (c_N c) 0%nat s)
      as [r [s' [E' H']]].
    - intros n s1 Hn HI. apply pre_slab_ok; [exact Hr|exact Hdt|lia|exact HI].
    - split; [apply scm_refl|]. split; [reflexivity|]. split; [intros m _ j i l _ _ _; reflexivity|].
      split; [intros m Hm; lia|]. intro H; lia.
    - exists r, s'. split; [exact E'|]. destruct r; [exact H'|].
      destruct H' as [n [Hn H']]. exists n. split; [lia|exact H'].
  Qed.
End Loops.
