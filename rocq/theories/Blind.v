(** Blind.v -- functions the quadrature points of dx do not see.  The blocks u2 and z2
    enter all forms of /repo/src/dxss/space_time.py through their values at these points
    only (space_time.py:382-699, 889-1082); if a function vanishes there, the matrices
    have a kernel. *)
From Coq Require Import Reals List ZArith Lra Lia Bool.
From Verif Require Import Base FormModel FormSpec FormProofs SpaceTimeForms FormBlocks FormSym LinAlg Props_WellPosed.
Import ListNotations.
Open Scope R_scope.

(** self.metadata (space_time.py:127), the degree of the dx rule; setup_spacetime_matrix uses
    the same number on other meshes (space_time.py:357) *)
Definition quadrature_degree (P : params) : nat := (2 * p_k P + 3)%nat.
(** points of basix's default rule of a degree on an interval (Gauss-Jacobi; external) *)
Definition rule_points (deg : nat) : nat := ((deg + 2) / 2)%nat.

Definition is_dx (m : meas) : bool := match m with Dx => true | _ => false end.
Definition is_val (o : op) : bool := match o with Val => true | _ => false end.
Definition plain_arg (j : nat) (m : meas) (o : op) (a : arg) : bool :=
  forallb (fun '(_, (v, _)) => negb (Nat.eqb (blk v) j) || (is_dx m && is_val o)) a.
Definition plain_t (j : nat) (t : bterm) : bool :=
  plain_arg j (b_m t) (b_o1 t) (b_a1 t) && plain_arg j (b_m t) (b_o2 t) (b_a2 t).
(** block j occurs in dx terms only, without derivatives *)
Definition plain (j : nat) (f : bform) : bool := forallb (plain_t j) f.

Lemma plain_app j f h : plain j (f ++ h) = plain j f && plain j h.
Proof. apply forallb_app. Qed.
Lemma plain_loop2 j n m f : (forall a b, plain j (f a b) = true) -> plain j (loop2 n m f) = true.
Proof. intro H. apply forallb_loop2. intros a b _ _. apply H. Qed.
Lemma plain_guard j m f : plain j f = true -> plain j (nitsche_guard m f) = true.
Proof. intro H. unfold nitsche_guard. destruct (Rlt_dec 1e-10 (Rabs m)); [exact H|reflexivity]. Qed.

Section Plain.
  Variables (c : config) (g : gammas) (om : nat -> R) (j : nat).
  Hypothesis Hj : j = 1%nat \/ j = 3%nat.
  Ltac done := destruct Hj as [-> | ->]; reflexivity.
  Lemma plain_slab b : plain j (slab_form c g om b) = true.
  Proof.
    unfold slab_form. rewrite !plain_app, !andb_true_iff. repeat match goal with |- _ /\ _ => split end.
    - done.
    - apply plain_loop2; intros. rewrite plain_app, andb_true_iff. split; [done|apply plain_guard; done].
    - apply plain_loop2; intros. done.
    - apply plain_loop2; intros. rewrite plain_app, andb_true_iff. split; [done|apply plain_guard; done].
    - apply plain_loop2; intros. done.
    - unfold sl_dual_jump. destruct (c_jumps c && b); [done|reflexivity].
    - apply plain_loop2; intros. done.
    - unfold sl_jump. destruct b; [|reflexivity]. rewrite plain_app, andb_true_iff. split; [done|].
      destruct (c_jumps c); [done|reflexivity].
  Qed.
  Lemma plain_st_slab precond n s : plain j (st_slab c g om precond n s) = true.
  Proof.
    unfold st_slab. rewrite !plain_app, !andb_true_iff. repeat match goal with |- _ /\ _ => split end.
    - apply plain_loop2; intros. rewrite plain_app, andb_true_iff. split; [done|apply plain_guard; done].
    - apply plain_loop2; intros. done.
    - apply plain_loop2; intros. rewrite plain_app, andb_true_iff. split; [done|apply plain_guard; done].
    - apply plain_loop2; intros. done.
    - unfold st_dual_jump. destruct (c_jumps c && Nat.ltb 0 n); [done|reflexivity].
    - apply plain_loop2; intros. done.
    - unfold st_init. destruct (Nat.eqb n 0 && c_wp c); [done|reflexivity].
    - unfold st_fw_jump. destruct (c_jumps c && Nat.ltb 0 n); [done|reflexivity].
    - unfold st_jump. destruct (Nat.ltb 0 n); [destruct precond; done|reflexivity].
  Qed.
  Lemma plain_st precond : plain j (st_form c g om precond) = true.
  Proof.
    rewrite st_form_slabs. unfold plain. cbn [forallb]. apply andb_true_iff. split; [done|].
    apply forallb_forall; intros t Ht. apply in_flat_map in Ht; destruct Ht as [n [_ Ht]].
    pose proof (plain_st_slab precond n (cntn c n)) as H. unfold plain in H. rewrite forallb_forall in H. auto.
  Qed.
End Plain.

(** a field with block j only, invisible at the dx points *)
Definition hidden (D : disc) (j : nat) (X : field) : Prop :=
  (forall i p, In p (d_pts D Dx) -> d_w D Dx p * fev D Dx (spc j) Val (X j i) p 0 = 0)
  /\ (forall j' i l, j' <> j -> X j' i l = 0).

Lemma fev_zero D m s o a p k : (forall l, a l = 0) -> fev D m s o a p k = 0.
Proof. intro H. apply Rsum_zero. intros l _. rewrite H. ring. Qed.
Lemma arg_hidden D j X A B m o a p k :
  hidden D j X -> (forall r v i, In (r, (v, i)) a -> pick A B v = X) -> plain_arg j m o a = true ->
  In p (d_pts D m) -> (k < ncomp D o)%nat -> d_w D m p * argval D m o A B a p k = 0.
Proof.
  intros [H1 H2] HX HP Hp Hk. unfold argval. rewrite <- Rsum_scal. apply Rsum_zero. intros [r [v i]] Hin.
  rewrite (HX r v i Hin). unfold plain_arg in HP. rewrite forallb_forall in HP. specialize (HP _ Hin). cbv beta iota in HP.
  destruct (Nat.eqb_spec (blk v) j) as [E|E].
  - cbn [negb orb] in HP. apply andb_true_iff in HP. destruct HP as [Hm Ho]. destruct m; try discriminate. destruct o; try discriminate.
    cbn [ncomp] in Hk. assert (k = 0%nat) by lia. subst k. rewrite E.
    replace (d_w D Dx p * (r * fev D Dx (spc j) Val (X j (Z.to_nat i)) p 0))
      with (r * (d_w D Dx p * fev D Dx (spc j) Val (X j (Z.to_nat i)) p 0)) by ring.
    rewrite H1 by exact Hp. ring.
  - rewrite fev_zero; [ring|]. intro l. apply H2, E.
Qed.
Lemma integ_left D m w nc f h : (forall p k, In p (d_pts D m) -> (k < nc)%nat -> d_w D m p * f p k = 0) -> integ D m w nc f h = 0.
Proof.
  intro H. apply Rsum_zero. intros p Hp. rewrite <- Rsum_scal. apply Rsum_zero. intros k Hk. apply in_seq in Hk.
  replace (d_w D m p * wval D m w p * (f p k * h p k)) with (wval D m w p * h p k * (d_w D m p * f p k)) by ring.
  rewrite H by (try assumption; lia). ring.
Qed.
Lemma integ_right D m w nc f h : (forall p k, In p (d_pts D m) -> (k < nc)%nat -> d_w D m p * h p k = 0) -> integ D m w nc f h = 0.
Proof.
  intro H. apply Rsum_zero. intros p Hp. rewrite <- Rsum_scal. apply Rsum_zero. intros k Hk. apply in_seq in Hk.
  replace (d_w D m p * wval D m w p * (f p k * h p k)) with (wval D m w p * f p k * (d_w D m p * h p k)) by ring.
  rewrite H by (try assumption; lia). ring.
Qed.
Lemma wf_pick nb nc b a A B : wf_arg nb nc b a = true -> forall r v i, In (r, (v, i)) a -> pick A B v = if b then A else B.
Proof.
  unfold wf_arg. rewrite andb_true_iff, forallb_forall. intros [_ H] r v i Hin. specialize (H _ Hin). cbv beta iota in H.
  rewrite !andb_true_iff in H. destruct H as [[[H _] _] _]. apply eqb_prop in H. unfold pick. rewrite H. reflexivity.
Qed.
Lemma same_ncomp D o1 o2 : same_shape o1 o2 = true -> ncomp D o2 = ncomp D o1.
Proof. destruct o1, o2; cbn; intro H; try discriminate; reflexivity. Qed.
Lemma hidden_eval D nb nc j f X : wf_bform nb nc f = true -> plain j f = true -> hidden D j X ->
  forall Y, eval D f X Y = 0 /\ eval D f Y X = 0.
Proof.
  intros HW HP HX Y. unfold wf_bform in HW. unfold plain in HP. rewrite forallb_forall in HW, HP.
  split; apply Rsum_zero; intros t Ht; specialize (HW t Ht); specialize (HP t Ht); unfold eval_t;
    unfold wf_bterm in HW; rewrite !andb_true_iff in HW; destruct HW as [[[SS _] _] W];
    unfold plain_t in HP; apply andb_true_iff in HP; destruct HP as [P1 P2];
    apply orb_true_iff in W; destruct W as [W|W]; apply andb_true_iff in W; destruct W as [W1 W2].
  - rewrite integ_left; [ring|]. intros p k Hp Hk. apply (arg_hidden D j X); try assumption.
    intros r v i Hin. exact (wf_pick nb nc true _ X Y W1 r v i Hin).
  - rewrite integ_right; [ring|]. intros p k Hp Hk. apply (arg_hidden D j X); try assumption;
      [|rewrite (same_ncomp D _ _ SS); exact Hk].
    intros r v i Hin. exact (wf_pick nb nc true _ X Y W2 r v i Hin).
  - rewrite integ_right; [ring|]. intros p k Hp Hk. apply (arg_hidden D j X); try assumption;
      [|rewrite (same_ncomp D _ _ SS); exact Hk].
    intros r v i Hin. exact (wf_pick nb nc false _ Y X W2 r v i Hin).
  - rewrite integ_left; [ring|]. intros p k Hp Hk. apply (arg_hidden D j X); try assumption.
    intros r v i Hin. exact (wf_pick nb nc false _ Y X W1 r v i Hin).
Qed.

(** block j, component i0 *)
Definition spike (j i0 : nat) (a : vec) : field := fun j' i l => if Nat.eqb j' j then if Nat.eqb i i0 then a l else 0 else 0.
Lemma spike_same j i a l : spike j i a j i l = a l.
Proof. unfold spike. rewrite !Nat.eqb_refl. reflexivity. Qed.
Lemma spike_hidden D j i0 a : (forall p, In p (d_pts D Dx) -> d_w D Dx p * fev D Dx (spc j) Val a p 0 = 0) -> hidden D j (spike j i0 a).
Proof.
  intro H. split.
  - intros i p Hp. unfold spike. rewrite Nat.eqb_refl. destruct (Nat.eqb i i0); [apply H, Hp|]. rewrite fev_zero; [ring|reflexivity].
  - intros j' i l Hne. unfold spike. destruct (Nat.eqb_spec j' j); [contradiction|reflexivity].
Qed.
(** zero mass: the weighted values vanish *)
Lemma massless D om s a : regular D om -> L2 D s s a a = 0 -> forall p, In p (d_pts D Dx) -> d_w D Dx p * fev D Dx s Val a p 0 = 0.
Proof.
  intros HR H p Hp. unfold L2, sp, integ in H. cbn [ncomp wval] in H.
  assert (Z : d_w D Dx p * 1 * sumn 1 (fun k => fev D Dx s Val a p k * fev D Dx s Val a p k) = 0).
  { refine (Rsum_nonneg_zero (d_pts D Dx) (fun p => d_w D Dx p * 1 * sumn 1 (fun k => fev D Dx s Val a p k * fev D Dx s Val a p k)) _ H p Hp).
    intros q Hq. rewrite Rmult_1_r. apply Rmult_le_pos; [apply (rg_w _ _ HR), Hq|]. apply Rsum_nonneg. intros k _. apply Rle_0_sqr. }
  cbn [seq] in Z. rewrite Rsum_cons, Rsum_nil in Z.
  assert (Z' : d_w D Dx p * (fev D Dx s Val a p 0 * fev D Dx s Val a p 0) = 0) by lra.
  apply Rmult_integral in Z'. destruct Z' as [-> |Z']; [ring|]. apply Rmult_integral in Z'. destruct Z' as [-> | ->]; ring.
Qed.
(** a kernel vector, from the left and from the right *)
Lemma spike_kernel D nb nc L f j i0 a : lay_ok D nb nc L -> wf_bform nb nc f = true -> plain j f = true ->
  (j < nb)%nat -> (i0 < nc j)%nat ->
  (forall p, In p (d_pts D Dx) -> d_w D Dx p * fev D Dx (spc j) Val a p 0 = 0) ->
  exists x, (forall l, (l < d_dim D (spc j))%nat -> x (dof L j i0 l) = a l)
    /\ (forall j' i l, (j' < nb)%nat -> (i < nc j')%nat -> (l < d_dim D (spc j'))%nat -> (j', i) <> (j, i0) -> x (dof L j' i l) = 0)
    /\ (forall I, mult (lay_dim L) (assemble D L f) x I = 0)
    /\ (forall y, sumn (lay_dim L) (fun I => x I * mult (lay_dim L) (assemble D L f) y I) = 0).
Proof.
  intros HL HW HP Hj Hi Ha. destruct (field_onto D nb nc L (spike j i0 a) HL) as [x Hx]. exists x.
  pose proof (hidden_eval D nb nc j f _ HW HP (spike_hidden D j i0 a Ha)) as K.
  assert (Hx' : feq D nb nc (field_of L x) (spike j i0 a)) by (intros j' i l A B C; symmetry; apply Hx; assumption).
  split; [|split; [|split]].
  - intros l Hl. pose proof (Hx' j i0 l Hj Hi Hl) as E. rewrite spike_same in E. exact E.
  - intros j' i l A B C Hne. pose proof (Hx' j' i l A B C) as E. unfold field_of in E. rewrite E. unfold spike.
    destruct (Nat.eqb_spec j' j) as [->|]; [|reflexivity]. destruct (Nat.eqb_spec i i0) as [->|]; [congruence|reflexivity].
  - intro I. rewrite (mult_assemble D nb nc) by assumption.
    rewrite (eval_ext D nb nc f _ (spike j i0 a) _ (field_of L (unitv I)) HW Hx' (feq_refl _ _ _ _)). exact (proj1 (K _)).
  - intro y. rewrite (dot_assemble D nb nc) by assumption.
    rewrite (eval_ext D nb nc f _ (field_of L y) _ (spike j i0 a) HW (feq_refl _ _ _ _) Hx'). exact (proj2 (K _)).
Qed.
(** more functions than points *)
Lemma more_dofs D s : (length (d_pts D Dx) < d_dim D s)%nat ->
  exists a, (exists l, (l < d_dim D s)%nat /\ a l <> 0) /\ forall p, In p (d_pts D Dx) -> fev D Dx s Val a p 0 = 0.
Proof.
  intro H. destruct (underdetermined (length (d_pts D Dx)) (d_dim D s) (fun i l => d_tab D Dx s Val l (nth i (d_pts D Dx) 0%nat) 0%nat) H)
    as [a [Ha He]]. exists a. split; [exact Ha|]. intros p Hp. destruct (In_nth _ _ 0%nat Hp) as [i [Hi Ei]].
  specialize (He i Hi). cbv beta in He. rewrite Ei in He. unfold fev. rewrite <- He. apply Rsum_ext. intro l. ring.
Qed.

(** the same for linear forms *)
Definition plain_l (j : nat) (t : lterm) : bool := plain_arg j (l_m t) (l_o t) (l_a t).
Lemma hidden_leval D nb nc j f X : wf_lform nb nc f = true -> forallb (plain_l j) f = true -> hidden D j X -> leval D f X = 0.
Proof.
  intros HW HP HX. unfold wf_lform in HW. rewrite forallb_forall in HW, HP.
  apply Rsum_zero; intros t Ht; specialize (HW t Ht); specialize (HP t Ht). unfold leval_t.
  rewrite integ_right; [ring|]. intros p k Hp Hk. apply (arg_hidden D j X); try assumption.
  intros r v i _. unfold pick. destruct (is_trial v); reflexivity.
Qed.
Lemma plain_rhs c om gd gj xs u1v u1g u2v j : j = 1%nat \/ j = 3%nat -> forallb (plain_l j) (rhs_form c om gd gj xs u1v u1g u2v) = true.
Proof.
  intro Hj. unfold rhs_form. rewrite fold_slabs. cbn [snd]. rewrite forallb_app. apply andb_true_iff. split; [destruct Hj as [-> | ->]; reflexivity|].
  apply forallb_forall; intros t Ht. apply in_flat_map in Ht; destruct Ht as [n [_ Ht]]. apply in_app_iff in Ht. destruct Ht as [Ht|Ht].
  - unfold rhs_data in Ht. apply in_map_iff in Ht. destruct Ht as [[tau w] [<- _]]. unfold plain_l, plain_arg. cbn [l_m l_o l_a].
    apply forallb_forall. intros [r [v i]] Hin. apply in_map_iff in Hin. destruct Hin as [k [[= <- <- <-] _]]. destruct Hj as [-> | ->]; reflexivity.
  - unfold rhs_init in Ht. destruct (Nat.eqb n 0 && c_wp c); [|destruct Ht]. cbn [In] in Ht.
    decompose [or] Ht; subst; try contradiction; destruct Hj as [-> | ->]; reflexivity.
Qed.
Lemma plain_coup c gj j : j = 1%nat \/ j = 3%nat -> plain j (coup_form c gj) = true.
Proof. intros [-> | ->]; reflexivity. Qed.
(** a field whose block j is invisible within the range of the space, and whose other blocks are zero there *)
Lemma hidden_range D nb nc j f X : wf_bform nb nc f = true -> plain j f = true ->
  (forall i p, (j < nb)%nat -> (i < nc j)%nat -> In p (d_pts D Dx) -> d_w D Dx p * fev D Dx (spc j) Val (X j i) p 0 = 0) ->
  (forall j' i l, (j' < nb)%nat -> (i < nc j')%nat -> (l < d_dim D (spc j'))%nat -> j' <> j -> X j' i l = 0) ->
  forall Y, eval D f X Y = 0.
Proof.
  intros HW HP H1 H2 Y.
  rewrite (eval_ext D nb nc f X (fun j' i l => if (Nat.eqb j' j && (Nat.ltb j nb && Nat.ltb i (nc j)))%bool then X j' i l else 0) Y Y HW); [| |apply feq_refl].
  - refine (proj1 (hidden_eval D nb nc j f _ HW HP _ Y)). split.
    + intros i p Hp. rewrite Nat.eqb_refl. cbn [andb].
      destruct (Nat.ltb_spec j nb), (Nat.ltb_spec i (nc j)); [apply H1; assumption| | |]; cbn [andb]; (rewrite fev_zero; [ring|reflexivity]).
    + intros j' i l Hne. destruct (Nat.eqb_spec j' j); [contradiction|reflexivity].
  - intros j' i l Hj Hi Hl. destruct (Nat.eqb_spec j' j) as [->|Hne]; cbn [andb]; [|apply H2; assumption].
    destruct (Nat.ltb_spec j nb), (Nat.ltb_spec i (nc j)); [reflexivity|lia|lia|lia].
Qed.
