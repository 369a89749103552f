(** MarchProofs.v -- the two time-marching preconditioners solve the slab
    equations one after the other, hence the preconditioner system (C24-C29). *)
From Coq Require Import Reals List ZArith Lra Lia Bool String.
From Verif Require Import Base TimeModel FormModel FormSpec FormProofs SpaceTimeForms SpaceTimeModel FormBlocks SlabOps ApplyProofs.
Import ListNotations.
Open Scope R_scope.

(** a loop whose body may fail *)
Lemma slabs_run c body (P : nat -> state -> Prop) (Q : nat -> exn -> state -> Prop) m :
  forall a s,
  (forall n s, (a <= n < a + m)%nat -> P n s ->
     exists r s', body n (cntn c n) s = (r, s') /\ match r with Ok _ => P (S n) s' | Err e => Q n e s' end) ->
  P a s ->
  exists r s', slabs c body (seq a m) (cntn c a) s = (r, s')
    /\ match r with Ok _ => P (a + m)%nat s' | Err e => exists n, (a <= n < a + m)%nat /\ Q n e s' end.
Proof.
  induction m as [|m IH]; intros a s Hb Ha; cbn [seq slabs].
  - exists (Ok tt), s. rewrite Nat.add_0_r. split; [reflexivity|exact Ha].
  - destruct (Hb a s ltac:(lia) Ha) as [r [s1 [E1 H1]]].
    unfold bind at 1. rewrite E1. destruct r as [[]|e].
    + rewrite cnt_next_n. destruct (IH (S a) s1) as [r [s2 [E2 H2]]]; [|exact H1|].
      * intros n s0 Hn. apply Hb. lia.
      * exists r, s2. split; [exact E2|]. replace (a + S m)%nat with (S a + m)%nat by lia.
        destruct r; [exact H2|]. destruct H2 as [n [Hn H2]]. exists n. split; [lia|exact H2].
    + exists (Err e), s1. split; [reflexivity|]. exists a. split; [lia|exact H1].
Qed.

(** the attributes the two methods write: caller vectors, uh_pre, u1_0_pre,
    u2_0_pre, b_rhs_pre, vec_0_bnd_in, vec_0_bnd_out *)
Definition scm (s s' : state) : Prop :=
  exists h a b d e f i, s' = w_heap h (w_uhp a (w_u10p b (w_u20p d (w_brp e (w_vbi f (w_vbo i s)))))).
Lemma scm_refl s : scm s s.
Proof. exists (s_heap s), (s_uhp s), (s_u10p s), (s_u20p s), (s_brp s), (s_vbi s), (s_vbo s). destruct s; reflexivity. Qed.
Lemma scm_trans s1 s2 s3 : scm s1 s2 -> scm s2 s3 -> scm s1 s3.
Proof.
  intros [h1 [a1 [b1 [d1 [e1 [f1 [i1 E1]]]]]]] [h2 [a2 [b2 [d2 [e2 [f2 [i2 E2]]]]]]].
  exists h2, a2, b2, d2, e2, f2, i2. subst. destruct s1; reflexivity.
Qed.
Lemma scm_put i v s : scm s (put i v s).
Proof. eexists _, (s_uhp s), (s_u10p s), (s_u20p s), (s_brp s), (s_vbi s), (s_vbo s). destruct s; reflexivity. Qed.
Lemma scm_uhp a s : scm s (w_uhp a s).
Proof. exists (s_heap s), a, (s_u10p s), (s_u20p s), (s_brp s), (s_vbi s), (s_vbo s). destruct s; reflexivity. Qed.
Lemma scm_u10p a s : scm s (w_u10p a s).
Proof. exists (s_heap s), (s_uhp s), a, (s_u20p s), (s_brp s), (s_vbi s), (s_vbo s). destruct s; reflexivity. Qed.
Lemma scm_u20p a s : scm s (w_u20p a s).
Proof. exists (s_heap s), (s_uhp s), (s_u10p s), a, (s_brp s), (s_vbi s), (s_vbo s). destruct s; reflexivity. Qed.
Lemma scm_brp a s : scm s (w_brp a s).
Proof. exists (s_heap s), (s_uhp s), (s_u10p s), (s_u20p s), a, (s_vbi s), (s_vbo s). destruct s; reflexivity. Qed.
Lemma scm_vbi a s : scm s (w_vbi a s).
Proof. exists (s_heap s), (s_uhp s), (s_u10p s), (s_u20p s), (s_brp s), a, (s_vbo s). destruct s; reflexivity. Qed.
Lemma scm_vbo a s : scm s (w_vbo a s).
Proof. exists (s_heap s), (s_uhp s), (s_u10p s), (s_u20p s), (s_brp s), (s_vbi s), a. destruct s; reflexivity. Qed.
Ltac solve_scm := repeat (eapply scm_trans; [|first [apply scm_put|apply scm_uhp|apply scm_u10p|apply scm_u20p
  |apply scm_brp|apply scm_vbi|apply scm_vbo]]); apply scm_refl.
Lemma scm_fix s s' : scm s s' ->
  s_fes s' = s_fes s /\ s_mam s' = s_mam s /\ s_sfi s' = s_sfi s /\ s_ssl s' = s_ssl s.
Proof. intros [h [a [b [d [e [f [i ->]]]]]]]. repeat split. Qed.

(** a solver that returns, returns a solution of the system with matrix A *)
Definition exact (n : nat) (A : matrix) (S0 : solver) : Prop :=
  forall b x u, S0 b x = Ok u -> forall J, (J < n)%nat -> mult n A u J = b J.
Definition total (S0 : solver) : Prop := forall b x, exists u, S0 b x = Ok u.

(** comparison of coefficient vectors on the dofs of a space *)
Definition veq (n : nat) (a b : vec) : Prop := forall l, (l < n)%nat -> a l = b l.

Section March.
  Variable E : env.
  Notation c := (e_c E).
  Notation D := (e_D E).
  Notation Lf := (e_Lf E).
  Notation Lp := (e_Lp E).
  Notation Lb := (e_Lb E).
  Notation nq := (S (c_q c)).
  Hypothesis HE : env_ok E.
  (** the slab solvers: [sol n r u]: u is a result of the solver of slab n for
      the right-hand side r *)
  Variables (S0 S1 : solver).
  Definition Sn (n : nat) : solver := if Nat.eqb n 0 then S0 else S1.
  Variable sol : nat -> vec -> vec -> Prop.
  Hypothesis Hsol : forall n r w u, Sn n r w = Ok u -> sol n r u.

  (** X on slab n is a solution for the part of b on the slab plus what slab
      n-1 hands over *)
  Variable carry : nat -> vec -> vec -> field -> R.
  Definition carryX (n : nat) (X : field) (Y : field) : R := carry n (X 0%nat (n * nq - 1)%nat) (X 1%nat (n * nq - 1)%nat) Y.
  Hypothesis carry_ext : forall n a b a' b' Y Y', veq (d_dim D Vp) a a' -> veq (d_dim D Vp) b b' ->
    feq D 4 (nc_pre c) Y Y' -> carry n a b Y = carry n a' b' Y'.
  Hypothesis carry_first : forall a b a' b' Y, carry 0 a b Y = carry 0 a' b' Y.
  Hypothesis carry_zero : forall n a b, carry n a b (fun _ _ _ => 0) = 0.

  Definition slab_rhs (b : vec) (n : nat) (X : field) (r : vec) : Prop :=
    forall j i l, (j < 4)%nat -> (i < nc_pre c j)%nat -> (l < d_dim D (spc j))%nat ->
    field_of Lp r j i l = field_of Lf b j (n * ntime c j + i)%nat l + carryX n X (field_of Lp (unitv (dof Lp j i l))).
  Definition slab_done (b : vec) (n : nat) (X : field) : Prop :=
    exists r u, slab_rhs b n X r /\ sol n r u
      /\ feq D 4 (nc_pre c) (restr (ntime c) n X) (field_of Lp u).

  (** components of X on slab m are those of X' *)
  Definition same_slab (m : nat) (X X' : field) : Prop :=
    forall j i l, (j < 4)%nat -> (i < nc_pre c j)%nat -> (l < d_dim D (spc j))%nat ->
    X j (m * ntime c j + i)%nat l = X' j (m * ntime c j + i)%nat l.
  Lemma last_in n j : (0 < n)%nat -> (j < 2)%nat -> ((n - 1) * ntime c j + c_q c = n * nq - 1)%nat.
  Proof. intros Hn Hj. unfold ntime, sto. destruct (Nat.ltb_spec j 2); [nia|lia]. Qed.
  Lemma carryX_ext n X X' Y : (0 < n -> same_slab (n - 1) X X')%nat -> carryX n X Y = carryX n X' Y.
  Proof.
    intro H1. unfold carryX. destruct (Nat.eq_dec n 0) as [->|Hn]; [apply carry_first|].
    apply carry_ext; [| |apply feq_refl]; intros k Hk.
    + rewrite <- (last_in n 0) by lia. apply H1; [lia|lia| |exact Hk]. unfold nc_pre, ntime, sto; cbn; lia.
    + rewrite <- (last_in n 1) by lia. apply H1; [lia|lia| |exact Hk]. unfold nc_pre, ntime, sto; cbn; lia.
  Qed.
  Lemma slab_done_ext b n X X' : (0 < n -> same_slab (n - 1) X X')%nat ->
    same_slab n X X' -> slab_done b n X -> slab_done b n X'.
  Proof.
    intros H1 H2 [r [u [Hr [Hu Hx]]]]. exists r, u. split; [|split; [exact Hu|]].
    - intros j i l Hj Hi Hl. rewrite (Hr j i l) by assumption. f_equal. apply carryX_ext. exact H1.
    - intros j i l Hj Hi Hl. unfold restr. rewrite <- H2 by assumption. apply Hx; assumption.
  Qed.

  (** ** Pieces of the loop body *)
  Lemma emb_hyps n : (n < c_N c)%nat ->
    (forall j i, In (j, i) (slab_idx c) -> (j < 4)%nat /\ (i < nc_pre c j)%nat) /\
    (forall j i, In (j, i) (slab_idx c) -> (up_slab c n j i < nc_full c j)%nat) /\
    (forall j i i', In (j, i) (slab_idx c) -> In (j, i') (slab_idx c) -> up_slab c n j i = up_slab c n j i' -> i = i').
  Proof.
    intro Hn. split; [|split].
    - intros j i H. apply in_slab_idx in H. exact H.
    - intros j i H. apply up_slab_lt; auto.
    - intros j i i' _ _ H. unfold up_slab in H. lia.
  Qed.
  (** b_rhs_pre += part of b on slab n *)
  Lemma add_b n b r j i l : (n < c_N c)%nat -> (j < 4)%nat -> (i < nc_pre c j)%nat -> (l < d_dim D (spc j))%nat ->
    field_of Lp (move true Lp Lf (slab_pairs c (cntn c n)) b r) j i l
    = field_of Lp r j i l + field_of Lf b j (n * ntime c j + i)%nat l.
  Proof.
    intros Hn Hj Hi Hl. destruct (emb_hyps n Hn) as [A1 [A2 A3]]. rewrite slab_pairs_emb.
    rewrite (copy_in_spec D 4 4 (nc_full c) (nc_pre c) Lf Lp (eo_f _ HE) (eo_p _ HE) (up_slab c n) (slab_idx c) A1
      (nodup_slab_idx c) (le_n 4) A2 true b r j i l).
    - reflexivity.
    - apply in_slab_idx. auto.
    - exact Hl.
  Qed.
  (** x_sol[slab n] = uh_pre *)
  Lemma out_hit n u x j i l : (n < c_N c)%nat -> (j < 4)%nat -> (i < nc_pre c j)%nat -> (l < d_dim D (spc j))%nat ->
    field_of Lf (move false Lf Lp (flip_pairs (slab_pairs c (cntn c n))) u x) j (n * ntime c j + i)%nat l
    = field_of Lp u j i l.
  Proof.
    intros Hn Hj Hi Hl. destruct (emb_hyps n Hn) as [A1 [A2 A3]]. rewrite slab_pairs_emb.
    change (n * ntime c j + i)%nat with (up_slab c n j i).
    rewrite (copy_out_hit D 4 4 (nc_full c) (nc_pre c) Lf Lp (eo_f _ HE) (eo_p _ HE) (up_slab c n) (slab_idx c) A1
      (nodup_slab_idx c) (le_n 4) A2 A3 false u x j i l); [ring|apply in_slab_idx; auto|exact Hl].
  Qed.
  Lemma out_miss n m u x : (n < c_N c)%nat -> (m < c_N c)%nat -> m <> n ->
    same_slab m (field_of Lf (move false Lf Lp (flip_pairs (slab_pairs c (cntn c n))) u x)) (field_of Lf x).
  Proof.
    intros Hn Hm Hne j i l Hj Hi Hl. destruct (emb_hyps n Hn) as [A1 [A2 A3]]. rewrite slab_pairs_emb.
    apply (copy_out_miss D 4 4 (nc_full c) (nc_pre c) Lf Lp (eo_f _ HE) (up_slab c n) (slab_idx c) A1 (le_n 4) A2); auto.
    - unfold nc_full, nc_pre in *. nia.
    - intros i' Hi' H. apply in_slab_idx in Hi'. destruct Hi' as [_ Hi']. unfold up_slab, nc_pre in *.
      apply Hne. assert (m * ntime c j <= n * ntime c j + i' /\ n * ntime c j <= m * ntime c j + i)%nat by lia. nia.
  Qed.

  (** invariant: slabs before n are solved; the right-hand side is intact on
      slabs n and later (also when b and x are the same vector); [handed]
      describes the data that slab n-1 leaves in the object *)
  Variable handed : nat -> state -> Prop.
  Definition inv (s0 : state) (b x n : nat) (s : state) : Prop :=
    scm s0 s /\ (forall k, k <> x -> s_heap s k = s_heap s0 k)
    /\ (forall m, (n <= m < c_N c)%nat -> same_slab m (field_of Lf (s_heap s x)) (field_of Lf (s_heap s0 x)))
    /\ (forall m, (m < n)%nat -> slab_done (s_heap s0 b) m (field_of Lf (s_heap s x)))
    /\ handed n s.
  Definition fails (s0 : state) (x n : nat) (e : exn) (s : state) : Prop :=
    scm s0 s /\ (forall k, k <> x -> s_heap s k = s_heap s0 k) /\ exists r w, Sn n r w = Err e.

  Lemma same_b s0 b x n s m : inv s0 b x n s -> (n <= m < c_N c)%nat ->
    same_slab m (field_of Lf (s_heap s b)) (field_of Lf (s_heap s0 b)).
  Proof.
    intros [_ [H1 [H2 _]]] Hm. destruct (Nat.eq_dec b x) as [->|Hb]; [apply H2; exact Hm|].
    rewrite (H1 b Hb). intros j i l _ _ _. reflexivity.
  Qed.
  Lemma same_trans m X Y Z : same_slab m X Y -> same_slab m Y Z -> same_slab m X Z.
  Proof. intros H1 H2 j i l Hj Hi Hl. rewrite H1, H2 by assumption. reflexivity. Qed.
  Lemma same_sym m X Y : same_slab m X Y -> same_slab m Y X.
  Proof. intros H1 j i l Hj Hi Hl. rewrite H1 by assumption. reflexivity. Qed.

  (** after the solve, with right-hand side r' = b on the slab + carry *)
  Lemma solved_step s0 b x n s r u w :
    inv s0 b x n s -> (n < c_N c)%nat ->
    slab_rhs (s_heap s0 b) n (field_of Lf (s_heap s x)) r ->
    Sn n r w = Ok u ->
    let x' := move false Lf Lp (flip_pairs (slab_pairs c (cntn c n))) u (s_heap s x) in
    (forall m, (S n <= m < c_N c)%nat -> same_slab m (field_of Lf x') (field_of Lf (s_heap s0 x)))
    /\ (forall m, (m < S n)%nat -> slab_done (s_heap s0 b) m (field_of Lf x'))
    /\ (forall j l, (j < 2)%nat -> (l < d_dim D Vp)%nat -> field_of Lf x' j (S n * nq - 1)%nat l = field_of Lp u j (c_q c) l).
  Proof.
    intros [Hs [Hk [Hm [Hq _]]]] Hn Hr Hu x'.
    assert (Hmiss : forall m, (m < c_N c)%nat -> m <> n -> same_slab m (field_of Lf x') (field_of Lf (s_heap s x)))
      by (intros m H1 H2; apply out_miss; assumption).
    split; [|split].
    - intros m Hm'. apply (same_trans m _ (field_of Lf (s_heap s x))); [apply Hmiss; lia|]. apply Hm. lia.
    - intros m Hm'. destruct (Nat.eq_dec m n) as [->|Hmn].
      + exists r, u. split; [|split; [apply (Hsol n r w u Hu)|]].
        * intros j i l Hj Hi Hl. rewrite Hr by assumption. f_equal. apply carryX_ext.
          intro Hn0. apply same_sym, Hmiss; lia.
        * intros j' i' l' Hj' Hi' Hl'. unfold restr, x'. apply out_hit; assumption.
      + apply (slab_done_ext _ _ (field_of Lf (s_heap s x))).
        * intro Hm0. apply same_sym, Hmiss; lia.
        * apply same_sym, Hmiss; lia.
        * apply Hq. lia.
    - intros j l Hj Hl.
      replace (S n * nq - 1)%nat with (n * ntime c j + c_q c)%nat
        by (unfold ntime, sto; destruct (Nat.ltb_spec j 2); lia).
      unfold x'. apply out_hit; [exact Hn|lia| |].
      + unfold nc_pre, ntime, sto. destruct (Nat.ltb_spec j 2); lia.
      + unfold spc. destruct (Nat.ltb_spec j 2); [exact Hl|lia].
  Qed.
End March.

(** * What one slab hands to the next *)
Section Carry.
  Variables (c : config) (D : disc) (gj : R).
  Lemma en_ext dt a1 a2 b1 b2 a1' a2' b1' b2' :
    veq (d_dim D Vp) a1 a1' -> veq (d_dim D Vp) a2 a2' -> veq (d_dim D Vp) b1 b1' -> veq (d_dim D Vp) b2 b2' ->
    en D dt a1 a2 b1 b2 = en D dt a1' a2' b1' b2'.
  Proof.
    intros H1 H2 H3 H4. unfold en, L2, FormSpec.H1.
    rewrite (sp_ext D Dx WOne Val Vp Val Vp a1 b1 a1' b1' H1 H3).
    rewrite (sp_ext D Dx WOne Grad Vp Grad Vp a1 b1 a1' b1' H1 H3).
    rewrite (sp_ext D Dx WOne Val Vp Val Vp a2 b2 a2' b2' H2 H4). reflexivity.
  Qed.
  Lemma sp_0r m w o1 s1 o2 s2 a : sp D m w o1 s1 o2 s2 a (fun _ => 0) = 0.
  Proof.
    unfold sp, integ. apply Rsum_zero; intros p _. rewrite (Rsum_zero (seq 0 _)); [ring|].
    intros k _. unfold fev at 2. rewrite (Rsum_zero (seq 0 _)); [ring|]. intros; ring.
  Qed.
  Lemma en_0r dt a1 a2 : en D dt a1 a2 (fun _ => 0) (fun _ => 0) = 0.
  Proof. unfold en, L2, FormSpec.H1. rewrite !sp_0r. ring. Qed.

  (** improved: the scaled mass matrix *)
  Definition carryI (n : nat) (a b : vec) (Y : field) : R :=
    if Nat.ltb 0 n then gj * en D (c_dt c) a b (Y 0%nat 0%nat) (Y 1%nat 0%nat) else 0.
  (** the integral of the first dual component: the 1e-20 term of l_pre *)
  Definition ones (Y : field) : R := integ D Dx WOne 1 one_f (fev D Dx Vd Val (Y 2%nat 0%nat)).
  (** pre_time_marching: the linear form l_pre *)
  Definition carryP (n : nat) (a b : vec) (Y : field) : R :=
    reg * ones Y + (if Nat.ltb 0 n then gj * en D (c_dt c) a b (Y 0%nat 0%nat) (Y 1%nat 0%nat)
      + (if c_jumps c then L2 D Vp Vd b (Y 2%nat 0%nat) + L2 D Vp Vd a (Y 3%nat 0%nat) else 0) else 0).

  Lemma comp0 j : (0 < nc_pre c j)%nat.
  Proof. unfold nc_pre, ntime. lia. Qed.
  Lemma carryI_ext n a b a' b' Y Y' : veq (d_dim D Vp) a a' -> veq (d_dim D Vp) b b' ->
    feq D 4 (nc_pre c) Y Y' -> carryI n a b Y = carryI n a' b' Y'.
  Proof.
    intros Ha Hb HY. unfold carryI. destruct (Nat.ltb 0 n); [|reflexivity]. f_equal.
    apply en_ext; auto; intros l Hl; (apply HY; [lia|apply comp0|exact Hl]).
  Qed.
  Lemma carryI_first a b a' b' Y : carryI 0 a b Y = carryI 0 a' b' Y.
  Proof. reflexivity. Qed.
  Lemma carryI_zero n a b : carryI n a b (fun _ _ _ => 0) = 0.
  Proof. unfold carryI. destruct (Nat.ltb 0 n); [|reflexivity]. rewrite en_0r. ring. Qed.
  Lemma carryP_ext n a b a' b' Y Y' : veq (d_dim D Vp) a a' -> veq (d_dim D Vp) b b' ->
    feq D 4 (nc_pre c) Y Y' -> carryP n a b Y = carryP n a' b' Y'.
  Proof.
    intros Ha Hb HY. unfold carryP. f_equal.
    - f_equal. apply integ_ext; intros; [reflexivity|]. apply fev_ext; intros l Hl. (apply HY; [lia|apply comp0|exact Hl]).
    - destruct (Nat.ltb 0 n); [|reflexivity]. f_equal.
      + f_equal. apply en_ext; auto; intros l Hl; (apply HY; [lia|apply comp0|exact Hl]).
      + destruct (c_jumps c); [|reflexivity]. f_equal; apply sp_ext; auto; intros l Hl; (apply HY; [lia|apply comp0|exact Hl]).
  Qed.
  Lemma carryP_first a b a' b' Y : carryP 0 a b Y = carryP 0 a' b' Y.
  Proof. reflexivity. Qed.
  Lemma ones_0 : ones (fun _ _ _ => 0) = 0.
  Proof.
    unfold ones, integ. apply Rsum_zero; intros p _. rewrite (Rsum_zero (seq 0 _)); [ring|].
    intros k _. unfold fev. rewrite (Rsum_zero (seq 0 _)); [ring|]. intros; ring.
  Qed.
  Lemma carryP_zero n a b : carryP n a b (fun _ _ _ => 0) = 0.
  Proof.
    unfold carryP. rewrite ones_0. destruct (Nat.ltb 0 n); [|ring]. rewrite en_0r.
    destruct (c_jumps c); [|ring]. unfold L2. rewrite !sp_0r. ring.
  Qed.
  Lemma leval_pre n a b Y :
    leval D (pre_lform c gj (fev D Dx Vp Val a) (fev D Dx Vp Grad a) (fev D Dx Vp Val b) n) Y = carryP n a b Y.
  Proof.
    unfold pre_lform, carryP, ones, en, L2, FormSpec.H1, sp.
    destruct (Nat.ltb 0 n); [destruct (c_jumps c)|]; cbn [app]; unfold leval;
      rewrite ?Rsum_cons, ?Rsum_nil, ?leval_t_sum; cbn -[integ fev ncomp];
      unfold at_, Rsum; cbn -[integ fev ncomp]; change (ncomp D Val) with 1%nat; ring.
  Qed.
End Carry.
