(** Props_Tests.v -- property C78: what the project's own tests check, for all inputs.

    test_get_gmres_solution, test_slab_problem (2D and 3D), the skipped
    test_spacetime_solve and the tests of ProblemParameters, as modelled in TestsModel.v. *)
From Coq Require Import Reals List ZArith Lra Lia Bool String.
From Verif Require Import Base TimeModel TimeSpec TimeProofs QuadProofs FormModel FormSpec FormProofs
  SpaceTimeForms FormBlocks GuardProofs FormTime FormC12 FormSym FormStruct FormWf FormExample Props_Forms
  SpaceTimeModel SlabOps ApplyProofs MarchProofs MarchSum MarchLoops Lifecycle LifeProofs OpsProofs SetupOk LinAlg OpsExample WellPosed Injective Props_Ops
  GmresModel Props_Gmres Props_WellPosed Props_Stability Observe Props_Observe Krylov Delivered Props_Krylov
  DriverModel DriverConfig Props_Life Props_Solve Props_Config LeastSquares TestsModel.
Import ListNotations.
Open Scope R_scope.

(** * The matrices of test_gmres.py *)
Definition test_op (n : nat) (m : test_matrix) (x : vec) : vec :=
  match m with
  | IdentityMatrix => x
  | IdentityPlusCircularDiff => fun i => x i + x (Nat.modulo (i + (n - 1)) n) - x (Nat.modulo (i + 1) n)
  end.
Lemma roll_back n x i : (i < n)%nat -> roll n 1 x i = x (Nat.modulo (i + (n - 1)) n).
Proof.
  intros Hi. unfold roll. f_equal. rewrite <- (Nat2Z.id (Nat.modulo (i + (n - 1)) n)), Nat2Z.inj_mod. f_equal.
  replace (Z.of_nat (i + (n - 1))) with (Z.of_nat i - 1 + 1 * Z.of_nat n)%Z by lia. rewrite Z_mod_plus_full. reflexivity.
Qed.
Lemma roll_on n x i : (i < n)%nat -> roll n (-1) x i = x (Nat.modulo (i + 1) n).
Proof.
  intros Hi. unfold roll. f_equal. rewrite <- (Nat2Z.id (Nat.modulo (i + 1) n)), Nat2Z.inj_mod. f_equal. f_equal. lia.
Qed.
Lemma mod_back n i : (i < n)%nat -> Nat.modulo (i + (n - 1)) n = match i with O => (n - 1)%nat | S j => j end.
Proof.
  intros Hi. destruct i as [|j]; [apply Nat.mod_small; lia|].
  replace (S j + (n - 1))%nat with (j + 1 * n)%nat by lia. rewrite Nat.mod_add by lia. apply Nat.mod_small. lia.
Qed.
Lemma mod_on n i : (i < n)%nat -> Nat.modulo (i + 1) n = if Nat.eqb (S i) n then 0%nat else S i.
Proof.
  intros Hi. destruct (Nat.eqb_spec (S i) n) as [H|H].
  - replace (i + 1)%nat with n by lia. apply Nat.mod_same. lia.
  - replace (i + 1)%nat with (S i) by lia. apply Nat.mod_small. lia.
Qed.
(** shifting the index around the circle does not change a sum *)
Lemma sum_on n f : sumn n (fun i => f (Nat.modulo (i + 1) n)) = sumn n f.
Proof.
  destruct n as [|n]; [reflexivity|]. rewrite sumn_S, sumn_S_l. rewrite mod_on by lia. rewrite Nat.eqb_refl.
  rewrite (sumn_ext n (fun i => f (Nat.modulo (i + 1) (S n))) (fun i => f (S i))); [ring|].
  intros i Hi. rewrite mod_on by lia. destruct (Nat.eqb_spec (S i) (S n)); [lia|reflexivity].
Qed.
Lemma back_on n i : (i < n)%nat -> Nat.modulo (Nat.modulo (i + 1) n + (n - 1)) n = i.
Proof.
  intro Hi. rewrite mod_back by (apply Nat.mod_upper_bound; lia). rewrite mod_on by lia.
  destruct (Nat.eqb_spec (S i) n); [lia|reflexivity].
Qed.

Lemma test_op_lin n m : linop n (test_op n m).
Proof.
  destruct m; split; cbn [test_op].
  - intros v w H. exact H.
  - intros k1 v1 k2 v2 i _. reflexivity.
  - intros v w H i Hi. rewrite (H i Hi), (H (Nat.modulo (i + (n - 1)) n)), (H (Nat.modulo (i + 1) n)) by (apply Nat.mod_upper_bound; lia). reflexivity.
  - intros k1 v1 k2 v2 i _. ring.
Qed.
(** x . A x = x . x *)
Lemma test_op_dot n m x : vdot n x (test_op n m x) = vdot n x x.
Proof.
  destruct m; [reflexivity|]. unfold vdot, test_op.
  rewrite (sumn_ext n _ (fun i => x i * x i + x i * x (Nat.modulo (i + (n - 1)) n) - x i * x (Nat.modulo (i + 1) n))) by (intros; ring).
  rewrite Rsum_minus, Rsum_plus.
  replace (sumn n (fun i => x i * x (Nat.modulo (i + (n - 1)) n))) with (sumn n (fun i => x i * x (Nat.modulo (i + 1) n))); [ring|].
  rewrite <- (sum_on n (fun i => x i * x (Nat.modulo (i + (n - 1)) n))). apply sumn_ext. intros i Hi. rewrite back_on by exact Hi. ring.
Qed.

(** * Running the test *)
Definition test_tol (c : kspcfg) (n : nat) (b : vec) : R := Rmax (k_rtol c * sqrt (vdot n b b)) (k_atol c).
Definition test_out (n : nat) (m : test_matrix) (bv : vec) (p : ksp) (h : heap) : kout * heap :=
  pure_ksp (test_op n m) (fun v => v) n p (upd 2 (fun _ => 0) (upd 0 bv h)).

Lemma test_mult_run n m i o h : exists h', test_mult n m i o h = (Ok tt, h') /\ veq n (h' o) (test_op n m (h i)) /\ forall k, k <> o -> h' k = h k.
Proof.
  eexists. split; [destruct m; reflexivity|]. cbv beta. split.
  - intros l Hl. rewrite Nat.eqb_refl. destruct (Nat.ltb_spec l n) as [_|]; [|lia]. destruct m; [reflexivity|]. cbn [test_op].
    rewrite roll_back, roll_on by exact Hl. ring.
  - intros k Hk. destruct (Nat.eqb_spec k o); [contradiction|reflexivity].
Qed.
Lemma test_apply_run n i o h : exists h', test_apply n i o h = (Ok tt, h') /\ veq n (h' o) (h i) /\ forall k, k <> o -> h' k = h k.
Proof.
  eexists. split; [reflexivity|]. cbv beta. split.
  - intros l Hl. rewrite Nat.eqb_refl. destruct (Nat.ltb_spec l n) as [_|]; [reflexivity|lia].
  - intros k Hk. destruct (Nat.eqb_spec k o); [contradiction|reflexivity].
Qed.
Definition wr_heap (i : nat) (v : vec) : M heap unit := modify (fun h k => if Nat.eqb k i then v else h k).
Lemma ksp_run n m p : forall h g, (forall i, veq n (h i) (g i)) -> exists h',
  run_ksp heap (fun h i => h i) wr_heap (test_mult n m) (test_apply n) n p h = (Ok (fst (pure_ksp (test_op n m) (fun v => v) n p g)), h') /\
  (forall i, veq n (h' i) (snd (pure_ksp (test_op n m) (fun v => v) n p g) i)) /\
  forall j, spares j p -> h' j = h j.
Proof.
  induction p as [o|i v k IH|i k IH|i o k IH|i o k IH]; intros h g Hg; cbn [run_ksp pure_ksp spares].
  - exists h. auto.
  - unfold wr_heap at 1. rewrite bind_modify.
    destruct (IH (fun k => if Nat.eqb k i then v else h k) (upd i v g)) as [h' [H1 [H2 H3]]].
    + intro j. unfold upd. destruct (Nat.eqb_spec j i); [intros l _; reflexivity|apply Hg].
    + exists h'. split; [exact H1|]. split; [exact H2|]. intros j [Hj1 Hj2]. rewrite (H3 j Hj2). destruct (Nat.eqb_spec j i); [congruence|reflexivity].
  - rewrite bind_get, (first_n_ext n _ _ (Hg i)). destruct (IH (first_n n (g i)) h g Hg) as [h' [H1 [H2 H3]]].
    exists h'. split; [exact H1|]. split; [exact H2|]. intros j Hj. apply H3, Hj.
  - destruct (test_mult_run n m i o h) as [h1 [K1 [K2 K3]]]. rewrite (bind_ok _ _ _ _ _ K1).
    destruct (IH h1 (upd o (test_op n m (g i)) g)) as [h' [H1 [H2 H3]]].
    + intro j. unfold upd. destruct (Nat.eqb_spec j o) as [->|Hj]; [|rewrite K3 by exact Hj; apply Hg].
      intros l Hl. rewrite (K2 l Hl). apply (proj1 (test_op_lin n m)); [apply Hg|exact Hl].
    + exists h'. split; [exact H1|]. split; [exact H2|]. intros j [Hj1 Hj2]. rewrite (H3 j Hj2). apply K3. congruence.
  - destruct (test_apply_run n i o h) as [h1 [K1 [K2 K3]]]. rewrite (bind_ok _ _ _ _ _ K1).
    destruct (IH h1 (upd o (g i) g)) as [h' [H1 [H2 H3]]].
    + intro j. unfold upd. destruct (Nat.eqb_spec j o) as [->|Hj]; [|rewrite K3 by exact Hj; apply Hg].
      intros l Hl. rewrite (K2 l Hl). apply Hg, Hl.
    + exists h'. split; [exact H1|]. split; [exact H2|]. intros j [Hj1 Hj2]. rewrite (H3 j Hj2). apply K3. congruence.
Qed.

Lemma allclose_true n a b : allclose n a b = true <-> forall i, (i < n)%nat -> Rabs (a i - b i) <= 1e-8 + 1e-5 * Rabs (b i).
Proof.
  unfold allclose. rewrite forallb_forall. split.
  - intros H i Hi. specialize (H i ltac:(apply in_seq; lia)). destruct (Rle_dec _ _); [assumption|discriminate].
  - intros H i Hi. apply in_seq in Hi. destruct (Rle_dec _ _) as [|N]; [reflexivity|]. exfalso. apply N, H. lia.
Qed.
Lemma allclose_ext n a a' b b' : veq n a a' -> veq n b b' -> allclose n a b = allclose n a' b'.
Proof.
  intros H1 H2. apply eq_true_iff_eq. rewrite !allclose_true. split; intros H i Hi; specialize (H i Hi).
  - rewrite <- (H1 i Hi), <- (H2 i Hi). exact H.
  - rewrite (H1 i Hi), (H2 i Hi). exact H.
Qed.
(** the configuration of the test, and its outcome *)
Definition test_cfg : kspcfg := mkCfg "gmres" 1000 1e-7 1e-12 100 true true true true "refine_ifneeded" true.
Theorem C78_gmres_run : forall ext db n m bv h, no_override db -> spares 0 (ext test_cfg n 0%nat 2%nat) ->
  let out := test_out n m bv (ext test_cfg n 0%nat 2%nat) h in
  fst (test_get_gmres_solution ext db n m bv h) =
  if Z.ltb (o_reason (fst out)) 0 then Err PETScError else Ok (allclose n (test_op n m (snd out 2%nat)) bv).
Proof.
  intros ext db n m bv h HD HS out.
  assert (HA : accepted 100 None None None).
  { split; [cbn; lia|]. split; [left; cbn [default]; decimals; lra|]. split; [left; cbn [default]; decimals; lra|]. left. lia. }
  destruct (C49_configuration db 100 None None true None HD HA) as [db' HC].
  assert (HC' : configure db 100 None None true None = Ok (test_cfg, db')).
  { rewrite HC. unfold test_cfg, unless_default. cbn [default].
    destruct (Req_EM_T 1e-7 (-2)) as [Q|_]; [exfalso; revert Q; decimals; lra|].
    destruct (Req_EM_T 1e-12 (-2)) as [Q|_]; [exfalso; revert Q; decimals; lra|]. reflexivity. }
  unfold test_get_gmres_solution, write_array. rewrite bind_modify.
  set (h1 := fun k : nat => if Nat.eqb k 0 then fun l => if Nat.ltb l n then bv l else h k l else h k).
  destruct (ksp_run n m (ext test_cfg n 0%nat 2%nat) (fun k => if Nat.eqb k 2 then (fun _ => 0) else h1 k) (upd 2 (fun _ => 0) (upd 0 bv h))) as [h' [H1 [H2 H3]]].
  { intros i l Hl. unfold upd, h1. destruct (Nat.eqb i 2); [reflexivity|]. destruct (Nat.eqb i 0); [|reflexivity].
    destruct (Nat.ltb_spec l n); [reflexivity|lia]. }
  fold (test_out n m bv (ext test_cfg n 0%nat 2%nat) h) in H1, H2. fold out in H1, H2.
  specialize (H3 _ HS). cbn [Nat.eqb] in H3.
  assert (G : get_gmres_solution heap (fun h i => h i) wr_heap (test_mult n m) (test_apply n) ext db n 0 2 100 None None true None h1 =
    (if Z.ltb (o_reason (fst out)) 0 then Err PETScError else Ok (2%nat, o_res (fst out)), h')).
  { unfold get_gmres_solution. rewrite (bind_lift_ok _ _ _ _ HC'). unfold wr_heap at 1. rewrite bind_modify. cbn [fst].
    rewrite (bind_ok _ _ _ _ _ H1). destruct (Z.ltb _ 0); reflexivity. }
  fold wr_heap. destruct (Z.ltb (o_reason (fst out)) 0).
  - rewrite (bind_err _ _ _ _ _ G). reflexivity.
  - rewrite (bind_ok _ _ _ _ _ G). cbn [fst]. destruct (test_mult_run n m 2 1 h') as [h2 [K1 [K2 K3]]].
    rewrite (bind_ok _ _ _ _ _ K1), bind_get. cbn [ret fst]. f_equal. rewrite (K3 0%nat) by lia. apply allclose_ext.
    + intros l Hl. rewrite (K2 l Hl). apply (proj1 (test_op_lin n m)); [apply H2|exact Hl].
    + intros l Hl. rewrite H3. unfold h1. cbn [Nat.eqb]. destruct (Nat.ltb_spec l n); [reflexivity|lia].
Qed.

(** * The matrices have unique solutions; with one or two unknowns both are the identity *)
Theorem C78_matrices : forall n m b,
  (exists x, in_krylov n n (test_op n m) b x /\ veq n (test_op n m x) b) /\
  (forall x x', veq n (test_op n m x) b -> veq n (test_op n m x') b -> veq n x x') /\
  ((n <= 2)%nat -> forall x, veq n (test_op n m x) x).
Proof.
  intros n m b. pose proof (test_op_lin n m) as HL.
  assert (Inj : forall x, same n (test_op n m x) (fun _ => 0) -> same n x (fun _ => 0)).
  { intros x Hx. apply vdot_zero. rewrite <- (test_op_dot n m x). unfold vdot. apply Rsum_zero. intros i Hi. apply in_seq in Hi. rewrite Hx by lia. ring. }
  split; [|split].
  - destruct (underdetermined n (S n) (fun i j => Nat.iter j (test_op n m) b i) ltac:(lia)) as [d [Hd He]].
    destruct (krylov_relation n (test_op n m) HL Inj (S n) d b Hd) as [a Ha].
    + intros i Hi. unfold comb. rewrite <- (He i Hi). apply sumn_ext. intros. ring.
    + exists (comb n a (test_op n m) b). split; [exists a; intros l _; reflexivity|exact Ha].
  - intros x x' Hx Hx'. assert (Z : same n (fun i => 1 * x i + -1 * x' i) (fun _ => 0)).
    { apply Inj. intros i Hi. rewrite (proj2 HL 1 x (-1) x' i Hi), (Hx i Hi), (Hx' i Hi). ring. }
    intros i Hi. specialize (Z i Hi). cbv beta in Z. lra.
  - intros Hn x i Hi. destruct m; [reflexivity|]. cbn [test_op]. rewrite mod_back, mod_on by exact Hi.
    destruct n as [|[|[|n]]]; try lia; destruct i as [|[|i]]; try lia; cbn [Nat.eqb Nat.sub]; ring.
Qed.

(** * GMRES in exact arithmetic, stopped at the first step that meets the tolerance *)
Definition stops_at (n : nat) (A B : vec -> vec) (b : vec) (tol : R) (k : nat) (x : vec) : Prop :=
  min_residual n k A B b x /\ res2 n A B b x <= tol ^ 2 /\
  forall j y, (j < k)%nat -> in_krylov n j (fun v => B (A v)) (B b) y -> tol ^ 2 < res2 n A B b y.

(** the iterates exist for every linear operator *)
Theorem C78_iterates : forall n A B b, linop n (fun v => B (A v)) -> forall k, exists x, min_residual n k A B b x.
Proof.
  intros n A B b HK k. set (K := fun v => B (A v)) in *.
  destruct (least_squares n (fun i => Nat.iter (S i) K (B b)) k (B b)) as [a Ha].
  assert (E : forall a x, veq n x (fun l => sumn k (fun i => a i * Nat.iter i K (B b) l)) ->
    res2 n A B b x = sumn n (fun l => (B b l - sumn k (fun i => a i * Nat.iter (S i) K (B b) l)) ^ 2)).
  { intros a0 x Hx. unfold res2. apply sumn_ext. intros l Hl. f_equal. f_equal. fold (K x).
    rewrite (proj1 HK x _ Hx l Hl). apply (comb_apply n k a0 K (B b) HK l Hl). }
  exists (fun l => sumn k (fun i => a i * Nat.iter i K (B b) l)). split; [exists a; intros l _; reflexivity|].
  intros y [a' Ha']. rewrite (E a _ (fun l _ => eq_refl)), (E a' y Ha'). apply Ha.
Qed.
(** for the matrices of the test it stops after at most n steps, whatever the tolerance *)
Theorem C78_gmres_stops : forall n m b tol, exists k x, (k <= n)%nat /\ stops_at n (test_op n m) (fun v => v) b tol k x.
Proof.
  intros n m b tol. pose proof (test_op_lin n m) as HL.
  destruct (C78_matrices n m b) as [[x0 [Hx0 Hs0]] _].
  assert (Z0 : res2 n (test_op n m) (fun v => v) b x0 <= tol ^ 2).
  { replace (res2 n (test_op n m) (fun v => v) b x0) with 0; [apply pow2_ge_0|]. symmetry. unfold res2. apply Rsum_zero.
    intros i Hi. apply in_seq in Hi. rewrite Hs0 by lia. ring. }
  set (good := fun j => exists y, in_krylov n j (test_op n m) b y /\ res2 n (test_op n m) (fun v => v) b y <= tol ^ 2).
  assert (L : exists k, (k <= n)%nat /\ good k /\ forall j, (j < k)%nat -> ~ good j).
  { assert (G : forall k, good k -> exists k0, (k0 <= k)%nat /\ good k0 /\ forall j, (j < k0)%nat -> ~ good j).
    { intro k. induction k as [k IH] using (well_founded_induction lt_wf). intro Hk.
      destruct (Classical_Prop.classic (exists j, (j < k)%nat /\ good j)) as [[j [Hj Hg]]|Hn].
      - destruct (IH j Hj Hg) as [k0 [H1 H2]]. exists k0. split; [lia|exact H2].
      - exists k. split; [lia|]. split; [exact Hk|]. intros j Hj Hg. apply Hn. exists j. auto. }
    apply G. exists x0. auto. }
  destruct L as [k [Hk [[y [Hy1 Hy2]] Hn]]].
  destruct (C78_iterates n (test_op n m) (fun v => v) b HL k) as [x Hx]. exists k, x. split; [exact Hk|]. split; [exact Hx|]. split.
  - eapply Rle_trans; [apply (proj2 Hx); exact Hy1|exact Hy2].
  - intros j z Hj Hz. apply Rnot_le_lt. intro Hle. apply (Hn j Hj). exists z. auto.
Qed.

(** * The test passes *)
Lemma res2_bound n A b x t i : 0 <= t -> res2 n A (fun v => v) b x <= t ^ 2 -> (i < n)%nat -> Rabs (A x i - b i) <= t.
Proof.
  intros Ht H Hi. assert (G : (b i - A x i) ^ 2 <= t ^ 2).
  { eapply Rle_trans; [|exact H]. unfold res2. rewrite <- (sumn_delta n (fun j => (b j - A x j) ^ 2) i Hi).
    apply Rsum_le. intros j _. pose proof (pow2_ge_0 (b j - A x j)). unfold delta. destruct (Nat.eqb i j); lra. }
  apply Rsqr_incr_0; [|apply Rabs_pos|exact Ht]. rewrite <- Rsqr_abs. unfold Rsqr. lra.
Qed.
Lemma tol_pos n b : 0 < test_tol test_cfg n b.
Proof. unfold test_tol. eapply Rlt_le_trans; [|apply Rmax_r]. cbn [k_atol test_cfg]. decimals. lra. Qed.

(** What the external program promises when it reports convergence: the residual norm is at
    most max(rtol |b|, atol).  This is enough for every right-hand side whose entries are
    not small compared with its norm. *)
Theorem C78_gmres_test_partial : forall ext db n m bv h, no_override db -> spares 0 (ext test_cfg n 0%nat 2%nat) ->
  let out := test_out n m bv (ext test_cfg n 0%nat 2%nat) h in
  ((0 <= o_reason (fst out))%Z -> res2 n (test_op n m) (fun v => v) bv (snd out 2%nat) <= test_tol test_cfg n bv ^ 2) ->
  (forall i, (i < n)%nat -> test_tol test_cfg n bv <= 1e-8 + 1e-5 * Rabs (bv i)) ->
  fst (test_get_gmres_solution ext db n m bv h) = Ok true \/
  fst (test_get_gmres_solution ext db n m bv h) = Err PETScError /\ (o_reason (fst out) < 0)%Z.
Proof.
  intros ext db n m bv h HD HS out HR Hb. rewrite (C78_gmres_run ext db n m bv h HD HS). fold out.
  destruct (Z.ltb_spec (o_reason (fst out)) 0) as [H|H]; [right; auto|left]. f_equal. apply allclose_true. intros i Hi.
  eapply Rle_trans; [|apply Hb, Hi]. apply (res2_bound n _ bv _ (test_tol test_cfg n bv) i); [pose proof (tol_pos n bv); lra|apply HR, H|exact Hi].
Qed.
(** With the identity matrix, or with at most two unknowns, GMRES in exact arithmetic
    passes the test for every right-hand side. *)
Theorem C78_gmres_test_identity : forall ext db n m bv h k, no_override db -> spares 0 (ext test_cfg n 0%nat 2%nat) ->
  m = IdentityMatrix \/ (n <= 2)%nat ->
  let out := test_out n m bv (ext test_cfg n 0%nat 2%nat) h in
  (0 <= o_reason (fst out))%Z -> stops_at n (test_op n m) (fun v => v) bv (test_tol test_cfg n bv) k (snd out 2%nat) ->
  fst (test_get_gmres_solution ext db n m bv h) = Ok true /\ (k <= 1)%nat.
Proof.
  intros ext db n m bv h k HD HS Hm out HR [[Hk1 Hk2] [Hk3 Hk4]]. rewrite (C78_gmres_run ext db n m bv h HD HS). fold out.
  destruct (Z.ltb_spec (o_reason (fst out)) 0) as [H|_]; [lia|].
  assert (Id : forall x, veq n (test_op n m x) x).
  { destruct Hm as [->|Hn]; [intros x i _; reflexivity|]. apply (proj2 (proj2 (C78_matrices n m bv)) Hn). }
  assert (K1 : in_krylov n 1 (test_op n m) bv bv).
  { exists (fun _ => 1). intros l _. cbn [seq]. rewrite Rsum_cons, Rsum_nil. cbn [Nat.iter nat_rect]. ring. }
  assert (Z1 : res2 n (test_op n m) (fun v => v) bv bv = 0).
  { unfold res2. apply Rsum_zero. intros i Hi. apply in_seq in Hi. rewrite Id by lia. ring. }
  assert (Hk : (k <= 1)%nat).
  { destruct (Nat.le_gt_cases k 1); [assumption|]. exfalso. specialize (Hk4 1%nat bv ltac:(lia) K1). rewrite Z1 in Hk4.
    pose proof (pow2_ge_0 (test_tol test_cfg n bv)). lra. }
  split; [|exact Hk]. f_equal. apply allclose_true. intros i Hi.
  destruct (Nat.eq_dec k 1) as [->|Hk0].
  - assert (Z : res2 n (test_op n m) (fun v => v) bv (snd out 2%nat) <= 0 ^ 2) by (specialize (Hk2 bv K1); rewrite Z1 in Hk2; lra).
    pose proof (res2_bound n _ bv _ 0 i (Rle_refl 0) Z Hi). pose proof (Rabs_pos (bv i)). decimals. lra.
  - assert (k = 0)%nat as -> by lia. destruct Hk1 as [a Ha].
    assert (X0 : veq n (snd out 2%nat) (fun _ => 0)) by (intros l Hl; rewrite (Ha l Hl); cbn [seq]; apply Rsum_nil).
    (* |b| <= max(rtol |b|, atol) leaves |b| <= atol *)
    assert (N : vdot n bv bv <= test_tol test_cfg n bv ^ 2).
    { eapply Rle_trans; [|exact Hk3]. apply Req_le. unfold vdot, res2. apply sumn_ext. intros l Hl. rewrite Id, X0 by exact Hl. ring. }
    set (nb := sqrt (vdot n bv bv)) in *. assert (Nb : nb * nb = vdot n bv bv) by (apply sqrt_sqrt, vdot_pos).
    assert (P0 : 0 <= nb) by apply sqrt_pos.
    assert (Hb : nb <= 1e-12).
    { unfold test_tol in N. fold nb in N. cbn [k_rtol k_atol test_cfg] in N. rewrite <- Nb in N.
      destruct (Rle_dec nb 1e-12) as [|G]; [assumption|]. exfalso. apply Rnot_le_lt in G. revert N G. decimals. intros N G.
      assert (M1 : Rmax (1 / 10000000 * nb) (1 / 1000000000000) < nb) by (apply Rmax_lub_lt; lra).
      assert (M0 : 0 <= Rmax (1 / 10000000 * nb) (1 / 1000000000000)) by (eapply Rle_trans; [|apply Rmax_r]; lra).
      set (t := Rmax _ _) in *. clearbody t. nra. }
    assert (Bi : Rabs (bv i) <= nb).
    { apply Rsqr_incr_0; [|apply Rabs_pos|exact P0]. rewrite <- Rsqr_abs. unfold Rsqr. rewrite Nb.
      unfold vdot. rewrite <- (sumn_delta n (fun j => bv j * bv j) i Hi). apply Rsum_le. intros j _. pose proof (Rle_0_sqr (bv j)). unfold Rsqr in *.
      unfold delta. destruct (Nat.eqb i j); lra. }
    rewrite (Id _ i Hi), (X0 i Hi). replace (0 - bv i) with (- bv i) by ring. rewrite Rabs_Ropp. pose proof (Rabs_pos (bv i)). revert Hb. decimals. lra.
Qed.

(** * The test can fail: five unknowns
    With the right-hand side (0, 1, 0, 0, -1) + 1e-7 GMRES in exact arithmetic stops after
    four of five steps; every entry of the residual is about 4.5e-8, which is more than
    allclose accepts for the entries 1e-7 of the right-hand side. *)
Definition rhs_five : vec := fun i => match i with 1%nat => 1 | 4%nat => -1 | _ => 0 end + 1e-7.
(** entries of the powers of the matrix applied to (0, 1, 0, 0, -1) *)
Definition pow_five (i l : nat) : R :=
  nth l (nth i [[0; 1; 0; 0; -1]; [-2; 1; 1; 1; -1]; [-4; -2; 1; 3; 2]; [0; -7; -4; 2; 9]; [16; -3; -13; -11; 11]] []) 0.
Lemma iter_five i : (i <= 4)%nat -> veq 5 (Nat.iter i (test_op 5 IdentityPlusCircularDiff) rhs_five) (fun l => pow_five i l + 1e-7).
Proof.
  induction i as [|i IH]; intros Hi l Hl.
  - destruct l as [|[|[|[|[|l]]]]]; try lia; reflexivity.
  - specialize (IH ltac:(lia)). set (w := Nat.iter i (test_op 5 IdentityPlusCircularDiff) rhs_five) in *.
    change (Nat.iter (S i) (test_op 5 IdentityPlusCircularDiff) rhs_five) with (test_op 5 IdentityPlusCircularDiff w).
    cbn [test_op]. rewrite mod_back, mod_on by exact Hl.
    pose proof (IH 0%nat ltac:(lia)) as H0. pose proof (IH 1%nat ltac:(lia)) as H1. pose proof (IH 2%nat ltac:(lia)) as H2.
    pose proof (IH 3%nat ltac:(lia)) as H3. pose proof (IH 4%nat ltac:(lia)) as H4. clearbody w. cbv beta in *.
    destruct l as [|[|[|[|[|l]]]]]; try lia; cbn [Nat.eqb Nat.sub]; rewrite ?H0, ?H1, ?H2, ?H3, ?H4;
      destruct i as [|[|[|[|i]]]]; try lia; cbn [pow_five nth]; ring.
Qed.
Lemma sumn5 f : sumn 5 f = f 0%nat + f 1%nat + f 2%nat + f 3%nat + f 4%nat.
Proof. cbn [seq]. rewrite !Rsum_cons, Rsum_nil. ring. Qed.
(** the entry l of the residual of a combination *)
Definition res_five (k : nat) (a : nat -> R) (l : nat) : R := pow_five 0 l + 1e-7 - sumn k (fun i => a i * (pow_five (S i) l + 1e-7)).
Lemma res2_five k a x : (k <= 4)%nat -> veq 5 x (fun l => sumn k (fun i => a i * Nat.iter i (test_op 5 IdentityPlusCircularDiff) rhs_five l)) ->
  (forall l, (l < 5)%nat -> rhs_five l - test_op 5 IdentityPlusCircularDiff x l = res_five k a l) /\
  res2 5 (test_op 5 IdentityPlusCircularDiff) (fun v => v) rhs_five x = sumn 5 (fun l => res_five k a l ^ 2).
Proof.
  intros Hk Hx. pose proof (test_op_lin 5 IdentityPlusCircularDiff) as HL.
  assert (G : forall l, (l < 5)%nat -> rhs_five l - test_op 5 IdentityPlusCircularDiff x l = res_five k a l).
  { intros l Hl. rewrite (proj1 HL x _ Hx l Hl). pose proof (comb_apply 5 k a _ rhs_five HL l Hl) as CA. unfold comb in CA. rewrite CA. unfold res_five. f_equal.
    - exact (iter_five 0 ltac:(lia) l Hl).
    - apply sumn_ext. intros i Hi. rewrite (iter_five (S i) ltac:(lia) l Hl). reflexivity. }
  split; [exact G|]. unfold res2. apply sumn_ext. intros l Hl. rewrite G by exact Hl. reflexivity.
Qed.
Lemma tol_five : test_tol test_cfg 5 rhs_five ^ 2 = 1e-7 ^ 2 * (2 + 5 * 1e-7 ^ 2).
Proof.
  assert (V : vdot 5 rhs_five rhs_five = 2 + 5 * 1e-7 ^ 2) by (unfold vdot, rhs_five; rewrite sumn5; ring).
  unfold test_tol. rewrite V. cbn [k_rtol k_atol test_cfg]. set (e := 1e-7).
  assert (He : 1 / 10 ^ 7 = e) by (unfold e; decimals; lra).
  assert (Hs : 1 <= sqrt (2 + 5 * e ^ 2)).
  { rewrite <- sqrt_1. apply sqrt_le_1_alt. pose proof (pow2_ge_0 e). lra. }
  rewrite Rmax_left by (revert Hs; rewrite <- He; decimals; lra).
  rewrite Rpow_mult_distr, pow2_sqrt by (pose proof (pow2_ge_0 e); lra). reflexivity.
Qed.
(** before step four the residual is large *)
Lemma early_five k a : (k <= 3)%nat -> 10 / 143 <= sumn 5 (fun l => res_five k a l ^ 2).
Proof.
  intro Hk. set (a' := fun i => if Nat.ltb i k then a i else 0).
  assert (E : forall l, res_five k a l = res_five 3 a' l).
  { intro l. unfold res_five. f_equal. replace 3%nat with (k + (3 - k))%nat by lia. rewrite (seq_app k), Rsum_app.
    rewrite (Rsum_zero (seq (0 + k) (3 - k))).
    - rewrite Rplus_0_r. apply sumn_ext. intros i Hi. unfold a'. destruct (Nat.ltb_spec i k); [reflexivity|lia].
    - intros i Hi. apply in_seq in Hi. unfold a'. destruct (Nat.ltb_spec i k); [lia|ring]. }
  rewrite (sumn_ext 5 _ (fun l => res_five 3 a' l ^ 2)) by (intros; rewrite E; reflexivity). rewrite sumn5.
  set (e := 1e-7).
  assert (Z : 12 * res_five 3 a' 0 - 8 * res_five 3 a' 1 - 13 * res_five 3 a' 2 + 27 * res_five 3 a' 3 - 18 * res_five 3 a' 4 = 10).
  { unfold res_five. cbn [seq]. rewrite !Rsum_cons, !Rsum_nil. cbn [pow_five nth]. ring. }
  set (r0 := res_five 3 a' 0) in *. set (r1 := res_five 3 a' 1) in *. set (r2 := res_five 3 a' 2) in *. set (r3 := res_five 3 a' 3) in *. set (r4 := res_five 3 a' 4) in *.
  clearbody r0 r1 r2 r3 r4.
  assert (C : 0 <= (r0 - 12 / 143) ^ 2 + (r1 + 8 / 143) ^ 2 + (r2 + 13 / 143) ^ 2 + (r3 - 27 / 143) ^ 2 + (r4 + 18 / 143) ^ 2)
    by (repeat apply Rplus_le_le_0_compat; apply pow2_ge_0).
  lra.
Qed.
(** at step four it is about 5/11 * 1e-7 in every entry *)
Lemma four_five a : sumn 5 (fun l => res_five 4 a l ^ 2) <= 5 * (5 / 11 * 1e-7) ^ 2 -> 4 / 11 * 1e-7 <= res_five 4 a 0.
Proof.
  rewrite sumn5. set (e := 1e-7). assert (He : 0 < e <= 1 / 1000) by (unfold e; split; decimals; lra).
  set (s := 1 - (a 0%nat + a 1%nat + a 2%nat + a 3%nat)).
  set (p := fun l => res_five 4 a l - e * s).
  assert (R0 : forall l, res_five 4 a l = p l + e * s) by (intro l; unfold p; ring).
  assert (P4 : p 4%nat = - (p 0%nat + p 1%nat + p 2%nat + p 3%nat)).
  { unfold p, s, res_five. cbn [seq]. rewrite !Rsum_cons, !Rsum_nil. cbn [pow_five nth]. fold e. ring. }
  assert (Sl : s = 5 / 11 - 19 / 22 * p 0%nat + 6 / 11 * p 1%nat - 27 / 22 * p 2%nat - 1 / 22 * p 3%nat).
  { unfold p, s, res_five. cbn [seq]. rewrite !Rsum_cons, !Rsum_nil. cbn [pow_five nth]. fold e. field. }
  rewrite !R0, P4. set (p0 := p 0%nat) in *. set (p1 := p 1%nat) in *. set (p2 := p 2%nat) in *. set (p3 := p 3%nat) in *.
  clearbody p0 p1 p2 p3 e. clear R0 P4 p. clearbody s. intro H.
  set (Q := p0 ^ 2 + p1 ^ 2 + p2 ^ 2 + p3 ^ 2).
  assert (Q0 : 0 <= Q) by (unfold Q; repeat apply Rplus_le_le_0_compat; apply pow2_ge_0).
  set (d := 5 / 11 - s).
  assert (HQ : Q <= 5 * e ^ 2 * (d * (10 / 11 - d))).
  { pose proof (pow2_ge_0 (p0 + p1 + p2 + p3)). unfold Q, d. nra. }
  assert (He2 : 0 < e ^ 2) by (apply pow_lt; lra).
  assert (Hd : 0 <= d * (10 / 11 - d)) by nra.
  assert (Hd0 : 0 <= d <= 10 / 11) by nra.
  assert (C : d ^ 2 <= 3 * Q).
  { assert (D : d = 19 / 22 * p0 - 6 / 11 * p1 + 27 / 22 * p2 + 1 / 22 * p3) by (unfold d; rewrite Sl; ring).
    rewrite D. unfold Q. clear.
    assert (I : (19 / 22 * p0 - 6 / 11 * p1 + 27 / 22 * p2 + 1 / 22 * p3) ^ 2 =
      1235 / 484 * (p0 ^ 2 + p1 ^ 2 + p2 ^ 2 + p3 ^ 2)
      - ((-12 * p0 - 19 * p1) / 22) ^ 2 - ((27 * p0 - 19 * p2) / 22) ^ 2 - ((1 * p0 - 19 * p3) / 22) ^ 2
      - ((27 * p1 + 12 * p2) / 22) ^ 2 - ((1 * p1 + 12 * p3) / 22) ^ 2 - ((1 * p2 - 27 * p3) / 22) ^ 2) by field.
    rewrite I.
    pose proof (pow2_ge_0 ((-12 * p0 - 19 * p1) / 22)). pose proof (pow2_ge_0 ((27 * p0 - 19 * p2) / 22)). pose proof (pow2_ge_0 ((1 * p0 - 19 * p3) / 22)).
    pose proof (pow2_ge_0 ((27 * p1 + 12 * p2) / 22)). pose proof (pow2_ge_0 ((1 * p1 + 12 * p3) / 22)). pose proof (pow2_ge_0 ((1 * p2 - 27 * p3) / 22)).
    pose proof (pow2_ge_0 p0). pose proof (pow2_ge_0 p1). pose proof (pow2_ge_0 p2). pose proof (pow2_ge_0 p3). lra. }
  assert (HQ2 : Q <= 5 * e ^ 2 * d) by nra.
  assert (Dd : d <= 15 * e ^ 2) by nra.
  assert (HQ3 : Q <= (9 * e ^ 2) ^ 2) by nra.
  assert (B0 : Rabs p0 <= 9 * e ^ 2).
  { apply Rsqr_incr_0; [|apply Rabs_pos|lra]. rewrite <- Rsqr_abs. unfold Rsqr. unfold Q in HQ3.
    pose proof (pow2_ge_0 p1). pose proof (pow2_ge_0 p2). pose proof (pow2_ge_0 p3). lra. }
  assert (B1 : - (9 * e ^ 2) <= p0) by (revert B0; unfold Rabs; destruct (Rcase_abs p0); lra). assert (e ^ 2 <= e / 1000) by nra.
  assert (s = 5 / 11 - d) by (unfold d; ring). nra.
Qed.

Theorem C78_gmres_test_refuted : forall ext db h k, no_override db -> spares 0 (ext test_cfg 5%nat 0%nat 2%nat) ->
  let m := IdentityPlusCircularDiff in
  let out := test_out 5 m rhs_five (ext test_cfg 5%nat 0%nat 2%nat) h in
  (0 <= o_reason (fst out))%Z -> stops_at 5 (test_op 5 m) (fun v => v) rhs_five (test_tol test_cfg 5 rhs_five) k (snd out 2%nat) ->
  fst (test_get_gmres_solution ext db 5 m rhs_five h) = Ok false /\ k = 4%nat.
Proof.
  intros ext db h k HD HS m out HR [[Hk1 Hk2] [Hk3 Hk4]]. rewrite (C78_gmres_run ext db 5 m rhs_five h HD HS). fold m. fold out.
  destruct (Z.ltb_spec (o_reason (fst out)) 0) as [H|_]; [lia|]. rewrite tol_five in Hk3, Hk4.
  set (e := 1e-7) in *. assert (He : 0 < e <= 1 / 1000) by (unfold e; split; decimals; lra). assert (He2 : 0 < e ^ 2 <= 1 / 1000000) by (split; [apply pow_lt; lra|nra]).
  (* four steps are enough *)
  set (a0 := fun i : nat => nth i [14 / 11; -1; 4 / 11; -1 / 11] 0).
  set (x0 := fun l => sumn 4 (fun i => a0 i * Nat.iter i (test_op 5 m) rhs_five l)).
  assert (I0 : in_krylov 5 4 (test_op 5 m) rhs_five x0) by (exists a0; intros l _; reflexivity).
  assert (R0 : res2 5 (test_op 5 m) (fun v => v) rhs_five x0 = 5 * (5 / 11 * e) ^ 2).
  { destruct (res2_five 4 a0 x0 ltac:(lia) (fun l _ => eq_refl)) as [_ X0]. fold m in X0. rewrite X0, sumn5. unfold res_five. cbn [seq]. rewrite !Rsum_cons, !Rsum_nil.
    cbn [pow_five nth a0]. fold e. field. }
  assert (Hle : (k <= 4)%nat).
  { destruct (Nat.le_gt_cases k 4) as [|Hgt]; [assumption|]. exfalso. specialize (Hk4 4%nat x0 Hgt I0). rewrite R0 in Hk4. nra. }
  destruct Hk1 as [a Ha].
  destruct (res2_five k a (snd out 2%nat) Hle Ha) as [G1 G2]. fold m in G1, G2.
  destruct (Nat.eq_dec k 4) as [->|Hne].
  - split; [|reflexivity]. f_equal. destruct (allclose 5 (test_op 5 m (snd out 2%nat)) rhs_five) eqn:Ec; [exfalso|reflexivity].
    rewrite allclose_true in Ec. specialize (Ec 0%nat ltac:(lia)).
    assert (F : 4 / 11 * e <= res_five 4 a 0).
    { apply four_five. rewrite <- G2. fold e. rewrite <- R0. apply Hk2, I0. }
    rewrite <- G1 in F by lia. rewrite <- Rabs_Ropp in Ec. replace (- (test_op 5 m (snd out 2%nat) 0%nat - rhs_five 0%nat)) with (rhs_five 0%nat - test_op 5 m (snd out 2%nat) 0%nat) in Ec by ring.
    pose proof (Rle_abs (rhs_five 0%nat - test_op 5 m (snd out 2%nat) 0%nat)) as L.
    replace (rhs_five 0%nat) with e in Ec at 2 by (unfold rhs_five; fold e; ring). rewrite (Rabs_right e) in Ec by lra.
    set (r := rhs_five 0%nat - _) in *. clearbody r. unfold e in *. revert Ec F L. clear. decimals. intros. lra.
  - exfalso. pose proof (early_five k a ltac:(lia)) as B. rewrite <- G2 in B. nra.
Qed.

(** * test_slab_problem *)
Lemma test_ready P E g fitted ind heap next : good P E g -> g_jump g <> 0 ->
  let s0 := init_state fitted ind heap next in
  exists s1, test_setup E s0 = (Ok tt, s1) /\ reached E (s_om s0) s1 /\ prepared E s1 /\ s_brp s1 <> None.
Proof.
  intros HG Hj s0.
  assert (R1 : reached E (s_om s0) (after E [Setup_fes] s0)) by (exists fitted, ind, heap, next, [Setup_fes]; split; reflexivity).
  destruct (prepare_run P E g HG _ _ Hj (reached_wf _ _ _ R1) eq_refl) as [s1 [Hr [Hp [Hb _]]]].
  exists s1. split; [|split; [|split; [exact Hp|apply Hb; reflexivity]]].
  - unfold test_setup. assert (Es : setup_fes s0 = (Ok tt, after E [Setup_fes] s0)) by reflexivity.
    rewrite (bind_ok _ _ _ _ _ Es). exact Hr.
  - pose proof (proj2 (run_returns E Prepare _ _ eq_refl _ _ Hr)) as H. rewrite <- H. rewrite <- (after_one E Prepare). apply reached_after, R1.
Qed.
Lemma slab_getter E s A : s_slm s = Some A -> get_slab_matrix E s = (Ok (Some A), s).
Proof. intro H. unfold get_slab_matrix. rewrite bind_get, H. unfold bind, ret, get. rewrite H. reflexivity. Qed.
Lemma distance_same n a b : veq n a b -> small_distance n a b = true.
Proof.
  intro H. unfold small_distance. rewrite Rsum_zero.
  - rewrite sqrt_0. destruct (Rlt_dec 0 1e-4) as [|N]; [reflexivity|]. exfalso. apply N. decimals. lra.
  - intros i Hi. apply in_seq in Hi. rewrite H by lia. ring.
Qed.
(** The slab matrix has one solution for every right-hand side, so an exact solver finds
    the random vector again: the test passes for every vector, every mesh and every admissible
    setting. *)
Theorem C78_slab_test : forall P E g fitted ind hp next, good P E g -> env_ok E -> weights_ok P g ->
  let s0 := init_state fitted ind hp next in
  regular (e_D E) (s_om s0) -> definite (e_D E) Vp -> definite (e_D E) Vd ->
  exists s1 A, test_setup E s0 = (Ok tt, s1) /\ s_slm s1 = Some A /\
  forall lu i o c xv, exact (lay_dim (e_Lp E)) A (lu A) -> total (lu A) -> i <> o -> i <> c -> o <> c ->
  exists s2, test_slab_problem E lu i o c xv s1 = (Ok true, s2) /\ veq (lay_dim (e_Lp E)) (s_heap s2 c) xv.
Proof.
  intros P E g fitted ind hp next HG HE HW s0 HR Dp Dd.
  assert (Hj : g_jump g <> 0) by (destruct HW as [_ [_ [_ [HW _]]]]; lra).
  destruct (test_ready P E g fitted ind hp next HG Hj) as [s1 [H1 [H2 [H3 _]]]]. fold s0 in H1, H2.
  destruct H3 as [_ [Hs [_ [_ [_ [Hf _]]]]]]. destruct (s_slm s1) as [A|] eqn:EA; [|congruence]. destruct (s_fim s1) as [A0|] eqn:EA0; [|congruence].
  exists s1, A. split; [exact H1|]. split; [exact EA|]. intros lu i o c xv HX HT Hio Hic Hoc.
  destruct (wf_slab_mats E _ s1 A0 A (reached_wf _ _ _ H2) EA0 EA) as [_ [g' [Hg' [_ M1]]]].
  pose proof (construct_inv _ _ (gd_c _ _ _ HG)) as HB. rewrite (bu_stab _ _ HB), (gd_g _ _ _ HG) in Hg'. injection Hg' as <-.
  pose proof (slab_injective P (e_c E) g (s_om s0) (e_D E) (e_Lp E) (gd_c _ _ _ HG) (gd_T _ _ _ HG) (eo_p _ HE) HR Dp Dd HW) as Inj.
  change (MarchSum.fn E g (s_om s0) 1) with (slab_form (e_c E) g (s_om s0) true) in M1. rewrite <- M1 in Inj.
  set (np := lay_dim (e_Lp E)) in *.
  unfold test_slab_problem. rewrite (bind_ok _ _ _ _ _ (slab_getter E s1 A EA)), (bind_need _ _ _ A) by reflexivity.
  rewrite bind_modify, bind_get, bind_modify. fold np.
  set (s2 := put o (fun l => if Nat.ltb l np then mult np A (s_heap (put i xv s1) i) l else s_heap (put i xv s1) o l) (put i xv s1)).
  rewrite (bind_ok _ _ _ _ _ (slab_getter E s2 A EA)), (bind_need _ _ _ A) by reflexivity. rewrite bind_get.
  destruct (HT (s_heap s2 o) (s_heap s2 c)) as [u Hu]. rewrite (bind_lift_ok _ _ _ _ Hu), bind_modify, bind_get.
  specialize (HX _ _ _ Hu).
  assert (Ho : veq np (s_heap s2 o) (mult np A xv)).
  { intros l Hl. unfold s2. rewrite put_same, put_same. destruct (Nat.ltb_spec l np); [reflexivity|lia]. }
  assert (Hux : veq np u xv).
  { destruct (injective_unique np A Inj (s_heap s2 o)) as [x [_ Un]]. intros l Hl.
    rewrite (Un u HX l Hl). symmetry. apply Un; [|exact Hl]. intros k Hk. symmetry. apply Ho, Hk. }
  exists (put c u s2). assert (Hi : s_heap (put c u s2) i = xv).
  { rewrite put_other by congruence. unfold s2. rewrite put_other by congruence. apply put_same. }
  split; [|rewrite put_same; exact Hux]. unfold ret. rewrite Hi, put_same, distance_same by exact Hux. reflexivity.
Qed.
(** The numbers of the two test files. *)
Theorem C78_test_constants :
  p_q test_params_2d = 2%Z /\ p_qstar test_params_2d = 2%Z /\ p_k test_params_2d = 2%nat /\ p_kstar test_params_2d = 2%nat /\
  p_N test_params_2d = 2%nat /\ p_T test_params_2d = 1 /\ p_t test_params_2d = 0 /\
  p_q test_params_3d = 3%Z /\ p_qstar test_params_3d = 0%Z /\ p_k test_params_3d = 3%nat /\ p_kstar test_params_3d = 1%nat /\
  p_N test_params_3d = 2%nat /\ p_T test_params_3d = 1 /\ p_t test_params_3d = 0.
Proof. unfold test_params_2d, test_params_3d. cbn [driver_params p_q p_qstar p_k p_kstar p_N p_T p_t REF_LVL_TO_N nth]. repeat split; decimals; lra. Qed.
(** the two settings are admissible *)
Theorem C78_test_settings : forall P, P = test_params_2d \/ P = test_params_3d ->
  p_N P = 2%nat /\ p_jumps P = false /\ p_wp P = false /\ weights_ok P gamma_shipped /\
  exists c, construct P = Ok c /\ forall E, e_c E = c -> good P E gamma_shipped.
Proof.
  intros P HP.
  assert (H : p_N P = 2%nat /\ (0 <= p_q P <= 3)%Z /\ (0 <= p_qstar P <= 3)%Z /\ (1 <= p_k P)%nat /\ 0 < p_T P /\ p_stab P = STABS /\ p_jumps P = false /\ p_wp P = false).
  { destruct HP as [-> | ->]; cbn [test_params_2d test_params_3d driver_params p_N p_q p_qstar p_k p_T p_stab p_jumps p_wp default_parameters jumps_in_fw_problem well_posed];
      (repeat split; try lia); decimals; lra. }
  destruct H as [HN [Hq [Hs [Hk [HT [Hst [Hj Hw]]]]]]]. split; [exact HN|]. split; [exact Hj|]. split; [exact Hw|]. split.
  - unfold weights_ok, coupling. rewrite Hj. cbn [g_data g_dual g_primal g_jump gamma_shipped]. repeat split; decimals; lra.
  - destruct (construct_accepts P ltac:(lia) Hq Hs) as [c Hc]. exists c. split; [exact Hc|]. intros E <-.
    destruct stabs_gammas as [g [Hg ->]]. constructor; try assumption; try (rewrite Hst; exact Hg); cbn; lra.
Qed.

(** * test_spacetime_solve (marked as skipped) *)
(** pre_time_marching does not invert the operator that apply_spacetime_matrix applies:
    the vector it returns solves the preconditioner's system *)
Theorem C78_spacetime_solve : forall P E g fitted ind hp next, good P E g -> env_ok E -> weights_ok P g -> p_jumps P = false -> p_wp P = false ->
  let s0 := init_state fitted ind hp next in
  exists s1 A0 A1, test_setup E s0 = (Ok tt, s1) /\ s_fim s1 = Some A0 /\ s_slm s1 = Some A1 /\
  forall lu i o c xv, exact (lay_dim (e_Lp E)) A0 (lu A0) -> exact (lay_dim (e_Lp E)) A1 (lu A1) -> total (lu A0) -> total (lu A1) ->
  i <> o -> i <> c -> o <> c ->
  exists s2, test_spacetime_solve E lu i o c xv s1 = (Ok (small_distance (dimF E) (s_heap s2 c) xv), s2) /\
  forall I, (I < dimF E)%nat ->
    prec_matrix P E g (s_om s0) (s_heap s2 c) I = st_op P E g (s_om s0) xv I + 1e-20 * Props_Ops.tiny_rhs P (e_D E) (basF E I).
Proof.
  intros P E g fitted ind hp next HG HE HW Hj Hw s0.
  assert (Hjp : g_jump g <> 0) by (destruct HW as [_ [_ [_ [HW _]]]]; lra).
  destruct (test_ready P E g fitted ind hp next HG Hjp) as [s1 [H1 [H2 [H3 H4]]]]. fold s0 in H1, H2.
  set (om := s_om s0) in *.
  destruct H3 as [Hfe [Hs [Hco [_ [_ [Hf Hnj]]]]]]. pose proof (construct_inv _ _ (gd_c _ _ _ HG)) as HB.
  destruct (s_slm s1) as [A1|] eqn:EA; [|congruence]. destruct (s_fim s1) as [A0|] eqn:EA0; [|congruence].
  exists s1, A0, A1. split; [exact H1|]. split; [exact EA0|]. split; [exact EA|]. intros lu i o c xv X0 X1 T0 T1 Hio Hic Hoc.
  assert (Wp : c_wp (e_c E) = false) by (rewrite (bu_wp _ _ HB); exact Hw).
  (* product *)
  set (s2 := put i xv s1).
  assert (R2 : reached E om s2) by exact (reached_after E om s1 [Write i xv] H2).
  destruct (proj2 (C20_when E om s2 i o HE R2 Hio)) as [s3 E3].
  { split; [exact Hfe|]. split; [exact (Hnj Wp)|]. intros _. exact Hco. }
  destruct (C21_difference P E om s2 s3 i o (gd_c _ _ _ HG) (gd_T _ _ _ HG) HE R2 Hio E3) as [g1 [Hg1 [V3 K3]]].
  rewrite (gd_g _ _ _ HG) in Hg1. injection Hg1 as <-.
  assert (R3 : reached E om s3).
  { rewrite <- (step_run E (Apply i o) _ s2 s3 eq_refl E3). exact (reached_after E om s2 [Apply i o] R2). }
  assert (L3 : s_slm s3 = Some A1 /\ s_fim s3 = Some A0).
  { pose proof (after_later E om [Apply i o] s2 (reached_wf _ _ _ R2)) as L. change (after E [Apply i o] s2) with (snd (step E (Apply i o) s2)) in L.
    rewrite (step_run E (Apply i o) _ s2 s3 eq_refl E3) in L.
    pose proof (reached_wf _ _ _ R3) as W3. pose proof (reached_wf _ _ _ R2) as W2. destruct L, W3 as [], W2 as [].
    rewrite Wp in *. split; [apply l_slm; exact EA|]. rewrite (proj1 i_fi). apply l_njm. rewrite <- (proj1 i_fi0). exact EA0. }
  destruct L3 as [L31 L32].
  (* solvers *)
  set (s5 := w_sfi (Some (lu A0)) (w_ssl (Some (lu A1)) s3)).
  assert (R5 : reached E om s5) by exact (reached_after E om s3 [Set_slab (lu A1); Set_first (lu A0)] R3).
  assert (CM : can_march (lu A0) (lu A1) s5).
  { split; [change (s_fim s5) with (s_fim s3); congruence|]. split; [change (s_slm s5) with (s_slm s3); congruence|]. split; reflexivity. }
  assert (ES : exact_solvers E s5 (lu A0) (lu A1)).
  { split; intros A HA; [change (s_fim s5) with (s_fim s3) in HA|change (s_slm s5) with (s_slm s3) in HA]; [rewrite L32 in HA|rewrite L31 in HA]; injection HA as <-; assumption. }
  pose proof (C24_time_marching P E om s5 (lu A0) (lu A1) o c (gd_c _ _ _ HG) (gd_T _ _ _ HG) HE Hj R5 CM ES) as [K6 M6].
  destruct (pre_time_marching E o c s5) as [[[]|e] s6] eqn:E6; cbn [fst snd] in K6, M6.
  2: { exfalso. destruct M6 as [r [w [H|H]]]; [destruct (T0 r w) as [u Hu]|destruct (T1 r w) as [u Hu]]; congruence. }
  destruct M6 as [g2 [Hg2 M6]]. rewrite (gd_g _ _ _ HG) in Hg2. injection Hg2 as <-.
  exists s6.
  assert (Hi6 : s_heap s6 i = xv).
  { rewrite K6 by congruence. change (s_heap s5) with (s_heap s3). rewrite K3 by congruence. apply put_same. }
  split.
  - unfold test_spacetime_solve. rewrite bind_modify. fold s2. rewrite (bind_ok _ _ _ _ _ E3).
    rewrite (bind_ok _ _ _ _ _ (slab_getter E s3 A1 L31)), (bind_need _ _ _ A1) by reflexivity.
    unfold set_solver_slab. rewrite bind_modify. unfold get_slab_matrix_first. unfold bind at 1. rewrite bind_get.
    change (s_fim (w_ssl (Some (lu A1)) s3)) with (s_fim s3). rewrite L32. unfold ret at 1. rewrite (bind_need _ _ _ A0) by reflexivity.
    unfold set_solver_first. rewrite bind_modify. fold s5. rewrite (bind_ok _ _ _ _ _ E6), bind_get. unfold ret. rewrite Hi6. reflexivity.
  - intros I HI. unfold prec_matrix. rewrite (M6 I HI). f_equal. change (s_heap s5) with (s_heap s3). rewrite (V3 I HI). unfold s2. rewrite put_same. reflexivity.
Qed.

(** a jump between the first two slabs is not recovered *)
Definition jump_vector (P : params) (E : env) : vec := unitv (dof (e_Lf E) 1 (S (Z.to_nat (p_q P))) 0).
Lemma jump_row P E g om : construct P = Ok (e_c E) -> 0 < p_T P -> env_ok E -> p_jumps P = false -> p_wp P = false -> (2 <= p_N P)%nat ->
  (0 < d_dim (e_D E) Vp)%nat ->
  let y := jump_vector P E in let I := dof (e_Lf E) 1 (Z.to_nat (p_q P)) 0 in
  st_op P E g om y I - prec_matrix P E g om y I = - (g_jump g * (1 / (p_T P / INR (p_N P)) * L2 (e_D E) Vp Vp (unitv 0) (unitv 0))) /\ (I < dimF E)%nat.
Proof.
  intros HC HT HE Hj Hw HN Hd y I. pose proof (construct_inv _ _ HC) as HB. pose proof (dt_pos _ _ HC HT) as Hdt.
  assert (Ed : c_dt (e_c E) = p_T P / INR (p_N P)) by apply (bu_dt _ _ HB).
  pose proof (eo_f _ HE) as LK. set (q := Z.to_nat (p_q P)) in *. assert (Eq : c_q (e_c E) = q) by apply (bu_cq _ _ HB).
  assert (Nf : nc_full (e_c E) 1 = (S q * p_N P)%nat) by (unfold nc_full; rewrite (bu_NP _ _ HB), (ntime_p P (e_c E) HB 1) by lia; rewrite Eq; reflexivity).
  assert (B0 : (q < nc_full (e_c E) 1)%nat) by (rewrite Nf; nia).
  assert (B1 : (S q < nc_full (e_c E) 1)%nat) by (rewrite Nf; nia).
  assert (HI : (I < dimF E)%nat) by (apply (dof_lt (e_D E) 4 (nc_full (e_c E)) (e_Lf E)); [exact LK|lia|exact B0|exact Hd]).
  split; [|exact HI].
  rewrite (st_op_form P E g om HC HT HE Hj). change (prec_matrix P E g om y I) with (pre_op P E g om y I). rewrite (pre_op_form P E g om HC HE).
  do 2 rewrite (mult_assemble (e_D E) 4 (nc_full (e_c E)) (e_Lf E)) by (try exact LK; first [apply wf_del; assumption|apply wf_pre; assumption]).
  unfold del_form. rewrite eval_app, eval_gap.
  set (X := field_of (e_Lf E) y). set (Y := field_of (e_Lf E) (unitv I)).
  assert (FY : forall i l, (i < nc_full (e_c E) 1)%nat -> (l < d_dim (e_D E) Vp)%nat -> Y 1%nat i l = if Nat.eqb i q then unitv 0 l else 0).
  { intros i l Hi Hl. unfold Y, field_of, unitv. destruct (Nat.eqb_spec i q) as [->|Hn].
    - destruct (Nat.eq_dec l 0) as [->|Hl0]; [rewrite !delta_same; reflexivity|]. rewrite (delta_diff 0 l) by congruence. apply delta_diff. intro Q.
      apply (dof_inj (e_D E) 4 (nc_full (e_c E)) (e_Lf E)) in Q; try assumption; try lia.
    - apply delta_diff. intro Q. apply (dof_inj (e_D E) 4 (nc_full (e_c E)) (e_Lf E)) in Q; try assumption; try lia. }
  assert (FX : forall i l, (i < nc_full (e_c E) 1)%nat -> (l < d_dim (e_D E) Vp)%nat -> X 1%nat i l = if Nat.eqb i (S q) then unitv 0 l else 0).
  { intros i l Hi Hl. unfold X, y, jump_vector, field_of, unitv. fold q. destruct (Nat.eqb_spec i (S q)) as [->|Hn].
    - destruct (Nat.eq_dec l 0) as [->|Hl0]; [rewrite !delta_same; reflexivity|]. rewrite (delta_diff 0 l) by congruence. apply delta_diff. intro Q.
      apply (dof_inj (e_D E) 4 (nc_full (e_c E)) (e_Lf E)) in Q; try assumption; try lia.
    - apply delta_diff. intro Q. apply (dof_inj (e_D E) 4 (nc_full (e_c E)) (e_Lf E)) in Q; try assumption; try lia. }
  assert (FY0 : forall i l, (i < nc_full (e_c E) 0)%nat -> (l < d_dim (e_D E) Vp)%nat -> Y 0%nat i l = 0).
  { intros i l Hi Hl. unfold Y, field_of, unitv. apply delta_diff. intro Q. apply (dof_inj (e_D E) 4 (nc_full (e_c E)) (e_Lf E)) in Q; try assumption; try lia. }
  assert (Nf0 : nc_full (e_c E) 0 = (S q * p_N P)%nat) by (unfold nc_full; rewrite (bu_NP _ _ HB), (ntime_p P (e_c E) HB 0) by lia; rewrite Eq; reflexivity).
  assert (S0 : forall n, (n < c_N (e_c E))%nat -> gap_spec E g X Y n =
    delta 1 n * (- (g_jump g * (1 / c_dt (e_c E) * L2 (e_D E) Vp Vp (unitv 0) (unitv 0))))).
  { intros n Hn. rewrite (bu_NP _ _ HB) in Hn. unfold gap_spec. rewrite Eq. destruct n as [|n]; cbn [Nat.ltb Nat.leb].
    - rewrite (bu_wp _ _ HB), Hw, delta_diff by lia. ring.
    - assert (Bn : (S n * S q - 1 < S q * p_N P)%nat) by nia. assert (Bn' : (S n * S q < S q * p_N P)%nat) by nia.
      assert (Y0 : forall l, (l < d_dim (e_D E) Vp)%nat -> Y 0%nat (S n * S q - 1)%nat l = 0) by (intros; apply FY0; [rewrite Nf0; exact Bn|assumption]).
      unfold en, L2, H1. do 3 rewrite (sp_zero2 _ _ _ _ _ _ _ _ (Y 0%nat (S n * S q - 1)%nat) Y0).
      destruct (Nat.eq_dec n 0) as [->|Hn0].
      + rewrite delta_same. rewrite (sp_ext _ _ _ _ _ _ _ (jmp (e_c E) X 1 1) (Y 1%nat (1 * S q - 1)%nat) (unitv 0) (unitv 0)); [ring| |].
        * intros l Hl. unfold jmp, vsub, lastc. rewrite Eq. replace (1 * S q)%nat with (S q) by lia. replace (S q - 1)%nat with q by lia.
          rewrite !FX by (try rewrite Nf; try assumption; nia). rewrite Nat.eqb_refl. destruct (Nat.eqb_spec q (S q)); [lia|ring].
        * intros l Hl. rewrite FY by (try rewrite Nf; try assumption; nia). destruct (Nat.eqb_spec (1 * S q - 1) q); [reflexivity|lia].
      + rewrite delta_diff by lia. rewrite (sp_zero2 _ _ _ _ _ _ _ _ (Y 1%nat (S n * S q - 1)%nat)); [ring|].
        intros l Hl. rewrite FY by (try rewrite Nf; assumption). destruct (Nat.eqb_spec (S n * S q - 1) q); [nia|reflexivity]. }
  rewrite (sumn_ext (c_N (e_c E)) _ _ S0). rewrite sumn_delta by (rewrite (bu_NP _ _ HB); lia). rewrite Ed. ring.
Qed.

Lemma row_bound (M : matrix) n I : exists C, 0 <= C /\ forall e t, 0 <= t -> (forall j, (j < n)%nat -> Rabs (e j) <= t) -> Rabs (mult n M e I) <= C * t.
Proof.
  exists (sumn n (fun j => Rabs (M I j))). split; [apply Rsum_nonneg; intros; apply Rabs_pos|].
  intros e t Ht He. unfold mult. eapply Rle_trans; [apply Rsum_Rabs|]. rewrite <- Rsum_scal_r. apply Rsum_le. intros j Hj. apply in_seq in Hj.
  rewrite Rabs_mult. apply Rmult_le_compat_l; [apply Rabs_pos|apply He; lia].
Qed.
Lemma distance_entry n a b : small_distance n a b = true -> forall i, (i < n)%nat -> Rabs (a i - b i) <= 1e-4.
Proof.
  unfold small_distance. destruct (Rlt_dec _ _) as [H|]; [|discriminate]. intros _ i Hi. eapply Rle_trans; [|apply Rlt_le, H].
  rewrite <- sqrt_Rsqr_abs. apply sqrt_le_1_alt. unfold Rsqr. rewrite <- (sumn_delta n (fun j => (a j - b j) * (a j - b j)) i Hi).
  apply Rsum_le. intros j _. pose proof (Rle_0_sqr (a j - b j)). unfold Rsqr in *. unfold delta. destruct (Nat.eqb i j); lra.
Qed.
(** With two or more slabs the assertion of the skipped test is false for every vector
    moved far enough in the direction of a jump. *)
Theorem C78_spacetime_solve_refuted : forall P E g fitted ind hp next, good P E g -> env_ok E -> weights_ok P g -> p_jumps P = false -> p_wp P = false ->
  (2 <= p_N P)%nat -> (0 < d_dim (e_D E) Vp)%nat -> regular (e_D E) (s_om (init_state fitted ind hp next)) -> definite (e_D E) Vp ->
  exists s1 A0 A1, test_setup E (init_state fitted ind hp next) = (Ok tt, s1) /\ s_fim s1 = Some A0 /\ s_slm s1 = Some A1 /\
  forall xv, exists tau0, forall tau lu i o c, tau0 <= tau ->
  exact (lay_dim (e_Lp E)) A0 (lu A0) -> exact (lay_dim (e_Lp E)) A1 (lu A1) -> total (lu A0) -> total (lu A1) ->
  i <> o -> i <> c -> o <> c ->
  fst (test_spacetime_solve E lu i o c (fun l => xv l + tau * jump_vector P E l) s1) = Ok false.
Proof.
  intros P E g fitted ind hp next HG HE HW Hj Hw HN Hd HR Dp.
  destruct (C78_spacetime_solve P E g fitted ind hp next HG HE HW Hj Hw) as [s1 [A0 [A1 [H1 [H2 [H3 H4]]]]]].
  exists s1, A0, A1. split; [exact H1|]. split; [exact H2|]. split; [exact H3|]. intro xv.
  set (om := s_om (init_state fitted ind hp next)) in *. pose proof (gd_c _ _ _ HG) as HC. pose proof (gd_T _ _ _ HG) as HT.
  destruct (jump_row P E g om HC HT HE Hj Hw HN Hd) as [J1 HI]. cbv zeta in J1, HI.
  set (y := jump_vector P E) in *. set (I := dof (e_Lf E) 1 (Z.to_nat (p_q P)) 0) in *.
  set (k := g_jump g * (1 / (p_T P / INR (p_N P)) * L2 (e_D E) Vp Vp (unitv 0) (unitv 0))) in *.
  assert (Hk : 0 < k).
  { destruct HW as [_ [_ [_ [G _]]]]. apply Rmult_lt_0_compat; [exact G|]. pose proof (construct_inv _ _ HC) as HB. pose proof (dt_pos _ _ HC HT) as Hdt. rewrite (bu_dt _ _ HB) in Hdt.
    apply Rmult_lt_0_compat; [apply Rdiv_lt_0_compat; lra|].
    pose proof (L2_nonneg om (e_D E) HR Vp (unitv 0)) as [Q|Q]; [exact Q|]. exfalso. symmetry in Q.
    specialize (Dp _ Q 0%nat Hd). unfold unitv in Dp. rewrite delta_same in Dp. lra. }
  destruct (row_bound (assemble (e_D E) (e_Lf E) (pre_form E g om)) (dimF E) I) as [C [C0 HCb]].
  set (w := st_op P E g om xv I - prec_matrix P E g om xv I + 1e-20 * Props_Ops.tiny_rhs P (e_D E) (basF E I)).
  exists ((Rabs w + C * 1e-4 + 1) / k). intros tau lu i o c Ht X0 X1 T0 T1 N1 N2 N3.
  destruct (H4 lu i o c (fun l => xv l + tau * y l) X0 X1 T0 T1 N1 N2 N3) as [s2 [R V]]. rewrite R. cbn [fst]. f_equal.
  destruct (small_distance (dimF E) (s_heap s2 c) (fun l => xv l + tau * y l)) eqn:Ed; [exfalso|reflexivity].
  pose proof (distance_entry _ _ _ Ed) as B. specialize (V I HI).
  pose proof (st_op_lin P E g om HC HT HE Hj) as [LE1 LL1]. pose proof (pre_op_lin P E g om HC HE) as [LE2 LL2].
  set (x := s_heap s2 c) in *. set (xi := fun l => xv l + tau * y l) in *.
  assert (L1 : st_op P E g om xi I = st_op P E g om xv I + tau * st_op P E g om y I).
  { rewrite (LE1 xi (fun l => 1 * xv l + tau * y l)) by (try exact HI; intros l _; unfold xi; ring). rewrite (LL1 1 xv tau y I HI). ring. }
  assert (L2' : pre_op P E g om xi I = prec_matrix P E g om xv I + tau * prec_matrix P E g om y I).
  { rewrite (LE2 xi (fun l => 1 * xv l + tau * y l)) by (try exact HI; intros l _; unfold xi; ring). rewrite (LL2 1 xv tau y I HI). unfold pre_op, prec_matrix. ring. }
  assert (L3 : mult (dimF E) (assemble (e_D E) (e_Lf E) (pre_form E g om)) (fun l => x l - xi l) I = prec_matrix P E g om x I - pre_op P E g om xi I).
  { unfold dimF. rewrite <- (pre_op_form P E g om HC HE). rewrite (LE2 _ (fun l => 1 * x l + (-1) * xi l)) by (try exact HI; intros l _; ring).
    rewrite (LL2 1 x (-1) xi I HI). unfold pre_op, prec_matrix. ring. }
  pose proof (HCb (fun l => x l - xi l) 1e-4 ltac:(decimals; lra) B) as F. rewrite L3, V, L1, L2' in F.
  replace (st_op P E g om xv I + tau * st_op P E g om y I + 1e-20 * Props_Ops.tiny_rhs P (e_D E) (basF E I) - (prec_matrix P E g om xv I + tau * prec_matrix P E g om y I))
    with (w + tau * (st_op P E g om y I - prec_matrix P E g om y I)) in F by (unfold w; ring).
  rewrite J1 in F.
  assert (Ht' : Rabs w + C * 1e-4 + 1 <= tau * k).
  { apply (Rmult_le_compat_r k) in Ht; [|lra]. unfold Rdiv in Ht. rewrite Rmult_assoc, Rinv_l, Rmult_1_r in Ht by lra. exact Ht. }
  revert F Ht'. set (ct := C * 1e-4). clearbody ct w k. clear. intros F Ht'.
  assert (A : tau * k <= Rabs w + Rabs (w + tau * - k)).
  { replace (tau * k) with (w + - (w + tau * - k)) by ring. eapply Rle_trans; [apply Rle_abs|]. eapply Rle_trans; [apply Rabs_triang|]. rewrite (Rabs_Ropp (w + _)). lra. }
  lra.
Qed.

(** * test_spacetime_parameters.py: a parameter that is not given is False, a given one is kept *)
Theorem C78_parameters : forall jumps wp, let p := ProblemParameters_kw jumps wp in
  (jumps = None -> jumps_in_fw_problem p = false) /\ (forall b, jumps = Some b -> jumps_in_fw_problem p = b) /\
  (wp = None -> well_posed p = false) /\ (forall b, wp = Some b -> well_posed p = b).
Proof. intros [j|] [w|] p; repeat split; try discriminate; intros b Hb; injection Hb as <-; reflexivity. Qed.

(** * Non-vacuity *)
(** a solver that writes one vector and reports convergence *)
Definition writes (x : vec) (k : nat) : kspcfg -> nat -> nat -> nat -> ksp :=
  fun _ _ _ xa => KWrite xa x (Halt (mkOut 2 k vzero)).
(** the exact least-squares iterates fail the test for [rhs_five] and pass it for the identity *)
Example C78_gmres_nonvacuous : exists k x, (k <= 5)%nat /\ no_override (fun _ => None) /\
  spares 0 (writes x k test_cfg 5%nat 0%nat 2%nat) /\
  (let out := test_out 5 IdentityPlusCircularDiff rhs_five (writes x k test_cfg 5%nat 0%nat 2%nat) (fun _ => vzero) in
   (0 <= o_reason (fst out))%Z /\
   stops_at 5 (test_op 5 IdentityPlusCircularDiff) (fun v => v) rhs_five (test_tol test_cfg 5 rhs_five) k (snd out 2%nat)) /\
  fst (test_get_gmres_solution (writes x k) (fun _ => None) 5 IdentityPlusCircularDiff rhs_five (fun _ => vzero)) = Ok false.
Proof.
  destruct (C78_gmres_stops 5 IdentityPlusCircularDiff rhs_five (test_tol test_cfg 5 rhs_five)) as [k [x [Hk Hs]]].
  exists k, x. assert (N : no_override (fun _ => None)) by (repeat split).
  assert (Sp : spares 0 (writes x k test_cfg 5%nat 0%nat 2%nat)) by (cbn; split; [lia|exact Logic.I]).
  split; [exact Hk|]. split; [exact N|]. split; [exact Sp|].
  set (out := test_out 5 IdentityPlusCircularDiff rhs_five (writes x k test_cfg 5%nat 0%nat 2%nat) (fun _ => vzero)).
  assert (H1 : (0 <= o_reason (fst out))%Z) by (unfold out, test_out, writes; cbn [pure_ksp fst o_reason]; lia).
  assert (H2 : snd out 2%nat = x) by reflexivity.
  assert (H3 : stops_at 5 (test_op 5 IdentityPlusCircularDiff) (fun v => v) rhs_five (test_tol test_cfg 5 rhs_five) k (snd out 2%nat)) by (rewrite H2; exact Hs).
  split; [split; [exact H1|exact H3]|]. exact (proj1 (C78_gmres_test_refuted (writes x k) (fun _ => None) (fun _ => vzero) k N Sp H1 H3)).
Qed.
Lemma lu_pair n A0 A1 S0 S1 : exact n A0 S0 -> exact n A1 S1 -> total S0 -> total S1 ->
  exists lu : matrix -> solver, (exact n A0 (lu A0) /\ total (lu A0)) /\ exact n A1 (lu A1) /\ total (lu A1).
Proof.
  intros H0 H1 T0 T1.
  set (same := fun A : matrix => forallb (fun i => forallb (fun j => if Req_EM_T (A i j) (A0 i j) then true else false) (seq 0 n)) (seq 0 n)).
  assert (Sm : forall A, same A = true -> exact n A S0).
  { intros A HA b x u Hu J HJ. rewrite <- (H0 b x u Hu J HJ). unfold mult. apply Rsum_ext_in. intros j Hj. apply in_seq in Hj. f_equal.
    pose proof (proj1 (forallb_forall _ _) HA J ltac:(apply in_seq; lia)) as HB. pose proof (proj1 (forallb_forall _ _) HB j ltac:(apply in_seq; lia)) as HD. cbv beta in HD. destruct (Req_EM_T (A J j) (A0 J j)) as [Q|Q]; [exact Q|discriminate HD]. }
  exists (fun A => if same A then S0 else S1). split.
  - replace (same A0) with true; [split; assumption|]. symmetry. apply forallb_forall. intros i _. apply forallb_forall. intros j _.
    destruct (Req_EM_T (A0 i j) (A0 i j)); [reflexivity|contradiction].
  - destruct (same A1) eqn:Q; split; try assumption. apply Sm, Q.
Qed.
(** the concrete mesh exI with data everywhere: test_slab_problem passes for every input, the
    assertion of test_spacetime_solve fails for some *)
Example C78_slabs_nonvacuous : exists c s1 lu, let P := exP 3 2 5 false false in let E := exE exI c in
  good P E exG /\ env_ok E /\ weights_ok P exG /\ regular exI om1 /\ definite exI Vp /\ definite exI Vd /\ (0 < d_dim exI Vp)%nat /\
  test_setup E (init_state false om1 (fun _ => vzero) 5) = (Ok tt, s1) /\
  (forall xv, fst (test_slab_problem E lu 1 2 3 xv s1) = Ok true) /\
  (exists xv, fst (test_spacetime_solve E lu 1 2 3 xv s1) = Ok false).
Proof.
  destruct (exP_ok 3 2 5 false false) as [c Hc]; try lia. pose proof (construct_inv _ _ Hc) as HB.
  set (P := exP 3 2 5 false false) in *. set (E := exE exI c) in *.
  assert (HT : 0 < p_T P) by (cbn; lra).
  assert (HG : good P E exG) by apply (exE_good exI _ _ _ _ _ _ Hc).
  assert (HE : env_ok E) by apply exE_ok, (bu_N _ _ HB).
  assert (HW : weights_ok P exG).
  { unfold weights_ok, coupling, P. cbn [g_data g_dual g_primal g_jump exG p_jumps p_qstar exP].
    repeat split; lra. }
  assert (Hd : (0 < d_dim exI Vp)%nat) by (cbn; lia).
  assert (HF : controls_start P exI (energy_first P exG om1 exI) (1 / 400)).
  { pose proof (C72_full_data P c exG om1 exI 1 Hc HT exI_regular (exI_definite Vp) ltac:(cbn; lra) ltac:(cbn; lra) ltac:(lra)
      ltac:(intros; unfold om1; lra)) as F.
    replace (g_data exG * 1 * t_dt (tgrid P) ^ 2 / 16) with (1 / 400) in F; [exact F|]. cbn. field. }
  assert (HK : 4 * 1e-20 ^ 2 < 1 / 400 * g_dual exG) by (cbn [g_dual exG]; decimals; lra).
  destruct (test_ready P E exG false om1 (fun _ => vzero) 5 HG ltac:(cbn; lra)) as [s1 [Es [HR [Hp _]]]].
  destruct (C78_slab_test P E exG false om1 (fun _ => vzero) 5 HG HE HW exI_regular (exI_definite Vp) (exI_definite Vd)) as [t1 [B [Et [HB1 Hslab]]]].
  destruct (C78_spacetime_solve_refuted P E exG false om1 (fun _ => vzero) 5 HG HE HW eq_refl eq_refl ltac:(cbn; lia) Hd exI_regular (exI_definite Vp))
    as [u1 [A0 [A1 [Eu [HA0 [HA1 Href]]]]]].
  assert (t1 = s1) by congruence. assert (u1 = s1) by congruence. subst t1 u1. assert (B = A1) by congruence. subst B.
  destruct (C72_exact_solvers P E om1 s1 exG (1 / 400) Hc HT HE HR ltac:(congruence) ltac:(congruence) eq_refl exI_regular (exI_definite Vp) (exI_definite Vd) HW HF HK)
    as [S0 [S1 [[X0 X1] [T0 T1]]]].
  destruct (lu_pair _ A0 A1 S0 S1 (X0 A0 HA0) (X1 A1 HA1) T0 T1) as [lu [[L0 L0'] [L1 L1']]].
  exists c, s1, lu. cbv zeta. fold P. fold E. split; [exact HG|]. split; [exact HE|]. split; [exact HW|]. split; [exact exI_regular|].
  split; [exact (exI_definite Vp)|]. split; [exact (exI_definite Vd)|]. split; [exact Hd|]. split; [exact Es|]. split.
  - intro xv. destruct (Hslab lu 1%nat 2%nat 3%nat xv L1 L1' ltac:(lia) ltac:(lia) ltac:(lia)) as [s2 [-> _]]. reflexivity.
  - destruct (Href vzero) as [tau0 Ht]. eexists. apply (Ht tau0 lu 1%nat 2%nat 3%nat); try assumption; try lia. apply Rle_refl.
Qed.

Print Assumptions C78_gmres_run.
Print Assumptions C78_matrices.
Print Assumptions C78_iterates.
Print Assumptions C78_gmres_stops.
Print Assumptions C78_gmres_test_partial.
Print Assumptions C78_gmres_test_identity.
Print Assumptions C78_gmres_test_refuted.
Print Assumptions C78_slab_test.
Print Assumptions C78_test_settings.
Print Assumptions C78_spacetime_solve.
Print Assumptions C78_spacetime_solve_refuted.
Print Assumptions C78_parameters.
Print Assumptions C78_test_constants.
