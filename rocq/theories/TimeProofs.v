(** TimeProofs.v -- lemmas about TimeModel.v. *)
From Coq Require Import Reals List ZArith Lra Lia String.
From Coquelicot Require Import Coquelicot.
From Verif Require Import Base TimeModel TimeSpec.
Import ListNotations.
Open Scope R_scope.

Lemma is_derive_ext_R (f g : R -> R) (x l : R) :
  (forall t, f t = g t) -> is_derive f x l -> is_derive g x l.
Proof. intro H; apply is_derive_ext; exact H. Qed.

(** * Polynomials *)

Lemma peval_padd p : forall q x, peval (padd p q) x = peval p x + peval q x.
Proof.
  induction p as [|a p IH]; intros q x; [cbn; ring|].
  destruct q as [|b q]; cbn; [ring|]. rewrite IH; ring.
Qed.
Lemma peval_pscale c p x : peval (pscale c p) x = c * peval p x.
Proof. induction p as [|a p IH]; cbn; [ring|]. fold (pscale c p). rewrite IH; ring. Qed.
Lemma peval_psub p q x : peval (psub p q) x = peval p x - peval q x.
Proof. unfold psub; rewrite peval_padd, peval_pscale; ring. Qed.
Lemma peval_pmul p : forall q x, peval (pmul p q) x = peval p x * peval q x.
Proof.
  induction p as [|a p IH]; intros q x; [cbn; ring|].
  cbn [pmul peval]. rewrite peval_padd, peval_pscale. cbn [peval]. rewrite IH; ring.
Qed.

Lemma polyfun_cons a p t : polyfun (a :: p) t = a + t * polyfun p t.
Proof.
  unfold polyfun. cbn [List.length]. rewrite sumn_S_l. cbn [nth pow].
  rewrite <- Rsum_scal. f_equal; [ring|]. apply Rsum_ext; intro i. cbn; ring.
Qed.
Lemma peval_polyfun p t : peval p t = polyfun p t.
Proof.
  induction p as [|a p IH]; [reflexivity|].
  rewrite polyfun_cons, <- IH. reflexivity.
Qed.

Lemma is_derive_pdiff_from p : forall n x,
  is_derive (fun x => x ^ n * peval p x) x
    (match n with O => peval (pdiff p) x
     | S m => x ^ m * peval (pdiff_from n p) x end).
Proof.
  induction p as [|a p IH]; intros n x.
  - cbn. apply is_derive_ext_R with (f := fun _ => 0); [intro; ring|].
    replace (match n with 0%nat => 0 | S m => x ^ m * 0 end) with 0 by (destruct n; ring).
    apply (is_derive_const (V := R_NormedModule)).
  - apply is_derive_ext_R with (f := fun x => a * x ^ n + x ^ (S n) * peval p x).
    { intro t; cbn; ring. }
    specialize (IH (S n) x).
    replace (match n with 0%nat => _ | S m => _ end)
      with (a * (INR n * x ^ pred n) + x ^ n * peval (pdiff_from (S n) p) x).
    { apply (is_derive_plus (V := R_NormedModule)); [|exact IH].
      auto_derive; [exact I|]. ring. }
    destruct n as [|m]; cbn [pdiff pdiff_from peval pred].
    + cbn [INR pow]. ring.
    + rewrite <- !tech_pow_Rmult. ring.
Qed.
Lemma is_derive_peval p x : is_derive (peval p) x (peval (pdiff p) x).
Proof.
  apply is_derive_ext_R with (f := fun x => x ^ 0 * peval p x); [intro; cbn; ring|].
  apply (is_derive_pdiff_from p 0).
Qed.
Lemma ex_derive_peval p x : ex_derive (peval p) x.
Proof. eexists; apply is_derive_peval. Qed.
Lemma continuous_peval p x : continuous (peval p) x.
Proof. apply (ex_derive_continuous (V := R_NormedModule)), ex_derive_peval. Qed.
Lemma Derive_peval p x : Derive (peval p) x = peval (pdiff p) x.
Proof. apply is_derive_unique, is_derive_peval. Qed.

(** antiderivative *)
Fixpoint panti_from (n : nat) (p : poly) : poly :=
  match p with [] => [] | c :: p' => (c / INR (S n)) :: panti_from (S n) p' end.
Definition panti (p : poly) : poly := 0 :: panti_from 0 p.
Lemma pdiff_panti_from p : forall n, pdiff_from (S n) (panti_from n p) = p.
Proof.
  induction p as [|a p IH]; intro n; [reflexivity|].
  cbn [panti_from pdiff_from]. rewrite IH. f_equal. field.
  apply not_0_INR; lia.
Qed.
Lemma pdiff_panti p : pdiff (panti p) = p.
Proof. apply pdiff_panti_from. Qed.
Lemma is_RInt_peval p a b : is_RInt (peval p) a b (peval (panti p) b - peval (panti p) a).
Proof.
  apply (is_RInt_derive (V := R_CompleteNormedModule) (peval (panti p)) (peval p)).
  - intros x _. rewrite <- (pdiff_panti p) at 2. apply is_derive_peval.
  - intros x _. apply continuous_peval.
Qed.
Lemma pint_from_panti p : forall n, pint_from n p = peval (panti_from n p) 1.
Proof.
  induction p as [|a p IH]; intro n; cbn [pint_from panti_from peval]; [reflexivity|].
  rewrite IH; ring.
Qed.
Lemma is_RInt_pint p : is_RInt (peval p) 0 1 (pint p).
Proof.
  replace (pint p) with (peval (panti p) 1 - peval (panti p) 0).
  - apply is_RInt_peval.
  - unfold panti, pint. rewrite pint_from_panti. cbn; ring.
Qed.
Lemma RInt_pint p : RInt (peval p) 0 1 = pint p.
Proof. apply (is_RInt_unique (V := R_CompleteNormedModule)), is_RInt_pint. Qed.
Lemma RInt_pint_ext f p : (forall x, f x = peval p x) -> RInt f 0 1 = pint p.
Proof.
  intro H. rewrite <- RInt_pint. apply RInt_ext. intros x _; apply H.
Qed.

(** * The tables *)

Lemma basis_dom q r : basis_in_time q = Ok r -> (q = 0 \/ q = 1 \/ q = 2 \/ q = 3)%Z.
Proof. destruct q as [|[[p|p|]|[p|p|]|]|p]; cbn; intro H; try discriminate; auto. Qed.
Lemma basis_sym_dom q r : basis_sym q = Ok r -> (q = 0 \/ q = 1 \/ q = 2 \/ q = 3)%Z.
Proof. destruct q as [|[[p|p|]|[p|p|]|]|p]; cbn; intro H; try discriminate; auto. Qed.

Lemma basis_sym_ok q : (0 <= q <= 3)%Z ->
  exists phis, basis_sym q = Ok phis /\ List.length phis = Z.to_nat (q + 1).
Proof.
  intro H. assert (Hq : (q = 0 \/ q = 1 \/ q = 2 \/ q = 3)%Z) by lia.
  destruct Hq as [->|[->|[->| ->]]]; eexists; split; reflexivity.
Qed.
Lemma basis_ok q : (0 <= q <= 3)%Z ->
  exists phis dphis, basis_in_time q = Ok (phis, dphis)
    /\ List.length phis = Z.to_nat (q + 1) /\ List.length dphis = Z.to_nat (q + 1).
Proof.
  intro H. assert (Hq : (q = 0 \/ q = 1 \/ q = 2 \/ q = 3)%Z) by lia.
  destruct Hq as [->|[->|[->| ->]]]; eexists; eexists; repeat split; reflexivity.
Qed.

(** eliminate the order and the index of a basis function *)
Ltac order_cases H :=
  let D := fresh in
  pose proof H as D; first [apply basis_dom in D | apply basis_sym_dom in D];
  destruct D as [->|[->|[->| ->]]]; cbv [basis_in_time basis_sym] in H; injection H; clear H; intros; subst.

(** callable and symbolic tables agree *)
Lemma tables_agree q phis dphis sphis :
  basis_in_time q = Ok (phis, dphis) -> basis_sym q = Ok sphis ->
  forall i t, fn phis i t = peval (nth i sphis []) t.
Proof.
  intros H Hs i t. order_cases H; cbv [basis_sym] in Hs; injection Hs; clear Hs; intros; subst;
  destruct i as [|[|[|[|i]]]]; cbn; try field; destruct i; cbn; field.
Qed.
Lemma dtables_agree q phis dphis sphis :
  basis_in_time q = Ok (phis, dphis) -> basis_sym q = Ok sphis ->
  forall i t, fn dphis i t = peval (pdiff (nth i sphis [])) t.
Proof.
  intros H Hs i t. order_cases H; cbv [basis_sym] in Hs; injection Hs; clear Hs; intros; subst;
  destruct i as [|[|[|[|i]]]]; cbn; try field; destruct i; cbn; field.
Qed.

(** C01 *)
Lemma basis_lagrange q phis dphis :
  basis_in_time q = Ok (phis, dphis) ->
  forall i t, (i <= Z.to_nat q)%nat -> fn phis i t = lagrange (Z.to_nat q) i t.
Proof.
  intros H i t Hi. order_cases H; cbv [Z.to_nat Pos.to_nat Pos.iter_op Init.Nat.add] in *;
  destruct i as [|[|[|[|i]]]]; try lia; unfold fn, lagrange, node; cbn; field.
Qed.
Lemma basis_nodal q phis dphis :
  basis_in_time q = Ok (phis, dphis) -> (1 <= q)%Z ->
  forall i j, (i <= Z.to_nat q)%nat -> (j <= Z.to_nat q)%nat ->
  fn phis i (node (Z.to_nat q) j) = if Nat.eqb i j then 1 else 0.
Proof.
  intros H Hq i j Hi Hj. order_cases H; try lia;
  cbv [Z.to_nat Pos.to_nat Pos.iter_op Init.Nat.add] in *;
  destruct i as [|[|[|[|i]]]]; try lia;
  destruct j as [|[|[|[|j]]]]; try lia; unfold fn, node; cbn; field.
Qed.

(** C02 *)
Lemma basis_reproduces q phis dphis :
  basis_in_time q = Ok (phis, dphis) ->
  forall p t, (List.length p <= S (Z.to_nat q))%nat ->
  sumn (S (Z.to_nat q)) (fun i => polyfun p (node (Z.to_nat q) i) * fn phis i t) = polyfun p t.
Proof.
  intros H p t Hp.
  rewrite <- peval_polyfun.
  rewrite (Rsum_ext _ _ (fun i => peval p (node (Z.to_nat q) i) * fn phis i t))
    by (intro; rewrite <- peval_polyfun; reflexivity).
  order_cases H; cbv [Z.to_nat Pos.to_nat Pos.iter_op Init.Nat.add] in *;
  (destruct p as [|a [|b [|c [|d [|e p]]]]]; cbn [List.length] in Hp; try lia);
  unfold Rsum, fn, node; cbn; first [ring | field].
Qed.

(** C03 *)
Lemma basis_derivative q phis dphis :
  basis_in_time q = Ok (phis, dphis) ->
  forall i t, is_derive (fn phis i) t (fn dphis i t).
Proof.
  intros H i t. destruct (basis_sym_ok q) as [sphis [Hs _]].
  { pose proof (basis_dom _ _ H); lia. }
  rewrite (dtables_agree q phis dphis sphis H Hs i t).
  apply is_derive_ext_R with (f := peval (nth i sphis [])).
  - intro s; symmetry; apply (tables_agree q phis dphis sphis H Hs).
  - apply is_derive_peval.
Qed.
Lemma basis_derivative_sum q phis dphis :
  basis_in_time q = Ok (phis, dphis) ->
  forall t, sumn (S (Z.to_nat q)) (fun i => fn dphis i t) = 0.
Proof.
  intros H t. order_cases H; cbv [Z.to_nat Pos.to_nat Pos.iter_op Init.Nat.add];
  unfold Rsum, fn; cbn; field.
Qed.

(** * get_elmat_time *)

Lemma length_fill r c f : List.length (fill r c f) = r.
Proof. unfold fill; rewrite map_length, seq_length; reflexivity. Qed.
Lemma nth_fill_row r c f i : (i < r)%nat -> nth i (fill r c f) [] = map (f i) (seq 0 c).
Proof.
  intro Hi. unfold fill.
  rewrite nth_indep with (d' := map (fun j => f 0%nat j) (seq 0 c))
    by (rewrite map_length, seq_length; exact Hi).
  rewrite (map_nth (fun i => map (fun j => f i j) (seq 0 c))).
  rewrite seq_nth by exact Hi. reflexivity.
Qed.
Lemma mget_fill r c f i j : (i < r)%nat -> (j < c)%nat -> mget (fill r c f) i j = f i j.
Proof.
  intros Hi Hj. unfold mget. rewrite nth_fill_row by exact Hi.
  rewrite nth_indep with (d' := f i 0%nat) by (rewrite map_length, seq_length; exact Hj).
  rewrite map_nth, seq_nth by exact Hj. reflexivity.
Qed.

Definition elmat_of (nq nqs : nat) (phis chis : list poly) : elmat :=
  {| M_time_q_qstar := fill nqs nq (fun i j => pint (pmul (nth j phis []) (nth i chis [])));
     M_time_q_q := fill nq nq (fun i j => pint (pmul (nth j phis []) (nth i phis [])));
     M_time_qstar_qstar := fill nqs nqs (fun i j => pint (pmul (nth j chis []) (nth i chis [])));
     DM_time_q_qstar := fill nqs nq (fun i j => pint (pmul (pdiff (nth j phis [])) (nth i chis [])));
     DM_time_q_q := fill nq nq (fun i j => pint (pmul (pdiff (nth j phis [])) (nth i phis [])));
     DDM_time_q_q := fill nq nq (fun i j => pint (pmul (pdiff (nth j phis [])) (pdiff (nth i phis [])))) |}.
Lemma get_elmat_inv q qs e :
  get_elmat_time q qs = Ok e ->
  exists phis chis, basis_sym q = Ok phis /\ basis_sym qs = Ok chis
   /\ e = elmat_of (Z.to_nat (q + 1)) (Z.to_nat (qs + 1)) phis chis.
Proof.
  unfold get_elmat_time. destruct (basis_sym q) as [phis|] eqn:E1; [|discriminate].
  destruct (basis_sym qs) as [chis|] eqn:E2; [|discriminate].
  intro H; injection H; intro He. exists phis, chis. repeat split. symmetry; exact He.
Qed.

Lemma RInt_pmul_ext f g p r :
  (forall x, f x = peval p x) -> (forall x, g x = peval r x) ->
  RInt (fun x => f x * g x) 0 1 = pint (pmul p r).
Proof.
  intros Hf Hg. apply RInt_pint_ext. intro x. rewrite peval_pmul, Hf, Hg; reflexivity.
Qed.

(** C04, C06 *)
Section Elmat.
  Variables (q qs : Z) (e : elmat) (phis dphis chis dchis : list (R -> R)).
  Hypothesis He : get_elmat_time q qs = Ok e.
  Hypothesis Hphi : basis_in_time q = Ok (phis, dphis).
  Hypothesis Hchi : basis_in_time qs = Ok (chis, dchis).
  Let nq := S (Z.to_nat q).
  Let nqs := S (Z.to_nat qs).

  Lemma elmat_all :
    (forall i j, (i < nqs)%nat -> (j < nq)%nat ->
       mget (M_time_q_qstar e) i j = RInt (fun t => fn phis j t * fn chis i t) 0 1
       /\ mget (DM_time_q_qstar e) i j = RInt (fun t => Derive (fn phis j) t * fn chis i t) 0 1)
    /\ (forall i j, (i < nq)%nat -> (j < nq)%nat ->
       mget (M_time_q_q e) i j = RInt (fun t => fn phis j t * fn phis i t) 0 1
       /\ mget (DM_time_q_q e) i j = RInt (fun t => Derive (fn phis j) t * fn phis i t) 0 1
       /\ mget (DDM_time_q_q e) i j = RInt (fun t => Derive (fn phis j) t * Derive (fn phis i) t) 0 1)
    /\ (forall i j, (i < nqs)%nat -> (j < nqs)%nat ->
       mget (M_time_qstar_qstar e) i j = RInt (fun t => fn chis j t * fn chis i t) 0 1).
  Proof.
    destruct (get_elmat_inv _ _ _ He) as [sp [sc [Hsp [Hsc ->]]]].
    pose proof (basis_dom _ _ Hphi) as Dq. pose proof (basis_dom _ _ Hchi) as Dqs.
    replace (Z.to_nat (q + 1)) with nq by (unfold nq; lia).
    replace (Z.to_nat (qs + 1)) with nqs by (unfold nqs; lia).
    pose proof (tables_agree _ _ _ _ Hphi Hsp) as Ap.
    pose proof (tables_agree _ _ _ _ Hchi Hsc) as Ac.
    assert (Dp : forall i x, Derive (fn phis i) x = peval (pdiff (nth i sp [])) x).
    { intros i x. rewrite <- Derive_peval. apply Derive_ext; intro; apply Ap. }
    cbn [M_time_q_qstar DM_time_q_qstar M_time_q_q DM_time_q_q DDM_time_q_q M_time_qstar_qstar elmat_of].
    repeat split; intros; rewrite mget_fill by assumption; symmetry; apply RInt_pmul_ext; auto.
  Qed.
End Elmat.

Lemma elmat_defined q qs :
  (0 <= q <= 3)%Z -> (0 <= qs <= 3)%Z -> exists e, get_elmat_time q qs = Ok e.
Proof.
  intros Hq Hqs. destruct (basis_sym_ok q Hq) as [p [Hp _]].
  destruct (basis_sym_ok qs Hqs) as [c [Hc _]].
  unfold get_elmat_time. rewrite Hp, Hc. eexists; reflexivity.
Qed.
Lemma elmat_undefined q qs :
  ~ ((0 <= q <= 3)%Z /\ (0 <= qs <= 3)%Z) -> get_elmat_time q qs = Err KeyError.
Proof.
  intro H. unfold get_elmat_time.
  assert (K : forall z, ~ (0 <= z <= 3)%Z -> basis_sym z = Err KeyError).
  { intros z Hz. destruct z as [|[[p|p|]|[p|p|]|]|p]; cbn; try reflexivity; exfalso; apply Hz; lia. }
  destruct (Z_le_dec 0 q); destruct (Z_le_dec q 3); try (rewrite (K q) by lia; reflexivity).
  destruct (basis_sym_ok q) as [p [-> _]]; [lia|]. rewrite (K qs) by lia; reflexivity.
Qed.
Lemma fill_shape r c f : has_shape r c (fill r c f).
Proof.
  split; [apply length_fill|]. intros row H. unfold fill in H.
  apply in_map_iff in H. destruct H as [i [<- _]]. rewrite map_length, seq_length; reflexivity.
Qed.
Lemma elmat_shapes q qs e :
  get_elmat_time q qs = Ok e ->
  let nq := S (Z.to_nat q) in let nqs := S (Z.to_nat qs) in
  has_shape nqs nq (M_time_q_qstar e) /\ has_shape nq nq (M_time_q_q e)
  /\ has_shape nqs nqs (M_time_qstar_qstar e) /\ has_shape nqs nq (DM_time_q_qstar e)
  /\ has_shape nq nq (DM_time_q_q e) /\ has_shape nq nq (DDM_time_q_q e).
Proof.
  intros He nq nqs. destruct (get_elmat_inv _ _ _ He) as [sp [sc [Hsp [Hsc ->]]]].
  pose proof (basis_sym_dom _ _ Hsp). pose proof (basis_sym_dom _ _ Hsc).
  replace (Z.to_nat (q + 1)) with nq by (unfold nq; lia).
  replace (Z.to_nat (qs + 1)) with nqs by (unfold nqs; lia).
  repeat split; apply fill_shape.
Qed.

(** C05 *)
(** closed form of the entries, order by order *)
Definition Mtab (q : nat) : mat :=
  match q with
  | 0%nat => [[1]]
  | 1%nat => [[1/3; 1/6]; [1/6; 1/3]]
  | 2%nat => [[2/15; 1/15; -1/30]; [1/15; 8/15; 1/15]; [-1/30; 1/15; 2/15]]
  | _ => [[8/105; 33/560; -3/140; 19/1680]; [33/560; 27/70; -27/560; -3/140];
          [-3/140; -27/560; 27/70; 33/560]; [19/1680; -3/140; 33/560; 8/105]]
  end.
Lemma mass_sym q phis : basis_sym q = Ok phis ->
  forall i j, (i <= Z.to_nat q)%nat -> (j <= Z.to_nat q)%nat ->
  pint (pmul (nth j phis []) (nth i phis [])) = mget (Mtab (Z.to_nat q)) i j.
Proof.
  intros H i j Hi Hj. order_cases H;
  cbv [Z.to_nat Pos.to_nat Pos.iter_op Init.Nat.add] in *;
  destruct i as [|[|[|[|i]]]]; try lia;
  destruct j as [|[|[|[|j]]]]; try lia; cbn; field.
Qed.
Definition Dtab (q : nat) : mat :=
  match q with
  | 0%nat => [[0]]
  | 1%nat => [[-1/2; 1/2]; [-1/2; 1/2]]
  | 2%nat => [[-1/2; 2/3; -1/6]; [-2/3; 0; 2/3]; [1/6; -2/3; 1/2]]
  | _ => [[-1/2; 57/80; -3/10; 7/80]; [-57/80; 0; 81/80; -3/10];
          [3/10; -81/80; 0; 57/80]; [-7/80; 3/10; -57/80; 1/2]]
  end.
Lemma conv_sym q phis : basis_sym q = Ok phis ->
  forall i j, (i <= Z.to_nat q)%nat -> (j <= Z.to_nat q)%nat ->
  pint (pmul (pdiff (nth j phis [])) (nth i phis [])) = mget (Dtab (Z.to_nat q)) i j.
Proof.
  intros H i j Hi Hj. order_cases H;
  cbv [Z.to_nat Pos.to_nat Pos.iter_op Init.Nat.add] in *;
  destruct i as [|[|[|[|i]]]]; try lia;
  destruct j as [|[|[|[|j]]]]; try lia; cbn; field.
Qed.
Definition Ktab (q : nat) : mat :=
  match q with
  | 0%nat => [[0]]
  | 1%nat => [[1; -1]; [-1; 1]]
  | 2%nat => [[7/3; -8/3; 1/3]; [-8/3; 16/3; -8/3]; [1/3; -8/3; 7/3]]
  | _ => [[37/10; -189/40; 27/20; -13/40]; [-189/40; 54/5; -297/40; 27/20];
          [27/20; -297/40; 54/5; -189/40]; [-13/40; 27/20; -189/40; 37/10]]
  end.
Lemma stiff_sym q phis : basis_sym q = Ok phis ->
  forall i j, (i <= Z.to_nat q)%nat -> (j <= Z.to_nat q)%nat ->
  pint (pmul (pdiff (nth j phis [])) (pdiff (nth i phis []))) = mget (Ktab (Z.to_nat q)) i j.
Proof.
  intros H i j Hi Hj. order_cases H;
  cbv [Z.to_nat Pos.to_nat Pos.iter_op Init.Nat.add] in *;
  destruct i as [|[|[|[|i]]]]; try lia;
  destruct j as [|[|[|[|j]]]]; try lia; cbn; field.
Qed.

Lemma qform_ext n m m' c :
  (forall i j, (i < n)%nat -> (j < n)%nat -> m i j = m' i j) -> qform n m c = qform n m' c.
Proof.
  intro H; unfold qform. apply sumn_ext; intros i Hi. apply sumn_ext; intros j Hj.
  rewrite H by assumption; reflexivity.
Qed.

Lemma sq0 x : x * x = 0 -> x = 0.
Proof. intro H. destruct (Rmult_integral _ _ H); assumption. Qed.
Lemma sqnn x : 0 <= x * x.
Proof. apply Rle_0_sqr. Qed.

(** sums of squares for nodal values c0..cq (Legendre expansion) *)
Lemma Mtab_sos1 c : qform 2 (mget (Mtab 1)) c
  = ((c 0%nat + c 1%nat)/2) * ((c 0%nat + c 1%nat)/2)
    + ((c 1%nat - c 0%nat) * (c 1%nat - c 0%nat)) / 12.
Proof. unfold qform, Rsum, mget; cbn. field. Qed.
(** monomial coefficients of the order 2 / 3 interpolant *)
Definition a21 (c : nat -> R) := -3 * c 0%nat + 4 * c 1%nat - c 2%nat.
Definition a22 (c : nat -> R) := 2 * c 0%nat - 4 * c 1%nat + 2 * c 2%nat.
Definition a31 (c : nat -> R) := -11/2 * c 0%nat + 9 * c 1%nat - 9/2 * c 2%nat + c 3%nat.
Definition a32 (c : nat -> R) := 9 * c 0%nat - 45/2 * c 1%nat + 18 * c 2%nat - 9/2 * c 3%nat.
Definition a33 (c : nat -> R) := -9/2 * c 0%nat + 27/2 * c 1%nat - 27/2 * c 2%nat + 9/2 * c 3%nat.
Definition sqr (x : R) := x * x.
Lemma Mtab_sos2 c : qform 3 (mget (Mtab 2)) c
  = sqr (c 0%nat + a21 c / 2 + a22 c / 3) + sqr (a21 c + a22 c) / 12 + sqr (a22 c) / 180.
Proof. unfold qform, Rsum, mget, sqr, a21, a22; cbn. field. Qed.
Lemma Mtab_sos3 c : qform 4 (mget (Mtab 3)) c
  = sqr (c 0%nat + a31 c / 2 + a32 c / 3 + a33 c / 4) + sqr (a31 c + a32 c + 9/10 * a33 c) / 12
    + sqr (a32 c + 3/2 * a33 c) / 180 + sqr (a33 c) / 2800.
Proof. unfold qform, Rsum, mget, sqr, a31, a32, a33; cbn. field. Qed.
Lemma Ktab_sos1 c : qform 2 (mget (Ktab 1)) c = sqr (c 1%nat - c 0%nat).
Proof. unfold qform, Rsum, mget, sqr; cbn. field. Qed.
Lemma Ktab_sos2 c : qform 3 (mget (Ktab 2)) c
  = sqr (a21 c + a22 c) + sqr (2 * a22 c) / 12.
Proof. unfold qform, Rsum, mget, sqr, a21, a22; cbn. field. Qed.
Lemma Ktab_sos3 c : qform 4 (mget (Ktab 3)) c
  = sqr (a31 c + a32 c + a33 c) + sqr (2 * a32 c + 3 * a33 c) / 12 + sqr (3 * a33 c) / 180.
Proof. unfold qform, Rsum, mget, sqr, a31, a32, a33; cbn. field. Qed.
Lemma sqr_nonneg x : 0 <= sqr x.
Proof. apply Rle_0_sqr. Qed.
Lemma sqr_zero x : sqr x = 0 -> x = 0.
Proof. apply sq0. Qed.

Ltac sq_nonneg := repeat match goal with |- context [sqr ?x] =>
    lazymatch goal with H : 0 <= sqr x |- _ => fail | _ => pose proof (sqr_nonneg x) end end.

Lemma mass_spd q phis : basis_sym q = Ok phis ->
  forall c,
  0 <= qform (S (Z.to_nat q)) (fun i j => pint (pmul (nth j phis []) (nth i phis []))) c
  /\ (qform (S (Z.to_nat q)) (fun i j => pint (pmul (nth j phis []) (nth i phis []))) c = 0 ->
      forall i, (i <= Z.to_nat q)%nat -> c i = 0).
Proof.
  intros H c.
  rewrite (qform_ext _ _ (mget (Mtab (Z.to_nat q)))) by (intros; apply (mass_sym q phis H); lia).
  pose proof (basis_sym_dom _ _ H) as D. clear H.
  destruct D as [->|[->|[->| ->]]]; cbv [Z.to_nat Pos.to_nat Pos.iter_op Init.Nat.add].
  - replace (qform 1 (mget (Mtab 0)) c) with (sqr (c 0%nat))
      by (unfold qform, Rsum, mget, sqr; cbn; ring).
    split; [apply sqr_nonneg|]. intros Hz i Hi. assert (i = 0%nat) as -> by lia.
    apply sqr_zero; exact Hz.
  - rewrite Mtab_sos1. fold (sqr ((c 0%nat + c 1%nat)/2)) (sqr (c 1%nat - c 0%nat)).
    pose proof (sqr_nonneg ((c 0%nat + c 1%nat)/2)). pose proof (sqr_nonneg (c 1%nat - c 0%nat)).
    split; [lra|]. intros Hz.
    assert (E1 : sqr ((c 0%nat + c 1%nat)/2) = 0) by lra.
    assert (E2 : sqr (c 1%nat - c 0%nat) = 0) by lra.
    apply sqr_zero in E1; apply sqr_zero in E2.
    intros [|[|i]] Hi; try lia; lra.
  - rewrite Mtab_sos2.
    pose proof (sqr_nonneg (c 0%nat + a21 c / 2 + a22 c / 3)).
    pose proof (sqr_nonneg (a21 c + a22 c)). pose proof (sqr_nonneg (a22 c)).
    split; [lra|]. intros Hz.
    assert (E1 : sqr (c 0%nat + a21 c / 2 + a22 c / 3) = 0) by lra.
    assert (E2 : sqr (a21 c + a22 c) = 0) by lra.
    assert (E3 : sqr (a22 c) = 0) by lra.
    apply sqr_zero in E1; apply sqr_zero in E2; apply sqr_zero in E3.
    unfold a21, a22 in *.
    intros [|[|[|i]]] Hi; try lia; lra.
  - rewrite Mtab_sos3.
    pose proof (sqr_nonneg (c 0%nat + a31 c / 2 + a32 c / 3 + a33 c / 4)).
    pose proof (sqr_nonneg (a31 c + a32 c + 9/10 * a33 c)).
    pose proof (sqr_nonneg (a32 c + 3/2 * a33 c)). pose proof (sqr_nonneg (a33 c)).
    split; [lra|]. intros Hz.
    assert (E1 : sqr (c 0%nat + a31 c / 2 + a32 c / 3 + a33 c / 4) = 0) by lra.
    assert (E2 : sqr (a31 c + a32 c + 9/10 * a33 c) = 0) by lra.
    assert (E3 : sqr (a32 c + 3/2 * a33 c) = 0) by lra.
    assert (E4 : sqr (a33 c) = 0) by lra.
    apply sqr_zero in E1; apply sqr_zero in E2; apply sqr_zero in E3; apply sqr_zero in E4.
    unfold a31, a32, a33 in *.
    intros [|[|[|[|i]]]] Hi; try lia; lra.
Qed.

Lemma stiff_psd q phis : basis_sym q = Ok phis ->
  forall c,
  let K := fun i j => pint (pmul (pdiff (nth j phis [])) (pdiff (nth i phis []))) in
  0 <= qform (S (Z.to_nat q)) K c
  /\ (qform (S (Z.to_nat q)) K c = 0 <-> forall i, (i <= Z.to_nat q)%nat -> c i = c 0%nat).
Proof.
  intros H c K. unfold K.
  rewrite (qform_ext _ _ (mget (Ktab (Z.to_nat q)))) by (intros; apply (stiff_sym q phis H); lia).
  pose proof (basis_sym_dom _ _ H) as D. clear H K.
  destruct D as [->|[->|[->| ->]]]; cbv [Z.to_nat Pos.to_nat Pos.iter_op Init.Nat.add].
  - replace (qform 1 (mget (Ktab 0)) c) with 0
      by (unfold qform, Rsum, mget; cbn; ring).
    split; [lra|]. split; [|reflexivity]. intros _ i Hi. f_equal; lia.
  - rewrite Ktab_sos1.
    pose proof (sqr_nonneg (c 1%nat - c 0%nat)).
    split; [lra|]. split.
    + intros E2; apply sqr_zero in E2. intros [|[|i]] Hi; try lia; lra.
    + intros Hc. rewrite (Hc 1%nat) by lia. unfold sqr; ring.
  - rewrite Ktab_sos2.
    pose proof (sqr_nonneg (a21 c + a22 c)). pose proof (sqr_nonneg (2 * a22 c)).
    split; [lra|]. split.
    + intros Hz.
      assert (E2 : sqr (a21 c + a22 c) = 0) by lra.
      assert (E3 : sqr (2 * a22 c) = 0) by lra.
      apply sqr_zero in E2; apply sqr_zero in E3.
      unfold a21, a22 in *. intros [|[|[|i]]] Hi; try lia; lra.
    + intros Hc. unfold a21, a22. rewrite (Hc 1%nat), (Hc 2%nat) by lia. unfold sqr; field.
  - rewrite Ktab_sos3.
    pose proof (sqr_nonneg (a31 c + a32 c + a33 c)).
    pose proof (sqr_nonneg (2 * a32 c + 3 * a33 c)). pose proof (sqr_nonneg (3 * a33 c)).
    split; [lra|]. split.
    + intros Hz.
      assert (E2 : sqr (a31 c + a32 c + a33 c) = 0) by lra.
      assert (E3 : sqr (2 * a32 c + 3 * a33 c) = 0) by lra.
      assert (E4 : sqr (3 * a33 c) = 0) by lra.
      apply sqr_zero in E2; apply sqr_zero in E3; apply sqr_zero in E4.
      unfold a31, a32, a33 in *. intros [|[|[|[|i]]]] Hi; try lia; lra.
    + intros Hc. unfold a31, a32, a33.
      rewrite (Hc 1%nat), (Hc 2%nat), (Hc 3%nat) by lia. unfold sqr; field.
Qed.

Lemma pint_padd_from p : forall q n, pint_from n (padd p q) = pint_from n p + pint_from n q.
Proof.
  induction p as [|a p IH]; intros q n; [cbn; ring|].
  destruct q as [|b q]; cbn [padd pint_from]; [ring|]. rewrite IH. field.
  apply not_0_INR; lia.
Qed.

Lemma elmat_structure q qs e phis dphis :
  get_elmat_time q qs = Ok e -> basis_in_time q = Ok (phis, dphis) ->
  let nq := S (Z.to_nat q) in let nqs := S (Z.to_nat qs) in
  (forall i j, (i < nq)%nat -> (j < nq)%nat ->
     mget (M_time_q_q e) i j = mget (M_time_q_q e) j i
     /\ mget (DDM_time_q_q e) i j = mget (DDM_time_q_q e) j i
     /\ mget (DM_time_q_q e) i j + mget (DM_time_q_q e) j i
        = fn phis i 1 * fn phis j 1 - fn phis i 0 * fn phis j 0)
  /\ (forall i j, (i < nqs)%nat -> (j < nqs)%nat ->
     mget (M_time_qstar_qstar e) i j = mget (M_time_qstar_qstar e) j i)
  /\ (forall c, 0 <= qform nq (mget (M_time_q_q e)) c
        /\ (qform nq (mget (M_time_q_q e)) c = 0 -> forall i, (i < nq)%nat -> c i = 0))
  /\ (forall c, 0 <= qform nqs (mget (M_time_qstar_qstar e)) c
        /\ (qform nqs (mget (M_time_qstar_qstar e)) c = 0 -> forall i, (i < nqs)%nat -> c i = 0))
  /\ (forall c, 0 <= qform nq (mget (DDM_time_q_q e)) c
        /\ (qform nq (mget (DDM_time_q_q e)) c = 0 <-> forall i, (i < nq)%nat -> c i = c 0%nat)).
Proof.
  intros He Hphi nq nqs. destruct (get_elmat_inv _ _ _ He) as [sp [sc [Hsp [Hsc ->]]]].
  pose proof (basis_sym_dom _ _ Hsp). pose proof (basis_sym_dom _ _ Hsc).
  replace (Z.to_nat (q + 1)) with nq by (unfold nq; lia).
  replace (Z.to_nat (qs + 1)) with nqs by (unfold nqs; lia).
  cbn [M_time_q_qstar DM_time_q_qstar M_time_q_q DM_time_q_q DDM_time_q_q M_time_qstar_qstar elmat_of].
  assert (Hcomm : forall a b, pint (pmul a b) = pint (pmul b a)).
  { intros a b. rewrite <- !RInt_pint. apply RInt_ext. intros x _. rewrite !peval_pmul; apply Rmult_comm. }
  assert (QF : forall n f c, qform n (mget (fill n n f)) c = qform n f c).
  { intros n f c. apply qform_ext. intros; apply mget_fill; assumption. }
  split; [|split; [|split; [|split]]].
  - intros i j Hi Hj. rewrite !mget_fill by assumption. split; [apply Hcomm|].
    split; [apply Hcomm|].
    rewrite (Hcomm (pdiff (nth i sp []))).
    transitivity (RInt (Derive (peval (pmul (nth i sp []) (nth j sp [])))) 0 1).
    + assert (E : forall x, Derive (peval (pmul (nth i sp []) (nth j sp []))) x
         = peval (padd (pmul (pdiff (nth j sp [])) (nth i sp [])) (pmul (nth j sp []) (pdiff (nth i sp [])))) x).
      { intro x. rewrite (Derive_ext _ (fun x => peval (nth i sp []) x * peval (nth j sp []) x))
          by (intro; apply peval_pmul).
        rewrite Derive_mult by apply ex_derive_peval.
        rewrite !Derive_peval, peval_padd, !peval_pmul. ring. }
      rewrite (RInt_pint_ext _ _ E). unfold pint. rewrite pint_padd_from. reflexivity.
    + rewrite (RInt_ext _ (peval (pdiff (pmul (nth i sp []) (nth j sp [])))))
        by (intros x _; apply Derive_peval).
      assert (I : is_RInt (peval (pdiff (pmul (nth i sp []) (nth j sp [])))) 0 1
          (peval (pmul (nth i sp []) (nth j sp [])) 1 - peval (pmul (nth i sp []) (nth j sp [])) 0)).
      { apply (is_RInt_derive (V := R_CompleteNormedModule)).
        - intros; apply is_derive_peval.
        - intros; apply continuous_peval. }
      rewrite (is_RInt_unique (V := R_CompleteNormedModule) _ _ _ _ I).
      rewrite !peval_pmul, !(tables_agree _ _ _ _ Hphi Hsp). reflexivity.
  - intros i j Hi Hj. rewrite !mget_fill by assumption. apply Hcomm.
  - intro c. rewrite QF. destruct (mass_spd q sp Hsp c) as [A B]. split; [exact A|].
    intros Hz i Hi. apply B; [exact Hz|]. unfold nq in Hi; lia.
  - intro c. rewrite QF. destruct (mass_spd qs sc Hsc c) as [A B]. split; [exact A|].
    intros Hz i Hi. apply B; [exact Hz|]. unfold nqs in Hi; lia.
  - intro c. rewrite QF. destruct (stiff_psd q sp Hsp c) as [A B]. split; [exact A|].
    unfold nq in *. rewrite B. split; intros Hc i Hi; apply Hc; lia.
Qed.
