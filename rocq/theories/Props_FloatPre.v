(** Props_FloatPre.v -- pre_time_marching in double precision
    (/repo/src/dxss/space_time.py:1186-1258).  Property C108. *)
From Coq Require Import ZArith Reals List Bool Lia Lra String.
From Coq Require Import Floats.SpecFloat.
From Flocq Require Import Core IEEE754.BinarySingleNaN.
From Verif Require Import Base FormModel FormSpec FormProofs SpaceTimeForms FormTime FormBlocks FormExample SpaceTimeModel SlabOps ApplyProofs OpsExample MarchLoops
  FloatModel FloatRound FloatSamples FloatTime FloatLocal FloatErrors FloatErrorsProofs FloatApply FloatApplyProofs Props_FloatApply FloatMarch Props_FloatMarch FloatPre.
Import ListNotations.
Local Open Scope R_scope.

(** a direct solver: the result depends on the right hand side only *)
Definition direct (d : nat) (sol : fvec -> fvec -> fvec) : Prop :=
  forall r r' w w', (forall J, (J < d)%nat -> r J = r' J) -> forall I, (I < d)%nat -> sol r w I = sol r' w' I.
(** an assembly: the vector depends on the coefficients of the two functions in the form only *)
Definition assembly (p d : nat) (asm : fvec -> fvec -> fvec) : Prop :=
  forall u u' v v', (forall l, (l < p)%nat -> u l = u' l) -> (forall l, (l < p)%nat -> v l = v' l) -> forall I, (I < d)%nat -> asm u v I = asm u' v' I.
Definition pre_data (E : env) (asm1 : fvec -> fvec -> fvec) (sol0 sol1 : fvec -> fvec -> fvec) : Prop :=
  env_ok E /\ assembly (d_dim (e_D E) Vp) (lay_dim (e_Lp E)) asm1 /\ direct (lay_dim (e_Lp E)) sol0 /\ direct (lay_dim (e_Lp E)) sol1.
(** the coefficients of primal component [j] at the end of slab [n] *)
Definition ends (E : env) (n j : nat) (x v : fvec) : Prop := forall l, (l < d_dim (e_D E) Vp)%nat -> v l = x (row_of E n j (c_q (e_c E)) l).
(** the right hand side of slab [n] when the solution is [x]: the vector assembled with the end of the
    slab before, plus the entries of b *)
Definition pre_rhs_of (E : env) (asm0 : fvec) (asm1 : fvec -> fvec -> fvec) (b x : fvec) (n : nat) (r : fvec) : Prop :=
  exists v1 v2, ((0 < n)%nat -> ends E (n - 1) 0 x v1 /\ ends E (n - 1) 1 x v2) /\
  forall j i l, (j < 4)%nat -> (i < ntime (e_c E) j)%nat -> (l < d_dim (e_D E) (spc j))%nat ->
    r (dof (e_Lp E) j i l) = fadd ((if Nat.eqb n 0 then asm0 else asm1 v1 v2) (dof (e_Lp E) j i l)) (b (row_of E n j i l)).
Definition pre_solves (E : env) (asm0 : fvec) (asm1 sol0 sol1 : fvec -> fvec -> fvec) (b x : fvec) (n : nat) : Prop :=
  exists r w, pre_rhs_of E asm0 asm1 b x n r /\ forall j i l, (j < 4)%nat -> (i < ntime (e_c E) j)%nat -> (l < d_dim (e_D E) (spc j))%nat ->
    x (row_of E n j i l) = (if Nat.eqb n 0 then sol0 else sol1) r w (dof (e_Lp E) j i l).

Section Pre.
  Variables (E : env) (asm0 : fvec) (asm1 sol0 sol1 : fvec -> fvec -> fvec) (b : fvec).
  Hypothesis HD : pre_data E asm1 sol0 sol1.
  Notation c := (e_c E).
  Notation X same u1 u2 w x := (f_pre E asm0 asm1 sol0 sol1 same b u1 u2 w x).
  Let HE : env_ok E := proj1 HD.
  Let S := pre_sol (fz 0) fadd E asm0 asm1 sol0 sol1 b.
  Let rhs := pre_rhs (fz 0) fadd E asm0 asm1 sol0 sol1 b.
  Lemma pentry same u1 u2 w x n j i l : index E n j i l -> X same u1 u2 w x (row_of E n j i l) = S n (dof (e_Lp E) j i l).
  Proof.
    pose proof HD as [_ [HA [D0 D1]]]. intros [Hn [Hj [Hi Hl]]]. unfold f_pre, row_of, S.
    apply (pre_entry (fz 0) fadd E HE asm0 asm1 sol0 sol1 D0 D1 HA); assumption.
  Qed.
  Lemma ends_S same u1 u2 w x n j : (n < c_N c)%nat -> (j < 2)%nat -> ends E n j (X same u1 u2 w x) (piece (fz 0) E (S n) j (c_q c)).
  Proof.
    intros Hn Hj l Hl. rewrite (piece_at (fz 0) E HE) by assumption. symmetry. apply pentry. split; [exact Hn|]. split; [lia|]. split; [apply q_lt, Hj|].
    unfold spc. destruct (Nat.ltb_spec j 2); [exact Hl|lia].
  Qed.
  Lemma rhs_at n j i l : index E n j i l -> rhs n (dof (e_Lp E) j i l) =
    fadd ((if Nat.eqb n 0 then asm0 else asm1 (piece (fz 0) E (S (n - 1)) 0 (c_q c)) (piece (fz 0) E (S (n - 1)) 1 (c_q c))) (dof (e_Lp E) j i l)) (b (row_of E n j i l)).
  Proof.
    intros [Hn [Hj [Hi Hl]]]. unfold rhs, pre_rhs, load. rewrite (load_at (fz 0) fadd E HE) by assumption. unfold row_of. f_equal.
    destruct n as [|n]; [reflexivity|]. cbn [Nat.eqb]. replace (Datatypes.S n - 1)%nat with n by lia. reflexivity.
  Qed.
  Lemma prhs_is same u1 u2 w x n : (n < c_N c)%nat -> pre_rhs_of E asm0 asm1 b (X same u1 u2 w x) n (rhs n).
  Proof.
    intro Hn. exists (piece (fz 0) E (S (n - 1)) 0 (c_q c)), (piece (fz 0) E (S (n - 1)) 1 (c_q c)). split; [intro; split; apply ends_S; lia|].
    intros j i l Hj Hi Hl. apply rhs_at. repeat split; assumption.
  Qed.
End Pre.

(** ** The equations that are solved *)
Theorem C108_slabs E asm0 asm1 sol0 sol1 same b u1 u2 w x n : pre_data E asm1 sol0 sol1 -> (n < c_N (e_c E))%nat ->
  pre_solves E asm0 asm1 sol0 sol1 b (f_pre E asm0 asm1 sol0 sol1 same b u1 u2 w x) n.
Proof.
  intros HD Hn. eexists _, _. split; [apply (prhs_is E asm0 asm1 sol0 sol1 b HD); exact Hn|]. intros j i l Hj Hi Hl.
  rewrite (pentry E asm0 asm1 sol0 sol1 b HD) by (repeat split; assumption). rewrite pre_sol_eq.
  instantiate (1 := fun _ => fz 0). destruct (Nat.eqb n 0); reflexivity.
Qed.
(** two solutions of the equations of the first slabs, for right hand sides that agree there *)
Lemma pre_same E asm0 asm1 sol0 sol1 b b' x y n : pre_data E asm1 sol0 sol1 ->
  (forall m j i l, (m <= n)%nat -> index E m j i l -> b (row_of E m j i l) = b' (row_of E m j i l)) ->
  (forall m, (m <= n)%nat -> pre_solves E asm0 asm1 sol0 sol1 b x m) -> (forall m, (m <= n)%nat -> pre_solves E asm0 asm1 sol0 sol1 b' y m) ->
  forall j i l, index E n j i l -> x (row_of E n j i l) = y (row_of E n j i l).
Proof.
  intros [HE [HA [D0 D1]]]. induction n as [n IH] using lt_wf_ind. intros HB Hx Hy j i l [Hn [Hj [Hi Hl]]].
  destruct (Hx n (le_n n)) as [r [w1 [[v1 [v2 [Hv Hr]]] HS]]]. destruct (Hy n (le_n n)) as [r' [w2 [[v1' [v2' [Hv' Hr']]] HS']]].
  assert (R : forall J, (J < lay_dim (e_Lp E))%nat -> r J = r' J).
  { intros J HJ. destruct (dof_of E 4 (nc_pre (e_c E)) _ J (eo_p _ HE) HJ) as [j0 [i0 [l0 [H1 [H2 [H3 EJ]]]]]]. rewrite EJ in HJ |- *. rewrite Hr, Hr' by assumption.
    f_equal; [|apply HB; [lia|repeat split; assumption]]. destruct (Nat.eqb_spec n 0) as [H0|H0]; [reflexivity|]. specialize (Hv ltac:(lia)). specialize (Hv' ltac:(lia)).
    assert (K : forall j1 l1, (j1 < 2)%nat -> (l1 < d_dim (e_D E) Vp)%nat -> x (row_of E (n - 1) j1 (c_q (e_c E)) l1) = y (row_of E (n - 1) j1 (c_q (e_c E)) l1)).
    { intros j1 l1 Hj1 Hl1. apply IH; [lia| | | |].
      - intros m j2 i2 l2 Hm. apply HB. lia.
      - intros m Hm. apply Hx. lia.
      - intros m Hm. apply Hy. lia.
      - split; [lia|]. split; [lia|]. split; [apply q_lt, Hj1|]. unfold spc. destruct (Nat.ltb_spec j1 2); [exact Hl1|lia]. }
    apply HA; [| |exact HJ]; intros l1 Hl1; [rewrite (proj1 Hv l1 Hl1), (proj1 Hv' l1 Hl1)|rewrite (proj2 Hv l1 Hl1), (proj2 Hv' l1 Hl1)]; apply K; auto; lia. }
  assert (P : (dof (e_Lp E) j i l < lay_dim (e_Lp E))%nat) by (apply (dof_lt E 4 (nc_pre (e_c E))); auto; apply (eo_p _ HE)).
  rewrite HS, HS' by assumption. destruct (Nat.eqb n 0); [apply D0|apply D1]; assumption.
Qed.
(** the equations have one solution *)
Theorem C108_unique E asm0 asm1 sol0 sol1 same b u1 u2 w x y : pre_data E asm1 sol0 sol1 -> (forall n, (n < c_N (e_c E))%nat -> pre_solves E asm0 asm1 sol0 sol1 b y n) ->
  forall n j i l, index E n j i l -> y (row_of E n j i l) = f_pre E asm0 asm1 sol0 sol1 same b u1 u2 w x (row_of E n j i l).
Proof.
  intros HD Hy n j i l Hi. pose proof Hi as [Hn _]. apply (pre_same E asm0 asm1 sol0 sol1 b b y _ n HD); [reflexivity| | |exact Hi].
  - intros m Hm. apply Hy. lia.
  - intros m Hm. apply C108_slabs; [exact HD|lia].
Qed.

(** ** What does not matter *)
(** what u1_0_pre, u2_0_pre, uh_pre and x_sol contain before the call, the entries of b in later slabs,
    and whether x_sol is b itself: no bit changes *)
Theorem C108_causal E asm0 asm1 sol0 sol1 same b u1 u2 w x same' b' u1' u2' w' x' n j i l : pre_data E asm1 sol0 sol1 -> index E n j i l ->
  (forall m j i l, (m <= n)%nat -> index E m j i l -> b (row_of E m j i l) = b' (row_of E m j i l)) ->
  f_pre E asm0 asm1 sol0 sol1 same b u1 u2 w x (row_of E n j i l) = f_pre E asm0 asm1 sol0 sol1 same' b' u1' u2' w' x' (row_of E n j i l).
Proof.
  intros HD Hi HB. pose proof Hi as [Hn _]. apply (pre_same E asm0 asm1 sol0 sol1 b b' _ _ n HD); [exact HB| | |exact Hi]; intros m Hm; (apply C108_slabs; [exact HD|lia]).
Qed.

(** ** Accuracy *)
(** Residual.  If the solver leaves at most [tol] in a row of the slab matrix [A], the result leaves at most
    [tol] and one rounding error in the row of the block bidiagonal system. *)
Theorem C108_residual E asm0 asm1 sol0 sol1 same b u1 u2 w x n j i l r w' v1 v2 A y tol : pre_data E asm1 sol0 sol1 -> index E n j i l -> size (lay_dim (e_Lp E)) A ->
  let X := f_pre E asm0 asm1 sol0 sol1 same b u1 u2 w x in let J := dof (e_Lp E) j i l in
  ((0 < n)%nat -> ends E (n - 1) 0 X v1 /\ ends E (n - 1) 1 X v2) -> pre_rhs_of E asm0 asm1 b X n r ->
  let g := (if Nat.eqb n 0 then asm0 else asm1 v1 v2) J in
  double g -> double (b (row_of E n j i l)) -> finite (r J) ->
  Rabs (r_mult A (fun J => fr ((if Nat.eqb n 0 then sol0 else sol1) r w' J)) J - fr (r J)) <= tol ->
  on_slab E n X y ->
  Rabs (r_mult A (fun J => fr (y J)) J - fr g - fr (b (row_of E n j i l))) <= tol + FloatLocal.u * Rabs (fr g + fr (b (row_of E n j i l))).
Proof.
  intros HD Hi HA X J Hv Hr g Dg Db FR HT Hy. pose proof HD as [HE [HM [D0 D1]]]. pose proof Hi as [Hn [Hj [Hii Hl]]].
  assert (PL : forall j i l, (j < 4)%nat -> (i < ntime (e_c E) j)%nat -> (l < d_dim (e_D E) (spc j))%nat -> (dof (e_Lp E) j i l < lay_dim (e_Lp E))%nat).
  { intros j0 i0 l0 H1 H2 H3. apply (dof_lt E 4 (nc_pre (e_c E))); auto. apply (eo_p _ HE). }
  destruct Hr as [a1 [a2 [Ha HR]]].
  assert (GA : forall I, (I < lay_dim (e_Lp E))%nat -> (if Nat.eqb n 0 then asm0 else asm1 v1 v2) I = (if Nat.eqb n 0 then asm0 else asm1 a1 a2) I).
  { intros I HI. destruct (Nat.eqb_spec n 0) as [H0|H0]; [reflexivity|]. destruct (Hv ltac:(lia)) as [B1 B2]. destruct (Ha ltac:(lia)) as [C1 C2].
    apply HM; [| |exact HI]; intros l1 Hl1; [rewrite (B1 _ Hl1), (C1 _ Hl1)|rewrite (B2 _ Hl1), (C2 _ Hl1)]; reflexivity. }
  assert (EJ : r J = fadd g (b (row_of E n j i l))).
  { unfold J, g. rewrite HR by assumption. f_equal. symmetry. apply GA, PL; assumption. }
  destruct (C108_slabs E asm0 asm1 sol0 sol1 same b u1 u2 w x n HD Hn) as [r' [w1 [[c1 [c2 [Hc HR']]] HS]]]. fold X in Hc, HS.
  assert (R : forall I, (I < lay_dim (e_Lp E))%nat -> r I = r' I).
  { intros I HI. destruct (dof_of E 4 (nc_pre (e_c E)) _ I (eo_p _ HE) HI) as [j0 [i0 [l0 [H1 [H2 [H3 EI]]]]]]. rewrite EI in HI |- *. rewrite HR, HR' by assumption. f_equal.
    rewrite <- GA by exact HI. destruct (Nat.eqb_spec n 0) as [H0|H0]; [reflexivity|]. destruct (Hv ltac:(lia)) as [B1 B2]. destruct (Hc ltac:(lia)) as [C1 C2].
    apply HM; [| |exact HI]; intros l1 Hl1; [rewrite (B1 _ Hl1), (C1 _ Hl1)|rewrite (B2 _ Hl1), (C2 _ Hl1)]; reflexivity. }
  assert (Y : forall I, (I < lay_dim (e_Lp E))%nat -> fr (y I) = fr ((if Nat.eqb n 0 then sol0 else sol1) r w' I)).
  { intros I HI. destruct (dof_of E 4 (nc_pre (e_c E)) _ I (eo_p _ HE) HI) as [j0 [i0 [l0 [H1 [H2 [H3 EI]]]]]]. f_equal. subst I. rewrite Hy by assumption.
    change (X (row_of E n j0 i0 l0) = (if Nat.eqb n 0 then sol0 else sol1) r w' (dof (e_Lp E) j0 i0 l0)).
    rewrite HS by assumption. symmetry. destruct (Nat.eqb n 0); [apply D0|apply D1]; auto. }
  rewrite (r_mult_local _ _ HA _ _ Y) by (apply PL; assumption).
  assert (ER : Rabs (fr (r J) - (fr g + fr (b (row_of E n j i l)))) <= FloatLocal.u * Rabs (fr g + fr (b (row_of E n j i l)))).
  { rewrite EJ in FR |- *. destruct (add_inv _ _ Dg Db FR) as [Fg [Fb ->]]. apply rnd_sum; eapply is_dbl_fmt; apply finite_dbl; assumption. }
  match goal with |- Rabs (?a - ?c - ?d) <= ?t + ?e => replace (a - c - d) with ((a - fr (r J)) + (fr (r J) - (c + d))) by ring end.
  apply Rle_trans with (1 := Rabs_triang _ _). apply Rplus_le_compat; assumption.
Qed.

(** ** nan *)
(** A nan in b fills its own slab and all the later ones, if the solvers return nothing but nan for a right
    hand side with a nan, and the assembled vector has a nan when the two functions are nan. *)
Theorem C108_nan E asm0 asm1 sol0 sol1 same b u1 u2 w x n j i l m j' i' l' : pre_data E asm1 sol0 sol1 ->
  spoils (lay_dim (e_Lp E)) sol0 -> spoils (lay_dim (e_Lp E)) sol1 ->
  (forall u v, (forall l, (l < d_dim (e_D E) Vp)%nat -> u l = S754_nan /\ v l = S754_nan) -> exists J, (J < lay_dim (e_Lp E))%nat /\ asm1 u v J = S754_nan) ->
  index E n j i l -> b (row_of E n j i l) = S754_nan -> (n <= m)%nat -> index E m j' i' l' ->
  f_pre E asm0 asm1 sol0 sol1 same b u1 u2 w x (row_of E m j' i' l') = S754_nan.
Proof.
  intros HD Z0 Z1 ZA Hi Hb Hnm [Hm [Hj' [Hi' Hl']]]. pose proof HD as [HE _].
  assert (PL : forall j i l, (j < 4)%nat -> (i < ntime (e_c E) j)%nat -> (l < d_dim (e_D E) (spc j))%nat -> (dof (e_Lp E) j i l < lay_dim (e_Lp E))%nat).
  { intros j0 i0 l0 H1 H2 H3. apply (dof_lt E 4 (nc_pre (e_c E))); auto. apply (eo_p _ HE). }
  set (X := f_pre E asm0 asm1 sol0 sol1 same b u1 u2 w x).
  assert (K : forall m, (n <= m)%nat -> (m < c_N (e_c E))%nat -> forall j i l, (j < 4)%nat -> (i < ntime (e_c E) j)%nat -> (l < d_dim (e_D E) (spc j))%nat -> X (row_of E m j i l) = S754_nan).
  2: { apply K; assumption. }
  intros m0 Hm0. induction Hm0 as [|m0 Hm0 IH]; intros HN0 j0 i0 l0 H1 H2 H3.
  - destruct (C108_slabs E asm0 asm1 sol0 sol1 same b u1 u2 w x n HD HN0) as [r [w1 [[v1 [v2 [_ HR]]] HS]]]. fold X in HS. rewrite HS by assumption.
    destruct Hi as [_ [Hj [Hii Hl]]].
    assert (R : exists J, (J < lay_dim (e_Lp E))%nat /\ r J = S754_nan).
    { exists (dof (e_Lp E) j i l). split; [apply PL; assumption|]. rewrite HR by assumption. rewrite Hb. apply add_nan_r. }
    destruct (Nat.eqb n 0); [apply Z0|apply Z1]; auto.
  - destruct (C108_slabs E asm0 asm1 sol0 sol1 same b u1 u2 w x (S m0) HD HN0) as [r [w1 [[v1 [v2 [HV HR]]] HS]]]. fold X in HV, HS. rewrite HS by assumption.
    destruct (HV ltac:(lia)) as [V1 V2]. replace (S m0 - 1)%nat with m0 in V1, V2 by lia.
    assert (VN : forall j1 l1, (j1 < 2)%nat -> (l1 < d_dim (e_D E) Vp)%nat -> X (row_of E m0 j1 (c_q (e_c E)) l1) = S754_nan).
    { intros j1 l1 Hj1 Hl1. apply IH; [lia|lia|apply q_lt, Hj1|]. unfold spc. destruct (Nat.ltb_spec j1 2); [exact Hl1|lia]. }
    destruct (ZA v1 v2) as [J [HJ HN]].
    { intros l1 Hl1. rewrite (V1 l1 Hl1), (V2 l1 Hl1). split; apply VN; auto; lia. }
    assert (R : exists J, (J < lay_dim (e_Lp E))%nat /\ r J = S754_nan).
    { exists J. split; [exact HJ|]. destruct (dof_of E 4 (nc_pre (e_c E)) _ J (eo_p _ HE) HJ) as [j2 [i2 [l2 [G1 [G2 [G3 EJ]]]]]]. rewrite EJ in HN |- *.
      rewrite HR by assumption. cbn [Nat.eqb]. rewrite HN. apply add_nan_l. }
    cbn [Nat.eqb]. apply Z1; auto.
Qed.

(** ** The term 1e-20 * y1 *)
Lemma absorb_pos y t : dfmt y -> 0 < y -> Rabs t <= bpow radix2 (-55) * y -> rnd (t + y) = y.
Proof.
  intros F P T. apply Rabs_le_inv in T.
  assert (E53 : bpow radix2 (-53) = / 9007199254740992) by reflexivity.
  assert (E55 : bpow radix2 (-55) = / 36028797018963968) by reflexivity. rewrite E55 in T.
  assert (VE : Valid_exp dexp) by (apply FLT_exp_valid; exact Hprec).
  apply Rle_antisym.
  - apply round_N_le_midp; [exact VE|exact F|]. rewrite succ_eq_pos by lra.
    pose proof (@ulp_FLT_gt radix2 (-1074) 53 Hprec y) as U. rewrite Rabs_pos_eq in U by lra. replace (bpow radix2 (- (53))) with (/ 9007199254740992) in U by (symmetry; exact E53). lra.
  - apply round_N_ge_midp; [exact VE|exact F|].
    pose proof (@ulp_FLT_gt radix2 (-1074) 53 Hprec (pred radix2 dexp y)) as U. pose proof (pred_plus_ulp radix2 dexp y P F) as Q. pose proof (pred_ge_0 radix2 dexp y P F) as N.
    rewrite Rabs_pos_eq in U by lra. replace (bpow radix2 (- (53))) with (/ 9007199254740992) in U by (symmetry; exact E53). lra.
Qed.
Lemma absorb_rnd y t : dfmt y -> y <> 0 -> Rabs t <= bpow radix2 (-55) * Rabs y -> rnd (t + y) = y.
Proof.
  intros F P T. destruct (Rlt_or_le 0 y) as [H|H]; [apply absorb_pos; [exact F|exact H|rewrite (Rabs_pos_eq y) in T by lra; exact T]|].
  rewrite <- (Ropp_involutive y) at 2. rewrite <- (absorb_pos (- y) (- t)).
  - unfold rnd. rewrite <- round_NE_opp. f_equal. ring.
  - apply generic_format_opp, F.
  - lra.
  - rewrite Rabs_Ropp. rewrite (Rabs_left1 y) in T by exact H. exact T.
Qed.
Lemma dbl_eq x y a : is_dbl x a -> is_dbl y a -> a <> 0 -> x = y.
Proof.
  intros [p [<- [F1 E1]]] [q [<- [F2 E2]]] H. f_equal. apply B2R_inj; [| |congruence].
  - destruct p; cbn in *; try discriminate; [lra|reflexivity].
  - destruct q; cbn in *; try discriminate; [lra|reflexivity].
Qed.
Lemma absorb t y : double t -> finite t -> double y -> finite y -> fr y <> 0 -> Rabs (fr t) <= bpow radix2 (-55) * Rabs (fr y) -> fadd t y = y.
Proof.
  intros D1 F1 D2 F2 Y T. pose proof (finite_dbl t D1 F1) as A. pose proof (finite_dbl y D2 F2) as B.
  pose proof (absorb_rnd (fr y) (fr t) (is_dbl_fmt _ _ B) Y T) as R. apply dbl_eq with (a := fr y); [|exact B|exact Y].
  rewrite <- R at 1. apply fadd_ok; [exact A|exact B|]. rewrite R. destruct B as [p [_ [_ <-]]]. apply abs_B2R_lt_emax.
Qed.

(** In the first slab the assembled vector is that of the form 1e-20 * inner(1.0, y1).  Where an entry of
    it is 0, or at most 2^-55 times the entry of b, it leaves no trace: if this is so everywhere, the
    first slab is that of pre_time_marching_improved, bit by bit. *)
Theorem C108_lost E asm0 asm1 sol0 sol1 same b u1 u2 w x sol1' M k same' w' x' j i l : pre_data E asm1 sol0 sol1 -> march_data E sol0 sol1' M b k -> index E 0 j i l ->
  (forall j i l, index E 0 j i l -> let t := asm0 (dof (e_Lp E) j i l) in let y := b (row_of E 0 j i l) in
     t = fz 0 \/ (double t /\ finite t /\ finite y /\ fr y <> 0 /\ Rabs (fr t) <= bpow radix2 (-55) * Rabs (fr y))) ->
  f_pre E asm0 asm1 sol0 sol1 same b u1 u2 w x (row_of E 0 j i l) = f_march E sol0 sol1' M same' b w' x' (row_of E 0 j i l).
Proof.
  intros HD HM [Hn [Hj [Hi Hl]]] HT. pose proof HD as [HE [_ [D0 _]]].
  assert (PL : forall j i l, (j < 4)%nat -> (i < ntime (e_c E) j)%nat -> (l < d_dim (e_D E) (spc j))%nat -> (dof (e_Lp E) j i l < lay_dim (e_Lp E))%nat).
  { intros j0 i0 l0 H1 H2 H3. apply (dof_lt E 4 (nc_pre (e_c E))); auto. apply (eo_p _ HE). }
  destruct (C108_slabs E asm0 asm1 sol0 sol1 same b u1 u2 w x 0 HD Hn) as [r [w1 [[v1 [v2 [_ HR]]] HS]]].
  destruct (C97_slabs E sol0 sol1' M b k same' w' x' 0 HM Hn) as [r' [w2 [[v [_ HR']] HS']]].
  rewrite HS, HS' by assumption. cbn [Nat.eqb]. apply D0; [|apply PL; assumption]. intros J HJ.
  destruct (dof_of E 4 (nc_pre (e_c E)) _ J (eo_p _ HE) HJ) as [j0 [i0 [l0 [H1 [H2 [H3 ->]]]]]]. rewrite HR, HR' by assumption. cbn [Nat.eqb Nat.ltb Nat.leb andb].
  assert (I0 : index E 0 j0 i0 l0) by (repeat split; assumption).
  destruct (HT j0 i0 l0 I0) as [-> | [T1 [T2 [T3 [T4 T5]]]]]; [reflexivity|].
  pose proof HM as [_ [_ [_ [_ [_ Db]]]]]. specialize (Db _ (row_lt E sol0 sol1' M b k HM 0 j0 i0 l0 I0)).
  rewrite (absorb _ _ T1 T2 Db T3 T4 T5). destruct (C97_copies (b (row_of E 0 j0 i0 l0))) as [-> |[Z _]]; [reflexivity|].
  exfalso. apply T4. rewrite Z. reflexivity.
Qed.
(** Where b is 0 it is all there is: the call solves for 1e-20 * y1 when it is asked to solve for 0. *)
Theorem C108_kept E asm0 asm1 b x r j i l : index E 0 j i l -> pre_rhs_of E asm0 asm1 b x 0 r -> b (row_of E 0 j i l) = fz 0 ->
  r (dof (e_Lp E) j i l) = asm0 (dof (e_Lp E) j i l) \/ (asm0 (dof (e_Lp E) j i l) = S754_zero true /\ r (dof (e_Lp E) j i l) = fz 0).
Proof.
  intros [Hn [Hj [Hi Hl]]] [v1 [v2 [_ HR]]] Hb. rewrite HR, Hb by assumption. cbn [Nat.eqb].
  destruct (asm0 (dof (e_Lp E) j i l)) as [[]|[]| |[] m e]; auto.
Qed.
(** If the assembled vectors are what the scaled mass matrix gives, the two routines agree bit by bit. *)
Theorem C108_agree E asm0 asm1 sol0 sol1 same b u1 u2 w x M k same' w' x' n j i l : pre_data E asm1 sol0 sol1 -> march_data E sol0 sol1 M b k -> index E n j i l ->
  (forall j i l, index E 0 j i l -> asm0 (dof (e_Lp E) j i l) = fz 0) ->
  (forall v1 v2 v, (forall l, (l < d_dim (e_D E) Vp)%nat -> v (dof (e_Lb E) 0 0 l) = fadd (fz 0) (v1 l) /\ v (dof (e_Lb E) 1 0 l) = fadd (fz 0) (v2 l)) ->
     forall j i l, index E 0 j i l -> asm1 v1 v2 (dof (e_Lp E) j i l) = if first j i then fadd (fz 0) (f_mult M v (dof (e_Lb E) j 0 l)) else fz 0) ->
  f_pre E asm0 asm1 sol0 sol1 same b u1 u2 w x (row_of E n j i l) = f_march E sol0 sol1 M same' b w' x' (row_of E n j i l).
Proof.
  intros HD HM Hi H0 H1. apply eq_sym. apply (C108_unique E asm0 asm1 sol0 sol1 same b u1 u2 w x _ HD); [|exact Hi]. clear n j i l Hi. intros n Hn.
  destruct (C97_slabs E sol0 sol1 M b k same' w' x' n HM Hn) as [r [w1 [[v [HV HR]] HS]]]. exists r, w1. split; [|exact HS].
  set (X := f_march E sol0 sol1 M same' b w' x') in *.
  exists (fun l => X (row_of E (n - 1) 0 (c_q (e_c E)) l)), (fun l => X (row_of E (n - 1) 1 (c_q (e_c E)) l)). split; [intros _; split; intros l _; reflexivity|].
  intros j i l Hj Hi Hl. rewrite HR by assumption. f_equal.
  assert (I0 : index E 0 j i l) by (split; [lia|]; repeat split; assumption).
  destruct n as [|n]; cbn [Nat.eqb Nat.ltb Nat.leb andb]; [symmetry; apply H0, I0|]. symmetry. apply (H1 _ _ v); [|exact I0].
  intros l1 Hl1. specialize (HV ltac:(lia)). split; apply HV; auto; lia.
Qed.

(** ** The loops are those of the model over the reals *)
Section Reals.
  Variables (E : env) (gj : R) (sol0 sol1 : vec -> vec -> vec) (bi xi : nat).
  Notation c := (e_c E).
  Notation D := (e_D E).
  (** the vector assembled from the form l_pre of slab [n] *)
  Definition l_pre (n : nat) (u1 u2 : vec) : vec := assemble_vec D (e_Lp E) (pre_lform c gj (fev D Dx Vp Val u1) (fev D Dx Vp Grad u1) (fev D Dx Vp Val u2) n).
  Let a0 := l_pre 0 vzero vzero.
  Let a1 := l_pre 1.
  Lemma l_pre_n n u1 u2 : l_pre n u1 u2 = if Nat.ltb 0 n then a1 u1 u2 else a0.
  Proof. destruct n; reflexivity. Qed.
  Definition pholds (b : vec) (st : vec * vec * vec * vec) (s : state) : Prop :=
    let '(u1, u2, uh, x) := st in
    s_fes s = true /\ s_sfi s = Some (fun r w => Ok (sol0 r w)) /\ s_ssl s = Some (fun r w => Ok (sol1 r w))
    /\ s_u10p s = u1 /\ s_u20p s = u2 /\ s_uhp s = uh /\ s_heap s xi = x /\ (bi <> xi -> s_heap s bi = b).
  Lemma pre_pass_real b st s n k : c_dt c <> 0 -> pholds b st s ->
    exists s', pre_slab E gj bi xi n k s = (Ok tt, s') /\ pholds b (pre_pass 0 Rplus E a0 a1 sol0 sol1 (Nat.eqb bi xi) b n k st) s'.
  Proof.
    intro Hdt. destruct st as [[[u1 u2] uh] x]. intros [Hf [H0 [H1 [Hu1 [Hu2 [Hu [Hx Hb]]]]]]].
    assert (Hsrc : s_heap s bi = if Nat.eqb bi xi then x else b).
    { destruct (Nat.eqb_spec bi xi) as [->|Hne]; [exact Hx|exact (Hb Hne)]. }
    unfold pre_slab. rewrite bind_fes_ok by exact Hf. rewrite bind_err_if_ok.
    2: { unfold is_zero. destruct (Req_EM_T (c_dt c) 0); [contradiction|]. apply andb_false_r. }
    rewrite bind_get. set (f := pre_lform c gj _ _ _ n).
    assert (Ef : fem_lform 4 (nc_pre c) f = Ok f) by (unfold fem_lform, f; rewrite wf_pre; reflexivity).
    rewrite (bind_lift_ok _ _ _ _ Ef). cbv zeta. rewrite moves, Hsrc.
    assert (Ea : assemble_vec D (e_Lp E) f = if Nat.ltb 0 n then a1 u1 u2 else a0).
    { rewrite <- (l_pre_n n u1 u2), <- Hu1, <- Hu2. reflexivity. }
    rewrite Ea. set (r1 := copies Rplus true (e_Lp E) (e_Lf E) (slab_pairs c k) (if Nat.eqb bi xi then x else b) (if Nat.ltb 0 n then a1 u1 u2 else a0)).
    set (v1 := if Nat.eqb n 0 then sol0 r1 uh else sol1 r1 uh).
    assert (Es : solve_slab n r1 s = (Ok v1, w_uhp v1 s)).
    { unfold solve_slab. rewrite bind_get.
      rewrite (bind_need _ _ _ (fun r w => Ok (if Nat.eqb n 0 then sol0 r w else sol1 r w))) by (rewrite H0, H1; destruct (Nat.eqb n 0); reflexivity).
      rewrite (bind_lift_ok _ _ v1) by (rewrite Hu; reflexivity). rewrite bind_modify. reflexivity. }
    rewrite (bind_ok _ _ _ _ _ Es). rewrite bind_modify, bind_get. rewrite moves.
    eexists. split; [reflexivity|]. unfold pre_pass, pholds. fold r1. fold v1.
    split; [exact Hf|]. split; [exact H0|]. split; [exact H1|]. split; [reflexivity|]. split; [reflexivity|]. split; [reflexivity|].
    split; [rewrite put_same; rewrite <- Hx; reflexivity|]. intro Hne. rewrite put_other by exact Hne. exact (Hb Hne).
  Qed.
  Lemma pre_passes_real b ns : c_dt c <> 0 -> forall st s k, pholds b st s ->
    exists s', slabs c (pre_slab E gj bi xi) ns k s = (Ok tt, s') /\ pholds b (pre_passes 0 Rplus E a0 a1 sol0 sol1 (Nat.eqb bi xi) b ns k st) s'.
  Proof.
    intro Hdt. induction ns as [|n ns IH]; intros st s k H; [exists s; split; [reflexivity|exact H]|].
    destruct (pre_pass_real b st s n k Hdt H) as [s1 [E1 H1]]. destruct (IH _ s1 (cnt_next c k) H1) as [s' [E' H']]. exists s'. split; [|exact H'].
    cbn [slabs]. rewrite (bind_ok _ _ _ _ _ E1). exact E'.
  Qed.
  (** With real numbers the loops compute what pre_time_marching of SpaceTimeModel.v does. *)
  Theorem C108_reals s : c_dt c <> 0 -> lookup (c_stab c) "primal-jump" = Ok gj -> s_fes s = true ->
    s_sfi s = Some (fun r w => Ok (sol0 r w)) -> s_ssl s = Some (fun r w => Ok (sol1 r w)) ->
    exists s', pre_time_marching E bi xi s = (Ok tt, s')
      /\ s_heap s' xi = pre_loops 0 Rplus E (l_pre 0 vzero vzero) (l_pre 1) sol0 sol1 (Nat.eqb bi xi) (s_heap s bi) (s_u10p s) (s_u20p s) (s_uhp s) (s_heap s xi).
  Proof.
    intros Hdt Hg Hf H0 H1. unfold pre_time_marching. rewrite (bind_lift_ok _ _ _ _ Hg).
    destruct (pre_passes_real (s_heap s bi) (seq 0 (c_N c)) Hdt (s_u10p s, s_u20p s, s_uhp s, if Nat.eqb bi xi then s_heap s bi else s_heap s xi) s cnt0) as [s' [E' H']].
    - split; [exact Hf|]. split; [exact H0|]. split; [exact H1|]. split; [reflexivity|]. split; [reflexivity|]. split; [reflexivity|].
      split; [|reflexivity]. destruct (Nat.eqb_spec bi xi) as [->|]; reflexivity.
    - exists s'. split; [exact E'|]. unfold pre_loops. fold a0. fold a1.
      destruct (pre_passes 0 Rplus E a0 a1 sol0 sol1 (Nat.eqb bi xi) (s_heap s bi) (seq 0 (c_N c)) cnt0 (s_u10p s, s_u20p s, s_uhp s, if Nat.eqb bi xi then s_heap s bi else s_heap s xi)) as [[[p1 p2] u0] o] eqn:EP.
      destruct H' as [_ [_ [_ [_ [_ [_ [H' _]]]]]]]. rewrite H'. transitivity (snd (p1, p2, u0, o)); [reflexivity|]. rewrite <- EP. reflexivity.
  Qed.
End Reals.

(** ** Examples *)
(** 2^-66, which is about 1e-20 *)
Definition e20 : spec_float := S754_finite false 4503599627370496 (-118).
Definition exA0 : fvec := fun _ => e20.
Definition exA1 (u v : fvec) : fvec := fun J => if Nat.ltb J 3 then fadd (u J) (v (2 - J)%nat) else e20.
Lemma ex_assembly p d : (3 <= p)%nat -> assembly p d exA1.
Proof.
  intros Hp u u' v v' Hu Hv I _. unfold exA1. destruct (Nat.ltb_spec I 3); [|reflexivity]. rewrite Hu, Hv by lia. reflexivity.
Qed.
(** Two slabs: the hypotheses hold; where b is not 0 the tiny term is lost, where b is -0 it is kept, and
    the second slab contains the end of the first. *)
Theorem C108_nonvacuous : exists c, let E := exE exI c in let X := f_pre E exA0 exA1 id_sol half_sol false exb ex_x ex_x ex_x ex_x in
  pre_data E exA1 id_sol half_sol /\ index E 0 0 0 2 /\ index E 1 0 0 2
  /\ exb (row_of E 0 0 1 2) = fz 5 /\ X (row_of E 0 0 1 2) = fz 5 /\ exb (row_of E 0 0 1 0) = S754_zero true /\ X (row_of E 0 0 1 0) = e20
  /\ exb (row_of E 1 0 0 2) = fz 8 /\ X (row_of E 0 0 1 2) = fz 5 /\ X (row_of E 0 1 1 0) = fz 15 /\ X (row_of E 1 0 0 2) = fmul (fz 2) (fz 28).
Proof.
  destruct (ex_env 1 2) as [c [_ [H1 [H2 H3]]]]; try lia. exists c. cbv zeta.
  destruct c as [cq cqs ck cks cN cT ct cdt clam cst cj cwp cel cqr cqh cph cdp csm cep cv cdv]. cbn in H1, H2, H3. subst cq cqs cN.
  set (c := mkCfg _ _ _ _ _ _ _ _ _ _ _ _ _ _ _ _ _ _ _ _ _). set (E := exE exI c).
  assert (L1 : lay_dim (e_Lp E) = 24%nat) by (vm_compute; reflexivity). assert (L2 : d_dim (e_D E) Vp = 3%nat) by (vm_compute; reflexivity).
  split.
  { split; [apply exE_ok; cbn; lia|]. rewrite L1, L2. split; [apply ex_assembly; lia|]. destruct (ex_solvers 24) as [[S0 _] [S1 _]]. split; assumption. }
  split; [vm_compute; lia|]. split; [vm_compute; lia|].
  split; [vm_compute; reflexivity|]. split; [vm_compute; reflexivity|]. split; [vm_compute; reflexivity|]. split; [vm_compute; reflexivity|].
  split; [vm_compute; reflexivity|]. split; [vm_compute; reflexivity|]. split; [vm_compute; reflexivity|]. vm_compute; reflexivity.
Qed.

Lemma fn_frac n : (Z.of_nat n <= 2 ^ 53)%Z -> fr (fn n) = INR n.
Proof. intro H. destruct (fn_ok n H) as [p [<- [_ <-]]]. destruct p; reflexivity. Qed.
Definition exp1 (J : nat) : spec_float := fn (S J).
(** the tiny term next to entries of b that are at least 1: it is lost everywhere *)
Theorem C108_lost_nonvacuous : exists c, let E := exE exI c in pre_data E exA1 id_sol half_sol /\ march_data E id_sol half_sol exM exp1 2 /\ index E 0 0 0 2 /\ e20 <> fz 0
  /\ (forall j i l, index E 0 j i l -> double (exA0 (dof (e_Lp E) j i l)) /\ finite (exA0 (dof (e_Lp E) j i l)) /\ finite (exp1 (row_of E 0 j i l)) /\ fr (exp1 (row_of E 0 j i l)) <> 0
       /\ Rabs (fr (exA0 (dof (e_Lp E) j i l))) <= bpow radix2 (-55) * Rabs (fr (exp1 (row_of E 0 j i l))))
  /\ f_pre E exA0 exA1 id_sol half_sol false exp1 ex_x ex_x ex_x ex_x (row_of E 0 0 0 2) = f_march E id_sol half_sol exM false exp1 ex_x ex_x (row_of E 0 0 0 2).
Proof.
  destruct (ex_env 1 2) as [c [_ [H1 [H2 H3]]]]; try lia. exists c. cbv zeta.
  destruct c as [cq cqs ck cks cN cT ct cdt clam cst cj cwp cel cqr cqh cph cdp csm cep cv cdv]. cbn in H1, H2, H3. subst cq cqs cN.
  set (c := mkCfg _ _ _ _ _ _ _ _ _ _ _ _ _ _ _ _ _ _ _ _ _). set (E := exE exI c).
  assert (L1 : lay_dim (e_Lp E) = 24%nat) by (vm_compute; reflexivity). assert (L2 : lay_dim (e_Lb E) = 6%nat) by (vm_compute; reflexivity).
  assert (L3 : lay_dim (e_Lf E) = 48%nat) by (vm_compute; reflexivity). assert (L4 : d_dim (e_D E) Vp = 3%nat) by (vm_compute; reflexivity).
  destruct (ex_solvers 24) as [S0 S1].
  assert (PD : pre_data E exA1 id_sol half_sol).
  { split; [apply exE_ok; cbn; lia|]. rewrite L1, L4. split; [apply ex_assembly; lia|]. split; [exact (proj1 S0)|exact (proj1 S1)]. }
  assert (MD : march_data E id_sol half_sol exM exp1 2).
  { split; [apply exE_ok; cbn; lia|]. rewrite L1, L2, L3. split; [exact S0|]. split; [exact S1|].
    split; [intros I HI; apply List.Forall_cons; [exact HI|]; apply List.Forall_cons; [cbn; lia|apply List.Forall_nil]|].
    split; [intros I HI; split; [apply List.Forall_cons; [reflexivity|]; apply List.Forall_cons; [reflexivity|apply List.Forall_nil]|cbn; lia]|].
    intros J HJ. apply dbl_double with (a := INR (S J)). apply fn_ok. lia. }
  assert (I0 : index E 0 0 0 2) by (vm_compute; lia).
  assert (T : forall j i l, index E 0 j i l -> double (exA0 (dof (e_Lp E) j i l)) /\ finite (exA0 (dof (e_Lp E) j i l)) /\ finite (exp1 (row_of E 0 j i l)) /\ fr (exp1 (row_of E 0 j i l)) <> 0
       /\ Rabs (fr (exA0 (dof (e_Lp E) j i l))) <= bpow radix2 (-55) * Rabs (fr (exp1 (row_of E 0 j i l)))).
  { intros j i l Hi. pose proof (row_lt E _ _ _ _ _ MD 0 j i l Hi) as HR. rewrite L3 in HR. unfold exp1, exA0. set (J := row_of E 0 j i l) in *. clearbody J.
    assert (HB : (Z.of_nat (S J) <= 2 ^ 53)%Z) by lia. rewrite (fn_frac _ HB).
    assert (P : 1 <= INR (S J)) by (change 1 with (INR 1); apply le_INR; lia).
    split; [reflexivity|]. split; [repeat split; discriminate|]. split; [apply (dbl_finite _ (INR (S J))), fn_ok, HB|]. split; [lra|].
    assert (Q : fr e20 = bpow radix2 (-66)) by (unfold e20, fr, SF2R, F2R; cbn [Fnum Fexp cond_Zopp]; change 4503599627370496%Z with (2 ^ 52)%Z; change (IZR (2 ^ 52)) with (bpow radix2 52); rewrite <- bpow_plus; reflexivity).
    rewrite Q, !Rabs_pos_eq by (try apply bpow_ge_0; lra). apply Rle_trans with (bpow radix2 (-55) * 1); [rewrite Rmult_1_r; apply bpow_le; lia|].
    apply Rmult_le_compat_l; [apply bpow_ge_0|exact P]. }
  split; [exact PD|]. split; [exact MD|]. split; [exact I0|]. split; [discriminate|]. split; [exact T|].
  apply (C108_lost E exA0 exA1 id_sol half_sol false exp1 ex_x ex_x ex_x ex_x half_sol exM 2 false ex_x ex_x 0 0 2 PD MD I0).
  intros j i l Hi. right. apply T, Hi.
Qed.
(** an assembly that is the scaled mass matrix *)
Definition exAg (v1 v2 : fvec) : fvec := fun J =>
  let v K := fadd (fz 0) (if Nat.ltb K 3 then v1 K else v2 (K - 3)%nat) in
  if Nat.ltb J 3 then fadd (fz 0) (f_mult exM v J) else if Nat.leb 6 J && Nat.ltb J 9 then fadd (fz 0) (f_mult exM v (J - 3)) else fz 0.
Theorem C108_agree_nonvacuous : exists c, let E := exE exI c in pre_data E exAg id_sol half_sol /\ march_data E id_sol half_sol exM exb 2 /\ index E 1 0 0 2
  /\ (forall v1 v2 v, (forall l, (l < d_dim (e_D E) Vp)%nat -> v (dof (e_Lb E) 0 0 l) = fadd (fz 0) (v1 l) /\ v (dof (e_Lb E) 1 0 l) = fadd (fz 0) (v2 l)) ->
     forall j i l, index E 0 j i l -> exAg v1 v2 (dof (e_Lp E) j i l) = if first j i then fadd (fz 0) (f_mult exM v (dof (e_Lb E) j 0 l)) else fz 0)
  /\ f_pre E (fun _ => fz 0) exAg id_sol half_sol false exb ex_x ex_x ex_x ex_x (row_of E 1 0 0 2) = fz 46.
Proof.
  destruct (ex_env 1 2) as [c [_ [H1 [H2 H3]]]]; try lia. exists c. cbv zeta.
  destruct c as [cq cqs ck cks cN cT ct cdt clam cst cj cwp cel cqr cqh cph cdp csm cep cv cdv]. cbn in H1, H2, H3. subst cq cqs cN.
  set (c := mkCfg _ _ _ _ _ _ _ _ _ _ _ _ _ _ _ _ _ _ _ _ _). set (E := exE exI c).
  assert (L1 : lay_dim (e_Lp E) = 24%nat) by (vm_compute; reflexivity). assert (L2 : lay_dim (e_Lb E) = 6%nat) by (vm_compute; reflexivity).
  assert (L3 : lay_dim (e_Lf E) = 48%nat) by (vm_compute; reflexivity). assert (L4 : d_dim (e_D E) Vp = 3%nat) by (vm_compute; reflexivity).
  destruct (ex_solvers 24) as [S0 S1].
  split.
  { split; [apply exE_ok; cbn; lia|]. rewrite L1, L4. split; [|split; [exact (proj1 S0)|exact (proj1 S1)]].
    intros u u' v v' Hu Hv I HI. unfold exAg. cbv zeta.
    assert (Q : forall K, (K < 6)%nat -> fadd (fz 0) (if Nat.ltb K 3 then u K else v (K - 3)%nat) = fadd (fz 0) (if Nat.ltb K 3 then u' K else v' (K - 3)%nat)).
    { intros K HK. destruct (Nat.ltb_spec K 3); [rewrite Hu by assumption|rewrite Hv by lia]; reflexivity. }
    destruct (Nat.ltb_spec I 3); [|destruct (Nat.leb_spec 6 I); destruct (Nat.ltb_spec I 9); cbn [andb]; try reflexivity]; f_equal; unfold f_mult, exM; cbn [fold_left map fst snd]; rewrite !Q by lia; reflexivity. }
  assert (MD : march_data E id_sol half_sol exM exb 2).
  { split; [apply exE_ok; cbn; lia|]. rewrite L1, L2, L3. split; [exact S0|]. split; [exact S1|].
    split; [intros I HI; apply List.Forall_cons; [exact HI|]; apply List.Forall_cons; [cbn; lia|apply List.Forall_nil]|].
    split; [intros I HI; split; [apply List.Forall_cons; [reflexivity|]; apply List.Forall_cons; [reflexivity|apply List.Forall_nil]|cbn; lia]|].
    intros J HJ. unfold exb. do 4 (destruct J as [|J]; [reflexivity|]). apply dbl_double with (a := INR (4 + J)). apply fn_ok. lia. }
  split; [exact MD|]. split; [vm_compute; lia|]. split; [|vm_compute; reflexivity].
  rewrite L4. intros v1 v2 v Hv j i l [_ [Hj [Hi Hl]]].
  assert (N2 : ntime c j = 2%nat) by (unfold ntime, sto; destruct (Nat.ltb j 2); reflexivity). change (i < ntime c j)%nat in Hi. rewrite N2 in Hi.
  assert (L : (l < 3)%nat) by (revert Hl; destruct j as [|[|[|[|j]]]]; [vm_compute; lia..|lia]).
  assert (V : forall j l, (j < 2)%nat -> (l < 3)%nat -> dof (e_Lb E) j 0 l = (3 * j + l)%nat).
  { intros j0 l0 A B. destruct j0 as [|[|j0]]; [| |lia]; (destruct l0 as [|[|[|l0]]]; [vm_compute; reflexivity..|lia]). }
  assert (Vp' : dof (e_Lp E) j i l = (6 * j + 3 * i + l)%nat).
  { destruct j as [|[|[|[|j]]]]; [..|lia]; (destruct i as [|[|i]]; [..|lia]); (destruct l as [|[|[|l]]]; [vm_compute; reflexivity..|lia]). }
  assert (A : forall K, (K < 6)%nat -> v K = fadd (fz 0) (if Nat.ltb K 3 then v1 K else v2 (K - 3)%nat)).
  { intros K HK. destruct (Nat.ltb_spec K 3) as [HK3|HK3].
    - destruct (Hv K HK3) as [A _]. rewrite V in A by lia. exact A.
    - destruct (Hv (K - 3)%nat ltac:(lia)) as [_ A]. rewrite V in A by lia. replace (3 * 1 + (K - 3))%nat with K in A by lia. exact A. }
  rewrite Vp'. unfold first. destruct (Nat.ltb_spec j 2) as [Hj2|Hj2]; cbn [andb].
  - rewrite V by assumption. destruct (Nat.eqb_spec i 0) as [->|Hi0].
    + unfold exAg. cbv zeta. destruct j as [|[|j]]; [| |lia].
      * destruct (Nat.ltb_spec (6 * 0 + 3 * 0 + l) 3); [|lia]. f_equal. unfold f_mult, exM. cbn [fold_left map fst snd]. rewrite !A by lia. reflexivity.
      * destruct (Nat.ltb_spec (6 * 1 + 3 * 0 + l) 3); [lia|]. destruct (Nat.leb_spec 6 (6 * 1 + 3 * 0 + l)); [|lia]. destruct (Nat.ltb_spec (6 * 1 + 3 * 0 + l) 9); [|lia]. cbn [andb].
        replace (6 * 1 + 3 * 0 + l - 3)%nat with (3 * 1 + l)%nat by lia. f_equal. unfold f_mult, exM. cbn [fold_left map fst snd]. rewrite !A by lia. reflexivity.
    + unfold exAg. cbv zeta. destruct (Nat.ltb_spec (6 * j + 3 * i + l) 3); [lia|]. destruct (Nat.leb_spec 6 (6 * j + 3 * i + l)); destruct (Nat.ltb_spec (6 * j + 3 * i + l) 9); cbn [andb]; try reflexivity; lia.
  - unfold exAg. cbv zeta. destruct (Nat.ltb_spec (6 * j + 3 * i + l) 3); [lia|]. destruct (Nat.leb_spec 6 (6 * j + 3 * i + l)); destruct (Nat.ltb_spec (6 * j + 3 * i + l) 9); cbn [andb]; try reflexivity; lia.
Qed.
(** a nan in the second of three slabs *)
Theorem C108_nan_nonvacuous : exists c, let E := exE exI c in let sol := sum_sol (lay_dim (e_Lp E)) in
  pre_data E exA1 sol sol /\ spoils (lay_dim (e_Lp E)) sol
  /\ (forall u v, (forall l, (l < d_dim (e_D E) Vp)%nat -> u l = S754_nan /\ v l = S754_nan) -> exists J, (J < lay_dim (e_Lp E))%nat /\ exA1 u v J = S754_nan)
  /\ index E 1 0 0 0 /\ exn (row_of E 1 0 0 0) = S754_nan /\ index E 2 3 1 2
  /\ f_pre E exA0 exA1 sol sol false exn ex_x ex_x ex_x ex_x (row_of E 0 3 1 2) = fz 24 /\ f_pre E exA0 exA1 sol sol false exn ex_x ex_x ex_x ex_x (row_of E 2 3 1 2) = S754_nan.
Proof.
  destruct (ex_env 1 3) as [c [_ [H1 [H2 H3]]]]; try lia. exists c. cbv zeta.
  destruct c as [cq cqs ck cks cN cT ct cdt clam cst cj cwp cel cqr cqh cph cdp csm cep cv cdv]. cbn in H1, H2, H3. subst cq cqs cN.
  set (c := mkCfg _ _ _ _ _ _ _ _ _ _ _ _ _ _ _ _ _ _ _ _ _). set (E := exE exI c).
  assert (L1 : lay_dim (e_Lp E) = 24%nat) by (vm_compute; reflexivity). assert (L4 : d_dim (e_D E) Vp = 3%nat) by (vm_compute; reflexivity).
  destruct (ex_spoils 24) as [S0 S1]. rewrite L1.
  assert (HD : pre_data E exA1 (sum_sol 24) (sum_sol 24)).
  { split; [apply exE_ok; cbn; lia|]. rewrite L1, L4. split; [apply ex_assembly; lia|]. split; exact (proj1 S0). }
  assert (ZA : forall u v, (forall l, (l < d_dim (e_D E) Vp)%nat -> u l = S754_nan /\ v l = S754_nan) -> exists J, (J < 24)%nat /\ exA1 u v J = S754_nan).
  { rewrite L4. intros u v H. exists 0%nat. split; [lia|]. unfold exA1. cbn [Nat.ltb Nat.leb]. rewrite (proj1 (H 0%nat ltac:(lia))). apply add_nan_l. }
  assert (I1 : index E 1 0 0 0) by (vm_compute; lia). assert (I2 : index E 2 3 1 2) by (vm_compute; lia).
  assert (HN : exn (row_of E 1 0 0 0) = S754_nan) by (vm_compute; reflexivity).
  split; [exact HD|]. split; [exact S1|]. split; [exact ZA|]. split; [exact I1|]. split; [exact HN|]. split; [exact I2|]. split; [vm_compute; reflexivity|].
  assert (S2 : spoils (lay_dim (e_Lp E)) (sum_sol 24)) by (rewrite L1; exact S1).
  apply (C108_nan E exA0 exA1 _ _ false exn ex_x ex_x ex_x ex_x 1 0 0 0 2 3 1 2 HD S2 S2); [rewrite L1; exact ZA|exact I1|exact HN|lia|exact I2].
Qed.

Print Assumptions C108_slabs.
Print Assumptions C108_unique.
Print Assumptions C108_causal.
Print Assumptions C108_residual.
Print Assumptions C108_nan.
Print Assumptions C108_lost.
Print Assumptions C108_kept.
Print Assumptions C108_agree.
Print Assumptions C108_reals.
Print Assumptions C108_nonvacuous.
Print Assumptions C108_lost_nonvacuous.
Print Assumptions C108_agree_nonvacuous.
Print Assumptions C108_nan_nonvacuous.
