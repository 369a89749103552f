(** Props_FloatMarch.v -- pre_time_marching_improved in double precision
    (/repo/src/dxss/space_time.py:1260-1327).  Property C97. *)
From Coq Require Import ZArith Reals List Bool Lia Lra String.
From Coq Require Import Floats.SpecFloat.
From Flocq Require Import Core IEEE754.BinarySingleNaN.
From Verif Require Import Base FormModel FormSpec FormProofs SpaceTimeForms FormTime FormBlocks FormExample SpaceTimeModel SlabOps ApplyProofs OpsExample MarchLoops
  FloatModel FloatRound FloatSamples FloatTime FloatLocal FloatErrors FloatErrorsProofs FloatApply FloatApplyProofs Props_FloatApply FloatMarch.
Import ListNotations.
Local Open Scope R_scope.

Notation fvec := (nat -> spec_float).
(** a direct solver for vectors of length [d]: the result does not depend on what uh_pre contained,
    nor on anything but the right hand side; doubles (infinities and nan included) give doubles *)
Definition solver (d : nat) (sol : fvec -> fvec -> fvec) : Prop :=
  (forall r r' w w', (forall J, (J < d)%nat -> r J = r' J) -> forall I, (I < d)%nat -> sol r w I = sol r' w' I)
  /\ forall r w, (forall J, (J < d)%nat -> double (r J)) -> forall I, (I < d)%nat -> double (sol r w I).
(** the data: a valid space-time layout, two solvers for the slab, a scaled mass matrix with at most [k]
    stored entries in a row, doubles everywhere *)
Definition march_data (E : env) (sol0 sol1 : fvec -> fvec -> fvec) (M : frows) (b : fvec) (k : nat) : Prop :=
  env_ok E /\ solver (lay_dim (e_Lp E)) sol0 /\ solver (lay_dim (e_Lp E)) sol1 /\ size (lay_dim (e_Lb E)) M /\ doubles (lay_dim (e_Lb E)) M k
  /\ forall J, (J < lay_dim (e_Lf E))%nat -> double (b J).
(** the last values of slab [n], as the scaled mass matrix reads them *)
Definition at_end (E : env) (n : nat) (x v : fvec) : Prop :=
  forall j l, (j < 2)%nat -> (l < d_dim (e_D E) (spc j))%nat -> v (dof (e_Lb E) j 0 l) = fadd (fz 0) (x (row_of E n j (c_q (e_c E)) l)).
(** the right hand side of slab [n] when the solution is [x]: the entries of b, and for the first
    primal component of a later slab the scaled mass matrix times the end of the slab before *)
Definition rhs_of (E : env) (M : frows) (b x : fvec) (n : nat) (r : fvec) : Prop :=
  exists v, ((0 < n)%nat -> at_end E (n - 1) x v) /\
  forall j i l, (j < 4)%nat -> (i < ntime (e_c E) j)%nat -> (l < d_dim (e_D E) (spc j))%nat ->
    r (dof (e_Lp E) j i l) = fadd (if Nat.ltb 0 n && first j i then fadd (fz 0) (f_mult M v (dof (e_Lb E) j 0 l)) else fz 0) (b (row_of E n j i l)).
Definition solves (E : env) (sol0 sol1 : fvec -> fvec -> fvec) (M : frows) (b x : fvec) (n : nat) : Prop :=
  exists r w, rhs_of E M b x n r /\ forall j i l, (j < 4)%nat -> (i < ntime (e_c E) j)%nat -> (l < d_dim (e_D E) (spc j))%nat ->
    x (row_of E n j i l) = (if Nat.eqb n 0 then sol0 else sol1) r w (dof (e_Lp E) j i l).

Section March.
  Variables (E : env) (sol0 sol1 : fvec -> fvec -> fvec) (M : frows) (b : fvec) (k : nat).
  Hypothesis HD : march_data E sol0 sol1 M b k.
  Notation c := (e_c E).
  Notation dim j := (d_dim (e_D E) (spc j)).
  Notation X same w x := (f_march E sol0 sol1 M same b w x).
  Let HE : env_ok E := proj1 HD.
  Let S := slab_sol (fz 0) fadd E sol0 sol1 (f_mult M) b.
  Let rhs := slab_rhs (fz 0) fadd E sol0 sol1 (f_mult M) b.
  Lemma entry same w x n j i l : index E n j i l -> X same w x (row_of E n j i l) = S n (dof (e_Lp E) j i l).
  Proof.
    pose proof HD as [_ [[D0 _] [[D1 _] [HM _]]]]. intros [Hn [Hj [Hi Hl]]]. unfold f_march, row_of, S.
    apply (march_entry (fz 0) fadd E HE sol0 sol1 (f_mult M) D0 D1 (f_mult_local _ _ HM)); assumption.
  Qed.
  Lemma q_lt j : (j < 2)%nat -> (c_q c < ntime c j)%nat.
  Proof. intro H. unfold ntime, sto. destruct (Nat.ltb_spec j 2); lia. Qed.
  Lemma rhs_entry n j i l : index E n j i l -> rhs n (dof (e_Lp E) j i l) =
    fadd (if Nat.ltb 0 n && first j i then fadd (fz 0) (f_mult M (hand_in (fz 0) fadd E (S (n - 1))) (dof (e_Lb E) j 0 l)) else fz 0) (b (row_of E n j i l)).
  Proof.
    intros [Hn [Hj [Hi Hl]]]. unfold rhs, slab_rhs, load. rewrite (load_at (fz 0) fadd E HE) by assumption. unfold row_of. f_equal.
    destruct n as [|n]; [reflexivity|]. rewrite (carry_at (fz 0) fadd E HE (f_mult M)) by assumption. cbn [Nat.ltb Nat.leb andb]. unfold first.
    replace (Datatypes.S n - 1)%nat with n by lia. reflexivity.
  Qed.
  Lemma hand_end same w x n v : (n < c_N c)%nat -> at_end E n (X same w x) v -> forall J, (J < lay_dim (e_Lb E))%nat -> v J = hand_in (fz 0) fadd E (S n) J.
  Proof.
    intros Hn Hv J HJ. destruct (dof_of E 2 nc_bnd _ J (eo_b _ HE) HJ) as [j [i [l [Hj [Hi [Hl ->]]]]]]. unfold nc_bnd in Hi. assert (i = 0)%nat by lia. subst i.
    rewrite Hv, (hand_in_at (fz 0) fadd E HE) by assumption. f_equal. apply entry. split; [exact Hn|]. split; [lia|]. split; [apply q_lt, Hj|exact Hl].
  Qed.
  Lemma end_hand same w x n : (n < c_N c)%nat -> at_end E n (X same w x) (hand_in (fz 0) fadd E (S n)).
  Proof.
    intros Hn j l Hj Hl. rewrite (hand_in_at (fz 0) fadd E HE) by assumption. f_equal. symmetry. apply entry. split; [exact Hn|]. split; [lia|]. split; [apply q_lt, Hj|exact Hl].
  Qed.
  Lemma rhs_is same w x n : (n < c_N c)%nat -> rhs_of E M b (X same w x) n (rhs n).
  Proof.
    intro Hn. exists (hand_in (fz 0) fadd E (S (n - 1))). split; [intro; apply end_hand; lia|]. intros j i l Hj Hi Hl. apply rhs_entry. repeat split; assumption.
  Qed.
  Lemma bnd_lt j l : (j < 2)%nat -> (l < dim j)%nat -> (dof (e_Lb E) j 0 l < lay_dim (e_Lb E))%nat.
  Proof. intros Hj Hl. apply (dof_lt E 2 nc_bnd); unfold nc_bnd; auto. apply (eo_b _ HE). Qed.
  Lemma rhs_uniq same w x n r : (n < c_N c)%nat -> rhs_of E M b (X same w x) n r -> forall J, (J < lay_dim (e_Lp E))%nat -> r J = rhs n J.
  Proof.
    intros Hn [v [Hv Hr]] J HJ. destruct (dof_of E 4 (nc_pre c) _ J (eo_p _ HE) HJ) as [j [i [l [Hj [Hi [Hl ->]]]]]].
    rewrite Hr, rhs_entry by (repeat split; assumption). f_equal. destruct (Nat.ltb_spec 0 n) as [H0|H0]; cbn [andb]; [|reflexivity].
    unfold first. destruct (Nat.ltb_spec j 2) as [Hj2|Hj2]; cbn [andb]; [|reflexivity]. destruct (Nat.eqb i 0); [|reflexivity]. f_equal.
    pose proof HD as [_ [_ [_ [HM _]]]]. apply (f_mult_local _ _ HM); [|apply bnd_lt; assumption].
    apply (hand_end same w x); [lia|]. apply Hv, H0.
  Qed.
  Lemma row_lt n j i l : index E n j i l -> (row_of E n j i l < lay_dim (e_Lf E))%nat.
  Proof.
    intros [Hn [Hj [Hi Hl]]]. unfold row_of. apply (dof_lt E 4 (nc_full c)); [apply (eo_f _ HE)|exact Hj| |exact Hl]. unfold nc_full. nia.
  Qed.
  Lemma S_double n : (n < c_N c)%nat -> (forall J, (J < lay_dim (e_Lp E))%nat -> double (rhs n J)) /\ forall J, (J < lay_dim (e_Lp E))%nat -> double (S n J).
  Proof.
    pose proof HD as [_ [[_ D0] [[_ D1] [HM [DM Db]]]]]. induction n as [|n IH]; intro Hn.
    - assert (R : forall J, (J < lay_dim (e_Lp E))%nat -> double (rhs 0 J)).
      { intros J HJ. destruct (dof_of E 4 (nc_pre c) _ J (eo_p _ HE) HJ) as [j [i [l [Hj [Hi [Hl ->]]]]]]. rewrite rhs_entry by (repeat split; assumption). cbn [Nat.ltb Nat.leb andb].
        apply add_double; [reflexivity|]. apply Db, row_lt. repeat split; assumption. }
      split; [exact R|]. intros J HJ. unfold S. rewrite slab_sol_eq. cbn [Nat.eqb]. apply D0; assumption.
    - destruct (IH ltac:(lia)) as [_ IS].
      assert (V : forall J, (J < lay_dim (e_Lb E))%nat -> double (hand_in (fz 0) fadd E (S n) J)).
      { intros J HJ. destruct (dof_of E 2 nc_bnd _ J (eo_b _ HE) HJ) as [j [i [l [Hj [Hi [Hl ->]]]]]]. unfold nc_bnd in Hi. assert (i = 0)%nat by lia. subst i.
        rewrite (hand_in_at (fz 0) fadd E HE) by assumption. apply add_double; [reflexivity|]. apply IS. apply (dof_lt E 4 (nc_pre c)); [apply (eo_p _ HE)|lia|apply q_lt, Hj|exact Hl]. }
      assert (R : forall J, (J < lay_dim (e_Lp E))%nat -> double (rhs (Datatypes.S n) J)).
      { intros J HJ. destruct (dof_of E 4 (nc_pre c) _ J (eo_p _ HE) HJ) as [j [i [l [Hj [Hi [Hl ->]]]]]]. rewrite rhs_entry by (repeat split; assumption).
        apply add_double; [|apply Db, row_lt; repeat split; assumption].
        unfold first. destruct (Nat.ltb_spec j 2) as [Hj2|Hj2]; destruct (Nat.eqb i 0); cbn [andb]; rewrite ?andb_false_r; try reflexivity.
        cbn [Nat.ltb Nat.leb andb]. apply add_double; [reflexivity|]. replace (Datatypes.S n - 1)%nat with n by lia.
        exact (proj1 (mult_app k _ M _ _ HM DM V (bnd_lt j l Hj2 Hl))). }
      split; [exact R|]. intros J HJ. unfold S. rewrite slab_sol_eq. cbn [Nat.eqb]. apply D1; assumption.
  Qed.
End March.

(** ** The equations that are solved *)
(** Every slab of the result is what the solver returns for its right hand side, bit by bit; nothing
    else is rounded.  These equations have only one solution. *)
Theorem C97_slabs E sol0 sol1 M b k same w x n : march_data E sol0 sol1 M b k -> (n < c_N (e_c E))%nat ->
  solves E sol0 sol1 M b (f_march E sol0 sol1 M same b w x) n.
Proof.
  intros HD Hn. eexists _, _. split; [apply (rhs_is E sol0 sol1 M b k HD); exact Hn|]. intros j i l Hj Hi Hl.
  rewrite (entry E sol0 sol1 M b k HD) by (repeat split; assumption). rewrite slab_sol_eq.
  instantiate (1 := fun _ => fz 0). destruct (Nat.eqb n 0); reflexivity.
Qed.
Theorem C97_unique E sol0 sol1 M b k same w x y : march_data E sol0 sol1 M b k -> (forall n, (n < c_N (e_c E))%nat -> solves E sol0 sol1 M b y n) ->
  forall n j i l, index E n j i l -> y (row_of E n j i l) = f_march E sol0 sol1 M same b w x (row_of E n j i l).
Proof.
  intros HD Hy. set (X := f_march E sol0 sol1 M same b w x).
  assert (K : forall n, (n < c_N (e_c E))%nat -> forall j i l, (j < 4)%nat -> (i < ntime (e_c E) j)%nat -> (l < d_dim (e_D E) (spc j))%nat -> y (row_of E n j i l) = X (row_of E n j i l)).
  2: { intros n j i l [Hn [Hj [Hi Hl]]]. apply K; assumption. }
  pose proof HD as [HE [[D0 _] [[D1 _] _]]]. intro n. induction n as [n IH] using lt_wf_ind. intros Hn j i l Hj Hi Hl.
  destruct (Hy n Hn) as [r [w0 [Hr HS]]]. destruct (C97_slabs E sol0 sol1 M b k same w x n HD Hn) as [r' [w' [Hr' HS']]]. fold X in Hr', HS'.
  assert (R : forall J, (J < lay_dim (e_Lp E))%nat -> r J = r' J).
  { intros J HJ. rewrite (rhs_uniq E sol0 sol1 M b k HD same w x n r' Hn Hr' J HJ). apply (rhs_uniq E sol0 sol1 M b k HD same w x n r Hn); [|exact HJ].
    destruct Hr as [v [Hv Hr]]. exists v. split; [|exact Hr]. intros H0 j0 l0 Hj0 Hl0. rewrite (Hv H0 j0 l0 Hj0 Hl0). f_equal. apply IH; [lia|lia|lia|apply q_lt, Hj0|exact Hl0]. }
  assert (P : (dof (e_Lp E) j i l < lay_dim (e_Lp E))%nat) by (apply (dof_lt E 4 (nc_pre (e_c E))); auto; apply (eo_p _ HE)).
  rewrite HS, HS' by assumption. destruct (Nat.eqb n 0); [apply D0|apply D1]; assumption.
Qed.

(** What is added to 0 stays what it is, except that -0 becomes 0: the entries of b and the values that
    are handed on are not rounded. *)
Theorem C97_copies y : fadd (fz 0) y = y \/ (y = S754_zero true /\ fadd (fz 0) y = fz 0).
Proof. destruct y as [[]|[]| |[] m e]; auto. Qed.

(** ** What does not matter *)
(** what uh_pre and x_sol contain before the call, and whether x_sol is b itself *)
Theorem C97_scratch E sol0 sol1 M b k same w x same' w' x' n j i l : march_data E sol0 sol1 M b k -> index E n j i l ->
  f_march E sol0 sol1 M same b w x (row_of E n j i l) = f_march E sol0 sol1 M same' b w' x' (row_of E n j i l).
Proof. intros HD Hi. rewrite !(entry E sol0 sol1 M b k HD) by exact Hi. reflexivity. Qed.
(** the entries of b in the later slabs, be they nan: no bit changes *)
Theorem C97_causal E sol0 sol1 M b b' k same w x same' w' x' n j i l : march_data E sol0 sol1 M b k -> march_data E sol0 sol1 M b' k -> index E n j i l ->
  (forall m j i l, (m <= n)%nat -> index E m j i l -> b (row_of E m j i l) = b' (row_of E m j i l)) ->
  f_march E sol0 sol1 M same b w x (row_of E n j i l) = f_march E sol0 sol1 M same' b' w' x' (row_of E n j i l).
Proof.
  intros HD HD' [Hn [Hj [Hi Hl]]] HB. set (X := f_march E sol0 sol1 M same b w x). set (X' := f_march E sol0 sol1 M same' b' w' x').
  pose proof HD as [HE [[D0 _] [[D1 _] _]]].
  revert Hn HB j i l Hj Hi Hl. induction n as [n IH] using lt_wf_ind. intros Hn HB j i l Hj Hi Hl.
  destruct (C97_slabs E sol0 sol1 M b k same w x n HD Hn) as [r [w1 [Hr HS]]]. fold X in Hr, HS.
  destruct (C97_slabs E sol0 sol1 M b' k same' w' x' n HD' Hn) as [r' [w1' [Hr' HS']]]. fold X' in Hr', HS'.
  assert (R : forall J, (J < lay_dim (e_Lp E))%nat -> r J = r' J).
  { intros J HJ. rewrite (rhs_uniq E sol0 sol1 M b' k HD' same' w' x' n r' Hn Hr' J HJ). apply (rhs_uniq E sol0 sol1 M b' k HD' same' w' x' n r Hn); [|exact HJ].
    destruct Hr as [v [Hv Hr]]. exists v. split.
    - intros H0 j0 l0 Hj0 Hl0. rewrite (Hv H0 j0 l0 Hj0 Hl0). f_equal. apply IH; [lia|lia| |lia|apply q_lt, Hj0|exact Hl0].
      intros m j1 i1 l1 Hm. apply HB. lia.
    - intros j0 i0 l0 Hj0 Hi0 Hl0. rewrite Hr by assumption. f_equal. apply HB; [lia|repeat split; assumption]. }
  assert (P : (dof (e_Lp E) j i l < lay_dim (e_Lp E))%nat) by (apply (dof_lt E 4 (nc_pre (e_c E))); auto; apply (eo_p _ HE)).
  rewrite HS, HS' by assumption. destruct (Nat.eqb n 0); [apply D0|apply D1]; assumption.
Qed.

(** ** Accuracy *)
(** the last values of slab [n] *)
Definition end_of (E : env) (n : nat) (x v : nat -> R) : Prop :=
  forall j l, (j < 2)%nat -> (l < d_dim (e_D E) (spc j))%nat -> v (dof (e_Lb E) j 0 l) = x (row_of E n j (c_q (e_c E)) l).
Lemma fr_clean y : fr (fadd (fz 0) y) = fr y.
Proof. destruct (C97_copies y) as [->|[-> ->]]; reflexivity. Qed.
Lemma finite_clean y : finite (fadd (fz 0) y) <-> finite y.
Proof. destruct (C97_copies y) as [->|[-> ->]]; [tauto|]. split; intros _; repeat split; discriminate. Qed.
Lemma nan_clean y : fadd (fz 0) y = S754_nan <-> y = S754_nan.
Proof. destruct (C97_copies y) as [->|[-> ->]]; [tauto|]. split; discriminate. Qed.
Lemma app_exact y : double y -> app y (fr y) (Rabs (fr y)) 0 0 (finite y) (y = S754_nan).
Proof.
  intro H. split; [exact H|]. split; [apply Rle_refl|]. split; [|split; [tauto|tauto]]. intro F. split; [exact F|].
  replace (fr y - fr y) with 0 by ring. rewrite Rabs_R0. cbn [pow INR]. lra.
Qed.
(** whether the right hand side has a term of the slab before *)
Definition jumps (n j i : nat) : bool := Nat.ltb 0 n && first j i.
Section Accuracy.
  Variables (E : env) (sol0 sol1 : fvec -> fvec -> fvec) (M : frows) (b : fvec) (k : nat) (same : bool) (w x : fvec) (n j i l : nat) (r : fvec).
  Hypothesis HD : march_data E sol0 sol1 M b k.
  Hypothesis Hi : index E n j i l.
  Let X := f_march E sol0 sol1 M same b w x.
  Hypothesis Hr : rhs_of E M b X n r.
  Variables (v va : nat -> R).
  Hypothesis Hv : end_of E (n - 1) (fun J => fr (X J)) v.
  Hypothesis Hva : end_of E (n - 1) (fun J => Rabs (fr (X J))) va.
  Definition all_ends (P : spec_float -> Prop) : Prop := forall p, In p (M (dof (e_Lb E) j 0 l)) -> forall j' l', (j' < 2)%nat -> (l' < d_dim (e_D E) (spc j'))%nat ->
    fst p = dof (e_Lb E) j' 0 l' -> P (X (row_of E (n - 1) j' (c_q (e_c E)) l')).
  Lemma rhs_app : exists fin nn : Prop,
    (fin <-> finite (b (row_of E n j i l)) /\ (jumps n j i = true -> List.Forall (fun p => finite (snd p)) (M (dof (e_Lb E) j 0 l)) /\ all_ends finite))
    /\ (nn <-> b (row_of E n j i l) = S754_nan \/ (jumps n j i = true /\ exists p, In p (M (dof (e_Lb E) j 0 l)) /\ (snd p = S754_nan \/
          exists j' l', (j' < 2)%nat /\ (l' < d_dim (e_D E) (spc j'))%nat /\ fst p = dof (e_Lb E) j' 0 l' /\ X (row_of E (n - 1) j' (c_q (e_c E)) l') = S754_nan)))
    /\ app (r (dof (e_Lp E) j i l)) ((if jumps n j i then r_mult M v (dof (e_Lb E) j 0 l) else 0) + fr (b (row_of E n j i l)))
      ((if jumps n j i then a_mult M va (dof (e_Lb E) j 0 l) else 0) + Rabs (fr (b (row_of E n j i l)))) (k + 3) k fin nn.
  Proof.
    pose proof HD as [HE [_ [_ [HM [DM Db]]]]]. pose proof Hi as [Hn [Hj [Hii Hl]]].
    pose proof (app_exact _ (Db _ (row_lt E sol0 sol1 M b k HD n j i l Hi))) as PB.
    destruct Hr as [v0 [H0 HR]]. rewrite HR by assumption. fold (jumps n j i). destruct (jumps n j i) eqn:EJ.
    - unfold jumps in EJ. apply andb_prop in EJ as [E1 E2]. apply Nat.ltb_lt in E1. unfold first in E2. apply andb_prop in E2 as [E2 E3]. apply Nat.ltb_lt in E2.
      specialize (H0 E1).
      assert (IB : (dof (e_Lb E) j 0 l < lay_dim (e_Lb E))%nat) by (apply (bnd_lt E sol0 sol1 M b k HD); assumption).
      assert (VD : forall J, (J < lay_dim (e_Lb E))%nat -> double (v0 J) /\ v J = fr (v0 J) /\ va J = Rabs (fr (v0 J))).
      { intros J HJ. destruct (dof_of E 2 nc_bnd _ J (eo_b _ HE) HJ) as [j1 [i1 [l1 [Hj1 [Hi1 [Hl1 ->]]]]]]. unfold nc_bnd in Hi1. assert (i1 = 0)%nat by lia. subst i1.
        rewrite H0, Hv, Hva, fr_clean by assumption. split; [|auto]. apply add_double; [reflexivity|]. unfold X.
        assert (I1 : index E (n - 1) j1 (c_q (e_c E)) l1) by (split; [lia|]; split; [lia|]; split; [apply q_lt, Hj1|exact Hl1]).
        rewrite (entry E sol0 sol1 M b k HD) by exact I1. apply (proj2 (S_double E sol0 sol1 M b k HD (n - 1) ltac:(lia))).
        apply (dof_lt E 4 (nc_pre (e_c E))); [apply (eo_p _ HE)|lia|apply q_lt, Hj1|exact Hl1]. }
      pose proof (mult_app k _ M v0 _ HM DM (fun J HJ => proj1 (VD J HJ)) IB) as P1.
      rewrite (r_mult_local _ _ HM v (fun J => fr (v0 J)) (fun J HJ => proj1 (proj2 (VD J HJ))) _ IB).
      rewrite (a_mult_local _ _ HM va (fun J => Rabs (fr (v0 J))) (fun J HJ => proj2 (proj2 (VD J HJ))) _ IB).
      pose proof (app_add _ _ _ _ _ _ _ _ _ _ _ _ _ _ (app_add _ _ _ _ _ _ _ _ _ _ _ _ _ _ app_zero P1) PB) as P2.
      rewrite !Rplus_0_l in P2. eapply (app_mono _ _ _ _ _ (k + 3) _ k) in P2; [|lia|lia|apply Rle_refl].
      assert (CO : forall p, In p (M (dof (e_Lb E) j 0 l)) -> exists j' l', (j' < 2)%nat /\ (l' < d_dim (e_D E) (spc j'))%nat /\ fst p = dof (e_Lb E) j' 0 l'
        /\ v0 (fst p) = fadd (fz 0) (X (row_of E (n - 1) j' (c_q (e_c E)) l'))).
      { intros p Hp. specialize (HM _ IB). rewrite List.Forall_forall in HM. specialize (HM p Hp).
        destruct (dof_of E 2 nc_bnd _ _ (eo_b _ HE) HM) as [j1 [i1 [l1 [Hj1 [Hi1 [Hl1 EQ]]]]]]. unfold nc_bnd in Hi1. assert (i1 = 0)%nat by lia. subst i1.
        exists j1, l1. split; [exact Hj1|]. split; [exact Hl1|]. split; [exact EQ|]. rewrite EQ. apply H0; assumption. }
      eexists _, _. split; [|split; [|exact P2]].
      + unfold row_finite, all_ends. rewrite !List.Forall_forall. split.
        * intros [[_ F] FB]. split; [exact FB|]. intros _. split; [intros p Hp; apply (F p Hp)|].
          intros p Hp j' l' Hj' Hl' Ep. destruct (F p Hp) as [_ F2]. rewrite Ep, (H0 j' l' Hj' Hl') in F2. apply finite_clean, F2.
        * intros [FB F]. destruct (F eq_refl) as [F1 F2]. split; [|exact FB]. split; [exact I|]. intros p Hp. split; [apply F1, Hp|].
          destruct (CO p Hp) as [j' [l' [Hj' [Hl' [Ep ->]]]]]. apply finite_clean. apply (F2 p Hp); assumption.
      + unfold row_nan. rewrite List.Exists_exists. split.
        * intros [[[]|[p [Hp F]]]|F]; [|left; exact F]. right. split; [reflexivity|]. exists p. split; [exact Hp|]. destruct F as [F|F]; [left; exact F|right].
          destruct (CO p Hp) as [j' [l' [Hj' [Hl' [Ep EQ]]]]]. exists j', l'. rewrite EQ in F. apply (proj1 (nan_clean _)) in F. auto.
        * intros [F|[_ [p [Hp F]]]]; [right; exact F|]. left. right. exists p. split; [exact Hp|]. destruct F as [F|[j' [l' [Hj' [Hl' [Ep F]]]]]]; [left; exact F|right].
          rewrite Ep, (H0 j' l' Hj' Hl'). apply nan_clean, F.
    - pose proof (app_add _ _ _ _ _ _ _ _ _ _ _ _ _ _ app_zero PB) as P2. eapply (app_mono _ _ _ _ _ (k + 3) _ k) in P2; [|lia|lia|apply Rle_refl].
      eexists _, _. split; [|split; [|exact P2]].
      + split; [intros [_ F]; split; [exact F|discriminate]|tauto].
      + split; [tauto|intros [F|[F _]]; [tauto|discriminate]].
  Qed.
End Accuracy.
(** A finite entry of the right hand side of a slab is the exact one up to the rounding errors of one row
    of the scaled mass matrix and two additions. *)
Theorem C97_rhs E sol0 sol1 M b k same w x n j i l r v va : march_data E sol0 sol1 M b k -> index E n j i l ->
  rhs_of E M b (f_march E sol0 sol1 M same b w x) n r ->
  end_of E (n - 1) (fun J => fr (f_march E sol0 sol1 M same b w x J)) v -> end_of E (n - 1) (fun J => Rabs (fr (f_march E sol0 sol1 M same b w x J))) va ->
  finite (r (dof (e_Lp E) j i l)) ->
  Rabs (fr (r (dof (e_Lp E) j i l)) - ((if jumps n j i then r_mult M v (dof (e_Lb E) j 0 l) else 0) + fr (b (row_of E n j i l))))
  <= ((1 + u) ^ (k + 3) - 1) * ((if jumps n j i then a_mult M va (dof (e_Lb E) j 0 l) else 0) + Rabs (fr (b (row_of E n j i l)))) + INR k * bpow radix2 (-1075) * (1 + u) ^ (k + 3).
Proof.
  intros HD Hi Hr Hv Hva Hf. destruct (rhs_app E sol0 sol1 M b k same w x n j i l r HD Hi Hr v va Hv Hva) as [fin [nn [_ [_ P]]]].
  destruct P as [_ [_ [P _]]]. exact (proj2 (P Hf)).
Qed.
(** Residual.  If the solver leaves at most [tol] in a row of the slab matrix [A] for the right hand side
    of this run, the result leaves at most [tol] and these rounding errors in the row of the block
    bidiagonal system, whatever the number of slabs before. *)
Theorem C97_residual E sol0 sol1 M b k same w x n j i l r w' v va A y tol : march_data E sol0 sol1 M b k -> index E n j i l -> size (lay_dim (e_Lp E)) A ->
  rhs_of E M b (f_march E sol0 sol1 M same b w x) n r ->
  end_of E (n - 1) (fun J => fr (f_march E sol0 sol1 M same b w x J)) v -> end_of E (n - 1) (fun J => Rabs (fr (f_march E sol0 sol1 M same b w x J))) va ->
  finite (r (dof (e_Lp E) j i l)) ->
  Rabs (r_mult A (fun J => fr ((if Nat.eqb n 0 then sol0 else sol1) r w' J)) (dof (e_Lp E) j i l) - fr (r (dof (e_Lp E) j i l))) <= tol ->
  on_slab E n (f_march E sol0 sol1 M same b w x) y ->
  Rabs (r_mult A (fun J => fr (y J)) (dof (e_Lp E) j i l) - (if jumps n j i then r_mult M v (dof (e_Lb E) j 0 l) else 0) - fr (b (row_of E n j i l)))
  <= tol + (((1 + u) ^ (k + 3) - 1) * ((if jumps n j i then a_mult M va (dof (e_Lb E) j 0 l) else 0) + Rabs (fr (b (row_of E n j i l)))) + INR k * bpow radix2 (-1075) * (1 + u) ^ (k + 3)).
Proof.
  intros HD Hi HA Hr Hv Hva Hf HT Hy. pose proof (C97_rhs E sol0 sol1 M b k same w x n j i l r v va HD Hi Hr Hv Hva Hf) as P.
  pose proof HD as [HE [[D0 _] [[D1 _] _]]]. pose proof Hi as [Hn [Hj [Hii Hl]]].
  destruct (C97_slabs E sol0 sol1 M b k same w x n HD Hn) as [r' [w1 [Hr' HS]]].
  assert (PL : forall j i l, (j < 4)%nat -> (i < ntime (e_c E) j)%nat -> (l < d_dim (e_D E) (spc j))%nat -> (dof (e_Lp E) j i l < lay_dim (e_Lp E))%nat).
  { intros j0 i0 l0 H1 H2 H3. apply (dof_lt E 4 (nc_pre (e_c E))); auto. apply (eo_p _ HE). }
  assert (R : forall J, (J < lay_dim (e_Lp E))%nat -> r J = r' J).
  { intros J HJ. rewrite (rhs_uniq E sol0 sol1 M b k HD same w x n r' Hn Hr' J HJ). apply (rhs_uniq E sol0 sol1 M b k HD same w x n r Hn Hr J HJ). }
  assert (Y : forall J, (J < lay_dim (e_Lp E))%nat -> fr (y J) = fr ((if Nat.eqb n 0 then sol0 else sol1) r w' J)).
  { intros J HJ. destruct (dof_of E 4 (nc_pre (e_c E)) _ J (eo_p _ HE) HJ) as [j0 [i0 [l0 [H1 [H2 [H3 ->]]]]]]. f_equal. rewrite Hy by assumption.
    change (f_march E sol0 sol1 M same b w x (row_of E n j0 i0 l0) = (if Nat.eqb n 0 then sol0 else sol1) r w' (dof (e_Lp E) j0 i0 l0)).
    rewrite HS by assumption. symmetry. destruct (Nat.eqb n 0); [apply D0|apply D1]; auto. }
  rewrite (r_mult_local _ _ HA _ _ Y) by (apply PL; assumption).
  match goal with |- Rabs (?a - ?c - ?d) <= ?t + ?e => replace (a - c - d) with ((a - fr (r (dof (e_Lp E) j i l))) + (fr (r (dof (e_Lp E) j i l)) - (c + d))) by ring end.
  apply Rle_trans with (1 := Rabs_triang _ _). apply Rplus_le_compat; assumption.
Qed.
(** An entry of the right hand side is finite only if all that it is made of is; ... *)
Theorem C97_finite E sol0 sol1 M b k same w x n j i l r : march_data E sol0 sol1 M b k -> index E n j i l ->
  rhs_of E M b (f_march E sol0 sol1 M same b w x) n r -> finite (r (dof (e_Lp E) j i l)) ->
  finite (b (row_of E n j i l)) /\ (jumps n j i = true -> List.Forall (fun p => finite (snd p)) (M (dof (e_Lb E) j 0 l)) /\
    forall p j' l', In p (M (dof (e_Lb E) j 0 l)) -> (j' < 2)%nat -> (l' < d_dim (e_D E) (spc j'))%nat -> fst p = dof (e_Lb E) j' 0 l' ->
      finite (f_march E sol0 sol1 M same b w x (row_of E (n - 1) j' (c_q (e_c E)) l'))).
Proof.
  intros HD Hi Hr Hf. pose proof HD as [HE _]. set (X := f_march E sol0 sol1 M same b w x) in *.
  assert (EV : forall g : spec_float -> R, g (fz 0) = 0 -> (forall y, g (fadd (fz 0) y) = g y) -> exists v, end_of E (n - 1) (fun J => g (X J)) v).
  { intros g _ G. exists (fun J => g (hand_in (fz 0) fadd E (slab_sol (fz 0) fadd E sol0 sol1 (f_mult M) b (n - 1)) J)). intros j0 l0 Hj0 Hl0.
    rewrite (hand_in_at (fz 0) fadd E HE) by assumption. rewrite G. f_equal. symmetry. apply (entry E sol0 sol1 M b k HD).
    destruct Hi as [Hn _]. split; [lia|]. split; [lia|]. split; [apply q_lt, Hj0|exact Hl0]. }
  destruct (EV (fun y => fr y)) as [v Hv]; [reflexivity|apply fr_clean|]. destruct (EV (fun y => Rabs (fr y))) as [va Hva]; [apply Rabs_R0|intro y; rewrite fr_clean; reflexivity|].
  destruct (rhs_app E sol0 sol1 M b k same w x n j i l r HD Hi Hr v va Hv Hva) as [fin [nn [F [_ P]]]].
  destruct P as [_ [_ [P _]]]. destruct (proj1 F (proj1 (P Hf))) as [F1 F2]. split; [exact F1|]. intro HJ. destruct (F2 HJ) as [F3 F4]. split; [exact F3|].
  intros p j' l' Hp Hj' Hl' Ep. apply (F4 p Hp); assumption.
Qed.
(** ... conversely, if it is, the entry is finite unless the sum of the absolute values is within
    rounding errors of 2^1024. *)
Theorem C97_no_overflow E sol0 sol1 M b k same w x n j i l r v va : march_data E sol0 sol1 M b k -> index E n j i l ->
  rhs_of E M b (f_march E sol0 sol1 M same b w x) n r ->
  end_of E (n - 1) (fun J => fr (f_march E sol0 sol1 M same b w x J)) v -> end_of E (n - 1) (fun J => Rabs (fr (f_march E sol0 sol1 M same b w x J))) va ->
  finite (b (row_of E n j i l)) ->
  (jumps n j i = true -> List.Forall (fun p => finite (snd p)) (M (dof (e_Lb E) j 0 l)) /\
    forall p j' l', In p (M (dof (e_Lb E) j 0 l)) -> (j' < 2)%nat -> (l' < d_dim (e_D E) (spc j'))%nat -> fst p = dof (e_Lb E) j' 0 l' ->
      finite (f_march E sol0 sol1 M same b w x (row_of E (n - 1) j' (c_q (e_c E)) l'))) ->
  (1 + u) ^ (k + 3) * ((if jumps n j i then a_mult M va (dof (e_Lb E) j 0 l) else 0) + Rabs (fr (b (row_of E n j i l))) + INR k * bpow radix2 (-1075)) < bpow radix2 1024 ->
  finite (r (dof (e_Lp E) j i l)).
Proof.
  intros HD Hi Hr Hv Hva F1 F2 HT. destruct (rhs_app E sol0 sol1 M b k same w x n j i l r HD Hi Hr v va Hv Hva) as [fin [nn [F [_ P]]]].
  destruct P as [_ [_ [_ [P _]]]]. apply P; [|exact HT]. apply F. split; [exact F1|]. intro HJ. destruct (F2 HJ) as [F3 F4]. split; [exact F3|].
  intros p Hp j' l' Hj' Hl' Ep. apply (F4 p); assumption.
Qed.

(** ** nan *)
(** a solver that returns only nan if there is a nan in the right hand side *)
Definition spoils (d : nat) (sol : fvec -> fvec -> fvec) : Prop := forall r w, (exists J, (J < d)%nat /\ r J = S754_nan) -> forall I, (I < d)%nat -> sol r w I = S754_nan.
(** A nan in b fills its own slab and all the later ones, if the scaled mass matrix stores any entry (the
    slabs before keep every bit, C97_causal). *)
Theorem C97_nan E sol0 sol1 M b k same w x n j i l m j' i' l' : march_data E sol0 sol1 M b k ->
  spoils (lay_dim (e_Lp E)) sol0 -> spoils (lay_dim (e_Lp E)) sol1 ->
  (exists j l, (j < 2)%nat /\ (l < d_dim (e_D E) (spc j))%nat /\ M (dof (e_Lb E) j 0 l) <> []) ->
  index E n j i l -> b (row_of E n j i l) = S754_nan -> (n <= m)%nat -> index E m j' i' l' ->
  f_march E sol0 sol1 M same b w x (row_of E m j' i' l') = S754_nan.
Proof.
  intros HD Z0 Z1 [j2 [l2 [Hj2 [Hl2 HM2]]]] Hi Hb Hnm [Hm [Hj' [Hi' Hl']]]. pose proof HD as [HE [_ [_ [HM [DM Db]]]]].
  assert (PL : forall j i l, (j < 4)%nat -> (i < ntime (e_c E) j)%nat -> (l < d_dim (e_D E) (spc j))%nat -> (dof (e_Lp E) j i l < lay_dim (e_Lp E))%nat).
  { intros j0 i0 l0 H1 H2 H3. apply (dof_lt E 4 (nc_pre (e_c E))); auto. apply (eo_p _ HE). }
  set (X := f_march E sol0 sol1 M same b w x).
  assert (K : forall m, (n <= m)%nat -> (m < c_N (e_c E))%nat -> forall j i l, (j < 4)%nat -> (i < ntime (e_c E) j)%nat -> (l < d_dim (e_D E) (spc j))%nat -> X (row_of E m j i l) = S754_nan).
  2: { apply K; assumption. }
  intros m0 Hm0. induction Hm0 as [|m0 Hm0 IH]; intros HN0 j0 i0 l0 H1 H2 H3.
  - destruct (C97_slabs E sol0 sol1 M b k same w x n HD HN0) as [r [w1 [[v [_ HR]] HS]]]. fold X in HS. rewrite HS by assumption.
    destruct Hi as [_ [Hj [Hii Hl]]].
    assert (R : exists J, (J < lay_dim (e_Lp E))%nat /\ r J = S754_nan).
    { exists (dof (e_Lp E) j i l). split; [apply PL; assumption|]. rewrite HR by assumption. rewrite Hb. apply add_nan_r. }
    destruct (Nat.eqb n 0); [apply Z0|apply Z1]; auto.
  - destruct (C97_slabs E sol0 sol1 M b k same w x (S m0) HD HN0) as [r [w1 [[v [HV HR]] HS]]]. fold X in HV, HS. rewrite HS by assumption.
    specialize (HV ltac:(lia)). replace (S m0 - 1)%nat with m0 in HV by lia.
    assert (VN : forall J, (J < lay_dim (e_Lb E))%nat -> v J = S754_nan).
    { intros J HJ. destruct (dof_of E 2 nc_bnd _ J (eo_b _ HE) HJ) as [j1 [i1 [l1 [Hj1 [Hi1 [Hl1 ->]]]]]]. unfold nc_bnd in Hi1. assert (i1 = 0)%nat by lia. subst i1.
      rewrite HV by assumption. apply nan_clean. apply IH; [lia|lia|apply q_lt, Hj1|exact Hl1]. }
    assert (IB : (dof (e_Lb E) j2 0 l2 < lay_dim (e_Lb E))%nat) by (apply (bnd_lt E sol0 sol1 M b k HD); assumption).
    assert (Q : (0 < ntime (e_c E) j2)%nat) by (unfold ntime; lia).
    assert (R : exists J, (J < lay_dim (e_Lp E))%nat /\ r J = S754_nan).
    { exists (dof (e_Lp E) j2 0 l2). split; [apply PL; [lia|exact Q|exact Hl2]|]. rewrite HR by (try assumption; lia).
      unfold first. destruct (Nat.ltb_spec j2 2); [|lia]. cbn [Nat.ltb Nat.leb andb Nat.eqb].
      assert (NN : f_mult M v (dof (e_Lb E) j2 0 l2) = S754_nan).
      { assert (VD : forall J, (J < lay_dim (e_Lb E))%nat -> double (v J)) by (intros J HJ; rewrite (VN J HJ); reflexivity).
        destruct (mult_app k _ M v _ HM DM VD IB) as [_ [_ [_ [_ P]]]]. apply P. unfold row_nan. specialize (HM _ IB).
        destruct (M (dof (e_Lb E) j2 0 l2)) as [|p row]; [congruence|]. constructor. right. apply VN. inversion HM; assumption. }
      rewrite NN, (proj2 (nan_clean _) eq_refl). apply add_nan_l. }
    cbn [Nat.eqb]. apply Z1; auto.
Qed.

(** Zeros of either sign give zeros, with finite entries in the matrix and solvers that return zeros for
    zeros. *)
Definition keeps_zero (d : nat) (sol : fvec -> fvec -> fvec) : Prop := forall r w, (forall J, (J < d)%nat -> is_dbl (r J) 0) -> forall I, (I < d)%nat -> is_dbl (sol r w I) 0.
Theorem C97_zero E sol0 sol1 M b k same w x n j i l : march_data E sol0 sol1 M b k -> keeps_zero (lay_dim (e_Lp E)) sol0 -> keeps_zero (lay_dim (e_Lp E)) sol1 ->
  all_finite (lay_dim (e_Lb E)) M -> (forall J, (J < lay_dim (e_Lf E))%nat -> is_dbl (b J) 0) -> index E n j i l ->
  is_dbl (f_march E sol0 sol1 M same b w x (row_of E n j i l)) 0.
Proof.
  intros HD Z0 Z1 FM Hb [Hn [Hj [Hi Hl]]]. pose proof HD as [HE [_ [_ [HM [DM _]]]]]. set (X := f_march E sol0 sol1 M same b w x).
  revert Hn j i l Hj Hi Hl. induction n as [n IH] using lt_wf_ind. intros Hn j i l Hj Hi Hl.
  destruct (C97_slabs E sol0 sol1 M b k same w x n HD Hn) as [r [w1 [[v [HV HR]] HS]]]. fold X in HV, HS. rewrite HS by assumption.
  assert (P : (dof (e_Lp E) j i l < lay_dim (e_Lp E))%nat) by (apply (dof_lt E 4 (nc_pre (e_c E))); auto; apply (eo_p _ HE)).
  assert (R : forall J, (J < lay_dim (e_Lp E))%nat -> is_dbl (r J) 0).
  2: { destruct (Nat.eqb n 0); [apply Z0|apply Z1]; assumption. }
  intros J HJ. destruct (dof_of E 4 (nc_pre (e_c E)) _ J (eo_p _ HE) HJ) as [j0 [i0 [l0 [H1 [H2 [H3 ->]]]]]]. rewrite HR by assumption.
  apply zero_add; [|apply Hb; apply (row_lt E sol0 sol1 M b k HD); repeat split; assumption].
  destruct (Nat.ltb_spec 0 n) as [H0|H0]; cbn [andb]; [|apply (fz_ok 0); lia]. unfold first. destruct (Nat.ltb_spec j0 2) as [Hj2|Hj2]; cbn [andb]; [|apply (fz_ok 0); lia].
  destruct (Nat.eqb i0 0); [|apply (fz_ok 0); lia]. apply zero_add; [apply (fz_ok 0); lia|]. specialize (HV H0).
  assert (IB : (dof (e_Lb E) j0 0 l0 < lay_dim (e_Lb E))%nat) by (apply (bnd_lt E sol0 sol1 M b k HD); assumption).
  apply zero_mult. intros p Hp. specialize (HM _ IB). specialize (FM _ IB). destruct (DM _ IB) as [DD _]. unfold row_double in DD. rewrite List.Forall_forall in *.
  split; [apply DD, Hp|]. split; [apply FM, Hp|].
  destruct (dof_of E 2 nc_bnd _ _ (eo_b _ HE) (HM p Hp)) as [j1 [i1 [l1 [Hj1 [Hi1 [Hl1 ->]]]]]]. unfold nc_bnd in Hi1. assert (i1 = 0)%nat by lia. subst i1.
  rewrite HV by assumption. apply zero_add; [apply (fz_ok 0); lia|]. apply IH; [lia|lia|lia|apply q_lt, Hj1|exact Hl1].
Qed.

(** ** The loops are those of the model over the reals *)
Section Reals.
  Variables (E : env) (B : matrix) (sol0 sol1 : vec -> vec -> vec) (bi xi : nat).
  Notation c := (e_c E).
  Let mM := mult (lay_dim (e_Lb E)) B.
  Definition mholds (b : vec) (st : vec * vec * vec) (s : state) : Prop :=
    let '(r, uh, x) := st in
    s_fes s = true /\ s_sfi s = Some (fun r w => Ok (sol0 r w)) /\ s_ssl s = Some (fun r w => Ok (sol1 r w)) /\ s_mam s = Some B /\ s_vbi s <> None
    /\ s_brp s = Some r /\ s_uhp s = uh /\ s_heap s xi = x /\ (bi <> xi -> s_heap s bi = b).
  Lemma march_pass_real b st s n k : mholds b st s ->
    exists s', imp_slab E bi xi n k s = (Ok tt, s') /\ mholds b (march_pass 0 Rplus E sol0 sol1 mM (Nat.eqb bi xi) b n k st) s'.
  Proof.
    destruct st as [[r uh] x]. intros [Hf [H0 [H1 [Hm [Hv [Hr [Hu [Hx Hb]]]]]]]].
    assert (Hsrc : s_heap s bi = if Nat.eqb bi xi then x else b).
    { destruct (Nat.eqb_spec bi xi) as [->|Hne]; [exact Hx|exact (Hb Hne)]. }
    set (r1 := copies Rplus true (e_Lp E) (e_Lf E) (slab_pairs c k) (if Nat.eqb bi xi then x else b) r).
    set (u1 := if Nat.eqb n 0 then sol0 r1 uh else sol1 r1 uh).
    assert (Es : forall s1, s_sfi s1 = s_sfi s -> s_ssl s1 = s_ssl s -> s_uhp s1 = s_uhp s -> solve_slab n r1 s1 = (Ok u1, w_uhp u1 s1)).
    { intros s1 X1 X2 X3. unfold solve_slab. rewrite bind_get.
      rewrite (bind_need _ _ _ (fun r w => Ok (if Nat.eqb n 0 then sol0 r w else sol1 r w))) by (rewrite X1, X2, H0, H1; destruct (Nat.eqb n 0); reflexivity).
      rewrite (bind_lift_ok _ _ u1) by (rewrite X3, Hu; reflexivity). rewrite bind_modify. reflexivity. }
    unfold imp_slab. rewrite bind_fes_ok by exact Hf. rewrite bind_get, (bind_need _ _ _ _ _ Hr). cbv zeta. rewrite Hsrc, moves. fold r1.
    rewrite bind_modify. rewrite (bind_ok _ _ _ _ _ (Es (w_brp (Some r1) s) eq_refl eq_refl eq_refl)). rewrite bind_get.
    destruct (s_vbi s) as [v0|] eqn:Ev; [|congruence].
    rewrite (bind_need _ _ _ v0) by exact Ev. rewrite moves. set (vin := copies Rplus true (e_Lb E) (e_Lp E) _ u1 vzero). rewrite bind_modify, bind_get.
    rewrite (bind_need _ _ _ B) by exact Hm. rewrite bind_modify, moves. rewrite bind_modify, bind_get. rewrite moves.
    eexists. split; [reflexivity|]. unfold march_pass, mholds. fold r1. fold u1.
    split; [exact Hf|]. split; [exact H0|]. split; [exact H1|]. split; [exact Hm|]. split; [discriminate|]. split; [reflexivity|]. split; [reflexivity|].
    split; [rewrite put_same; rewrite <- Hx; reflexivity|]. intro Hne. rewrite put_other by exact Hne. exact (Hb Hne).
  Qed.
  Lemma march_passes_real b ns : forall st s k, mholds b st s ->
    exists s', slabs c (imp_slab E bi xi) ns k s = (Ok tt, s') /\ mholds b (march_passes 0 Rplus E sol0 sol1 mM (Nat.eqb bi xi) b ns k st) s'.
  Proof.
    induction ns as [|n ns IH]; intros st s k H; [exists s; split; [reflexivity|exact H]|].
    destruct (march_pass_real b st s n k H) as [s1 [E1 H1]]. destruct (IH _ s1 (cnt_next c k) H1) as [s' [E' H']]. exists s'. split; [|exact H'].
    cbn [slabs]. rewrite (bind_ok _ _ _ _ _ E1). exact E'.
  Qed.
  (** With real numbers the loops compute what pre_time_marching_improved of SpaceTimeModel.v does. *)
  Theorem C97_reals s : c_jumps c = false -> (exists g, lookup (c_stab c) "primal-jump" = Ok g) -> s_fes s = true -> s_brp s <> None -> s_vbi s <> None -> s_mam s = Some B ->
    s_sfi s = Some (fun r w => Ok (sol0 r w)) -> s_ssl s = Some (fun r w => Ok (sol1 r w)) ->
    exists s', pre_time_marching_improved E bi xi s = (Ok tt, s')
      /\ s_heap s' xi = march_loops 0 Rplus E sol0 sol1 (mult (lay_dim (e_Lb E)) B) (Nat.eqb bi xi) (s_heap s bi) (s_uhp s) (s_heap s xi).
  Proof.
    intros Hj [g Hg] Hf Hr Hv Hm H0 H1. unfold pre_time_marching_improved. rewrite bind_err_if_ok by exact Hj. rewrite (bind_lift_ok _ _ _ _ Hg), bind_get.
    destruct (s_brp s) as [r0|] eqn:Er; [|congruence]. rewrite (bind_need _ _ _ r0) by reflexivity. rewrite bind_modify.
    destruct (march_passes_real (s_heap s bi) (seq 0 (c_N c)) (fun _ => 0, s_uhp s, if Nat.eqb bi xi then s_heap s bi else s_heap s xi) (w_brp (Some vzero) s) cnt0) as [s' [E' H']].
    - split; [exact Hf|]. split; [exact H0|]. split; [exact H1|]. split; [exact Hm|]. split; [exact Hv|]. split; [reflexivity|]. split; [reflexivity|].
      split; [|reflexivity]. destruct (Nat.eqb_spec bi xi) as [->|]; reflexivity.
    - exists s'. split; [exact E'|]. unfold march_loops. fold mM.
      destruct (march_passes 0 Rplus E sol0 sol1 mM (Nat.eqb bi xi) (s_heap s bi) (seq 0 (c_N c)) cnt0 (fun _ => 0, s_uhp s, if Nat.eqb bi xi then s_heap s bi else s_heap s xi)) as [[a u0] o] eqn:EP.
      destruct H' as [_ [_ [_ [_ [_ [_ [_ [H' _]]]]]]]]. rewrite H'. transitivity (snd (a, u0, o)); [reflexivity|]. rewrite <- EP. reflexivity.
  Qed.
End Reals.

(** ** Examples *)
(** Solvers for the identity and for twice the identity, a scaled mass matrix with two entries in a row. *)
Definition id_sol (r w : fvec) : fvec := r.
Definition half_sol (r w : fvec) : fvec := fun J => fmul (fz 2) (r J).
Definition exM : frows := fun I => [(I, fz 3); (0%nat, fz 1)].
Lemma ex_solvers d : solver d id_sol /\ solver d half_sol.
Proof.
  split; (split; [intros r r' w w' H I HI; unfold id_sol, half_sol; rewrite (H I HI); reflexivity|]); intros r w H I HI; [exact (H I HI)|].
  apply mul_double; [reflexivity|exact (H I HI)].
Qed.
Definition sum_sol (d : nat) (r w : fvec) : fvec := fun I => fold_left fadd (map r (seq 0 d)) (fz 0).
Lemma ex_spoils d : solver d (sum_sol d) /\ spoils d (sum_sol d).
Proof.
  split; [split|].
  - intros r r' w w' H I _. unfold sum_sol. f_equal. apply map_ext_in. intros J HJ. apply in_seq in HJ. apply H. lia.
  - intros r w H I _. unfold sum_sol. assert (D : forall y, In y (map r (seq 0 d)) -> double y).
    { intros y Hy. apply in_map_iff in Hy as [J [<- HJ]]. apply in_seq in HJ. apply H. lia. }
    assert (D0 : double (fz 0)) by reflexivity. revert D D0. generalize (fz 0). induction (map r (seq 0 d)) as [|y ys IH]; intros s D D0; [exact D0|]. cbn [fold_left].
    apply IH; [intros z Hz; apply D; right; exact Hz|]. apply add_double; [exact D0|apply D; left; reflexivity].
  - intros r w [J [HJ HN]] I _. unfold sum_sol. assert (IN : In S754_nan (map r (seq 0 d))) by (rewrite <- HN; apply in_map, in_seq; lia). clear -IN. revert IN. generalize (fz 0).
    induction (map r (seq 0 d)) as [|y ys IH]; intros s []; cbn [fold_left].
    + subst y. rewrite add_nan_r. clear. induction ys as [|z zs IH]; [reflexivity|]. cbn [fold_left]. rewrite add_nan_l. exact IH.
    + apply IH. assumption.
Qed.
Definition exb (J : nat) : spec_float := match J with 3%nat => S754_zero true | _ => fn J end.
(** Two slabs of linear elements in time: the hypotheses hold; an entry of the first slab, an entry of the
    second with the term of the first, and the one that was -0. *)
Theorem C97_nonvacuous : exists c, let E := exE exI c in march_data E id_sol half_sol exM exb 2 /\ index E 0 0 0 2 /\ index E 1 0 0 2 /\ jumps 1 0 0 = true
  /\ f_march E id_sol half_sol exM false exb ex_x ex_x (row_of E 0 0 1 0) = fz 0 /\ exb (row_of E 0 0 1 0) = S754_zero true
  /\ f_march E id_sol half_sol exM false exb ex_x ex_x (row_of E 0 0 1 2) = fz 5
  /\ f_march E id_sol half_sol exM false exb ex_x ex_x (row_of E 1 0 0 2) = fz 46.
Proof.
  destruct (ex_env 1 2) as [c [_ [H1 [H2 H3]]]]; try lia. exists c. cbv zeta.
  destruct c as [cq cqs ck cks cN cT ct cdt clam cst cj cwp cel cqr cqh cph cdp csm cep cv cdv]. cbn in H1, H2, H3. subst cq cqs cN.
  set (c := mkCfg _ _ _ _ _ _ _ _ _ _ _ _ _ _ _ _ _ _ _ _ _). set (E := exE exI c).
  assert (L1 : lay_dim (e_Lp E) = 24%nat) by (vm_compute; reflexivity). assert (L2 : lay_dim (e_Lb E) = 6%nat) by (vm_compute; reflexivity).
  assert (L3 : lay_dim (e_Lf E) = 48%nat) by (vm_compute; reflexivity).
  split.
  { split; [apply exE_ok; cbn; lia|]. rewrite L1, L2, L3. destruct (ex_solvers 24) as [S0 S1]. split; [exact S0|]. split; [exact S1|].
    split; [intros I HI; apply List.Forall_cons; [exact HI|]; apply List.Forall_cons; [cbn; lia|apply List.Forall_nil]|].
    split; [intros I HI; split; [apply List.Forall_cons; [reflexivity|]; apply List.Forall_cons; [reflexivity|apply List.Forall_nil]|cbn; lia]|].
    intros J HJ. unfold exb. do 4 (destruct J as [|J]; [reflexivity|]). apply dbl_double with (a := INR (4 + J)). apply fn_ok. lia. }
  split; [vm_compute; lia|]. split; [vm_compute; lia|]. split; [reflexivity|].
  split; [vm_compute; reflexivity|]. split; [vm_compute; reflexivity|]. split; vm_compute; reflexivity.
Qed.
(** three slabs, a nan in the second: the first keeps its values, the two others are lost *)
Definition exn (J : nat) : spec_float := if Nat.eqb J 6 then S754_nan else fz 1.
Theorem C97_nan_nonvacuous : exists c, let E := exE exI c in let sol := sum_sol (lay_dim (e_Lp E)) in
  march_data E sol sol exM exn 2 /\ spoils (lay_dim (e_Lp E)) sol /\ index E 1 0 0 0 /\ exn (row_of E 1 0 0 0) = S754_nan
  /\ (exists j l, (j < 2)%nat /\ (l < d_dim (e_D E) (spc j))%nat /\ exM (dof (e_Lb E) j 0 l) <> []) /\ index E 2 3 1 2
  /\ f_march E sol sol exM false exn ex_x ex_x (row_of E 0 3 1 2) = fz 24 /\ f_march E sol sol exM false exn ex_x ex_x (row_of E 2 3 1 2) = S754_nan.
Proof.
  destruct (ex_env 1 3) as [c [_ [H1 [H2 H3]]]]; try lia. exists c. cbv zeta.
  destruct c as [cq cqs ck cks cN cT ct cdt clam cst cj cwp cel cqr cqh cph cdp csm cep cv cdv]. cbn in H1, H2, H3. subst cq cqs cN.
  set (c := mkCfg _ _ _ _ _ _ _ _ _ _ _ _ _ _ _ _ _ _ _ _ _). set (E := exE exI c).
  assert (L1 : lay_dim (e_Lp E) = 24%nat) by (vm_compute; reflexivity). assert (L2 : lay_dim (e_Lb E) = 6%nat) by (vm_compute; reflexivity).
  rewrite L1. destruct (ex_spoils 24) as [S0 S1].
  assert (HD : march_data E (sum_sol 24) (sum_sol 24) exM exn 2).
  { split; [apply exE_ok; cbn; lia|]. rewrite L1, L2. split; [exact S0|]. split; [exact S0|].
    split; [intros I HI; apply List.Forall_cons; [exact HI|]; apply List.Forall_cons; [cbn; lia|apply List.Forall_nil]|].
    split; [intros I HI; split; [apply List.Forall_cons; [reflexivity|]; apply List.Forall_cons; [reflexivity|apply List.Forall_nil]|cbn; lia]|].
    intros J HJ. unfold exn. destruct (Nat.eqb J 6); reflexivity. }
  assert (I1 : index E 1 0 0 0) by (vm_compute; lia). assert (I2 : index E 2 3 1 2) by (vm_compute; lia).
  assert (HN : exn (row_of E 1 0 0 0) = S754_nan) by (vm_compute; reflexivity).
  assert (HM : exists j l, (j < 2)%nat /\ (l < d_dim (e_D E) (spc j))%nat /\ exM (dof (e_Lb E) j 0 l) <> []).
  { exists 0%nat, 0%nat. split; [lia|]. split; [vm_compute; lia|discriminate]. }
  split; [exact HD|]. split; [exact S1|]. split; [exact I1|]. split; [exact HN|]. split; [exact HM|]. split; [exact I2|]. split; [vm_compute; reflexivity|].
  assert (S2 : spoils (lay_dim (e_Lp E)) (sum_sol 24)) by (rewrite L1; exact S1).
  exact (C97_nan E _ _ _ _ 2 false ex_x ex_x 1 0 0 0 2 3 1 2 HD S2 S2 HM I1 HN ltac:(lia) I2).
Qed.

Print Assumptions C97_slabs.
Print Assumptions C97_unique.
Print Assumptions C97_copies.
Print Assumptions C97_scratch.
Print Assumptions C97_causal.
Print Assumptions C97_rhs.
Print Assumptions C97_residual.
Print Assumptions C97_finite.
Print Assumptions C97_no_overflow.
Print Assumptions C97_nan.
Print Assumptions C97_zero.
Print Assumptions C97_reals.
