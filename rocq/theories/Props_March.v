(** Props_March.v -- property C86: pre_time_marching with jump terms in the
    forward problem.

    With exact slab solvers the routine solves a system that differs from the one
    with the assembled preconditioning matrix by the terms [march_gap] below. *)
From Coq Require Import Reals List ZArith Lra Lia Bool String.
From Verif Require Import Base TimeModel TimeSpec QuadProofs FormModel FormSpec FormProofs SpaceTimeForms FormBlocks FormTime FormC12
  FormSym FormWf FormExample Props_Forms SpaceTimeModel SlabOps ApplyProofs MarchProofs MarchLoops MarchSum MarchUnique
  ErrorsModel Lifecycle LifeProofs OpsProofs SetupOk LinAlg OpsExample Props_Ops WellPosed Injective Props_WellPosed.
Import ListNotations.
Open Scope R_scope.

(** values of the primal functions paired with the dual ones at the start of slab n *)
Definition startpair (D : disc) (d : tdisc) (U Y : field) (n : nat) : R :=
  L2 D Vp Vd (upper d U 1 n) (upper d Y 2 n) + L2 D Vp Vd (upper d U 0 n) (upper d Y 3 n).
(** values at the end of the slab before *)
Definition endpair (D : disc) (d : tdisc) (U Y : field) (n : nat) : R :=
  L2 D Vp Vd (lower d U 1 n) (upper d Y 2 n) + L2 D Vp Vd (lower d U 0 n) (upper d Y 3 n).
Definition eps_of (P : params) : R := if Z.eqb (p_qstar P) 0 then 1e-15 else 0.

(** what the assembled matrix has and time marching has not *)
Definition march_gap (P : params) (D : disc) (g : gammas) (X Y : field) : R :=
  let d := tgrid P in
  if p_jumps P then
    sumn (p_N P) (fun n => if Nat.ltb 0 n then
      (1 + eps_of P) * fwjumps D d Y X n - eps_of P * endpair D d X Y n else 0)
    + (if p_wp P then g_dual g * dualjumps D d Y X 0 - (1 + eps_of P) * startpair D d X Y 0 else 0)
  else 0.

Lemma L2_sw D s1 s2 a b : L2 D s1 s2 a b = L2 D s2 s1 b a.
Proof. unfold L2. apply sp_comm. reflexivity. Qed.

Section Gap.
  Variables (P : params) (E : env).
  Notation c := (e_c E).
  Notation D := (e_D E).
  Notation nq := (S (c_q c)).
  Notation nqs := (S (c_qs c)).
  Hypothesis HC : construct P = Ok c.
  Hypothesis HT : 0 < p_T P.
  Hypothesis HE : env_ok E.
  Variables (g : gammas) (om : nat -> R).

  (** the same terms with coefficients *)
  Definition gap_n (n : nat) (X Y : field) : R :=
    if c_jumps c then
      if Nat.ltb 0 n then
        (1 + c_eps c) * (L2 D Vp Vd (jmp c Y 1 n) (X 2%nat (n * nqs)%nat) + L2 D Vp Vd (jmp c Y 0 n) (X 3%nat (n * nqs)%nat))
        - c_eps c * (L2 D Vp Vd (X 1%nat (lastc c n)) (Y 2%nat (n * nqs)%nat) + L2 D Vp Vd (X 0%nat (lastc c n)) (Y 3%nat (n * nqs)%nat))
      else if c_wp c then
        g_dual g * (c_dt c * (L2 D Vd Vd (Y 3%nat 0%nat) (X 3%nat 0%nat) + L2 D Vd Vd (Y 2%nat 0%nat) (X 2%nat 0%nat)))
        - (1 + c_eps c) * (L2 D Vp Vd (X 1%nat 0%nat) (Y 2%nat 0%nat) + L2 D Vp Vd (X 0%nat 0%nat) (Y 3%nat 0%nat))
      else 0
    else 0.

  Lemma L2_sub1 s s' a a' b : L2 D s s' (vsub a a') b = L2 D s s' a b - L2 D s s' a' b.
  Proof. unfold L2, vsub. apply sp_sub1. Qed.

  Lemma marchF_J X Y :
    marchF E g om (carryP c D (g_jump g)) X Y
    = eval D (st_form c g om true) X Y + reg * reg_slabs E X Y - reg * reg_ones E Y - sumn (c_N c) (fun n => gap_n n X Y).
  Proof.
    rewrite eval_st. unfold marchF, reg_slabs, reg_ones. rewrite <- !Rsum_scal.
    assert (G : regterm D X Y = sumn (c_N c) (fun n => if Nat.eqb n 0 then regterm D X Y else 0)).
    { pose proof (eo_N _ HE) as HN. destruct (c_N c) as [|m]; [lia|]. cbn [seq]. rewrite Rsum_cons. cbn.
      rewrite (Rsum_zero (seq 1 m)); [ring|]. intros n Hn. apply in_seq in Hn.
      destruct (Nat.eqb_spec n 0); [lia|reflexivity]. }
    rewrite G, <- !Rsum_plus, <- !Rsum_minus. apply Rsum_ext; intro n.
    unfold fn. rewrite eval_slab. unfold carryX, carryP, slab_extra_pre, slab_extra, gap_n.
    destruct (Nat.eqb_spec n 0) as [->|Hn].
    - cbn [Nat.ltb Nat.leb andb]. rewrite !andb_false_r. unfold regterm. rewrite !restr_at, !Nat.mul_0_l, !Nat.add_0_l.
      rewrite (L2_sw D Vd Vp), (L2_sw D Vd Vp (Y 3%nat 0%nat)).
      destruct (c_wp c), (c_jumps c); cbn [andb]; ring.
    - destruct (Nat.ltb_spec 0 n) as [H0|]; [|lia]. cbn [andb]. rewrite !andb_true_r.
      unfold regterm. rewrite !restr_at, !Nat.add_0_r.
      change (ntime c 0) with nq. change (ntime c 1) with nq. change (ntime c 2) with nqs. change (ntime c 3) with nqs.
      rewrite (L2_sw D Vd Vp), (L2_sw D Vd Vp (Y 3%nat (n * nqs)%nat)).
      unfold jmp, lastc. rewrite en_sub1, !L2_sub1. destruct (c_jumps c); ring.
  Qed.

  Lemma gap_sum X Y : sumn (c_N c) (fun n => gap_n n X Y) = march_gap P D g X Y.
  Proof.
    pose proof (construct_inv _ _ HC) as HB. pose proof (dt_pos _ _ HC HT) as Hdt.
    assert (UP : forall Z j n, (j < 2)%nat -> forall l, upper (tgrid P) Z j n l = Z j (n * nq)%nat l).
    { intros Z j n Hj l. rewrite <- (tgrid_td _ _ HC). apply (upper_p P c HB Hdt). exact Hj. }
    assert (UD : forall Z j n, (2 <= j)%nat -> forall l, upper (tgrid P) Z j n l = Z j (n * nqs)%nat l).
    { intros Z j n Hj l. rewrite <- (tgrid_td _ _ HC). apply (upper_d P c HB Hdt). exact Hj. }
    assert (JP : forall Z j n, (j < 2)%nat -> (1 <= n)%nat -> forall l, jumpv (tgrid P) Z j n l = jmp c Z j n l).
    { intros Z j n Hj Hn l. rewrite <- (tgrid_td _ _ HC). apply (jumpv_jmp P c HB Hdt); assumption. }
    assert (LP : forall Z j n, (j < 2)%nat -> (1 <= n)%nat -> forall l, lower (tgrid P) Z j n l = Z j (lastc c n) l).
    { intros Z j n Hj Hn l. pose proof (JP Z j n Hj Hn l) as H. unfold jumpv, jmp, vsub in H. rewrite UP in H by exact Hj. lra. }
    assert (L : forall s s' a b a' b', (forall l, a l = a' l) -> (forall l, b l = b' l) -> L2 D s s' a b = L2 D s s' a' b').
    { intros s s' a b a' b' Ha Hb. apply L2_ext; auto. }
    unfold march_gap. rewrite (bu_NP _ _ HB).
    unfold gap_n. rewrite (bu_jumps _ _ HB), (bu_wp _ _ HB), (bu_eps _ _ HB). fold (eps_of P).
    destruct (p_jumps P); [|apply Rsum_zero; reflexivity].
    set (w := if p_wp P then _ else 0) at 2.
    assert (EW : w = sumn (p_N P) (fun n => delta 0 n * w)).
    { rewrite sumn_delta; [reflexivity|]. pose proof (bu_N _ _ HB) as HN. rewrite (bu_NP _ _ HB) in HN. lia. }
    rewrite EW, <- Rsum_plus. apply Rsum_ext; intro n. unfold delta. destruct n as [|n].
    - cbn [Nat.ltb Nat.leb Nat.eqb]. unfold w. destruct (p_wp P); [|ring].
      assert (ED : t_dt (tgrid P) = c_dt c) by (rewrite <- (tgrid_td _ _ HC); reflexivity).
      unfold dualjumps, startpair. rewrite ED.
      set (d := tgrid P) in *.
      rewrite (L Vd Vd (upper d Y 3 0) (upper d X 3 0) (Y 3%nat 0%nat) (X 3%nat 0%nat)), (L Vd Vd (upper d Y 2 0) (upper d X 2 0) (Y 2%nat 0%nat) (X 2%nat 0%nat)),
        (L Vp Vd (upper d X 1 0) (upper d Y 2 0) (X 1%nat 0%nat) (Y 2%nat 0%nat)), (L Vp Vd (upper d X 0 0) (upper d Y 3 0) (X 0%nat 0%nat) (Y 3%nat 0%nat));
        try (intro l; rewrite ?UP, ?UD by lia; reflexivity). ring.
    - cbn [Nat.ltb Nat.leb Nat.eqb]. unfold fwjumps, endpair.
      set (d := tgrid P) in *.
      rewrite (L Vp Vd (jumpv d Y 1 (S n)) (upper d X 2 (S n)) (jmp c Y 1 (S n)) (X 2%nat (S n * nqs)%nat)),
        (L Vp Vd (jumpv d Y 0 (S n)) (upper d X 3 (S n)) (jmp c Y 0 (S n)) (X 3%nat (S n * nqs)%nat)),
        (L Vp Vd (lower d X 1 (S n)) (upper d Y 2 (S n)) (X 1%nat (lastc c (S n))) (Y 2%nat (S n * nqs)%nat)),
        (L Vp Vd (lower d X 0 (S n)) (upper d Y 3 (S n)) (X 0%nat (lastc c (S n))) (Y 3%nat (S n * nqs)%nat));
        try (intro l; rewrite ?UD, ?JP, ?LP by lia; reflexivity). ring.
  Qed.
End Gap.

(** ** The system that is solved, in every mode *)
Theorem C86_partial : forall P E om s S0 S1 b x,
  construct P = Ok (e_c E) -> 0 < p_T P -> env_ok E -> reached E om s ->
  can_march S0 S1 s -> exact_solvers E s S0 S1 ->
  let out := pre_time_marching E b x s in
  (forall k, k <> x -> s_heap (snd out) k = s_heap s k) /\
  match fst out with
  | Ok _ => exists g, get_gammas (p_stab P) = Ok g /\ forall I, (I < dimF E)%nat ->
      let X := fldF E (s_heap (snd out) x) in
      mult (dimF E) (matF E g om true) (s_heap (snd out) x) I + 1e-20 * tiny_march P (e_D E) X (basF E I)
      = s_heap s b I + 1e-20 * tiny_rhs P (e_D E) (basF E I) + march_gap P (e_D E) g X (basF E I)
  | Err e => exists r w, S0 r w = Err e \/ S1 r w = Err e
  end.
Proof.
  intros P E om s S0 S1 b x HC HT HE HR [HA0 [HA1 [HS0 HS1]]] [X0 X1] out. pose proof (construct_inv _ _ HC) as HB.
  pose proof (reached_wf _ _ _ HR) as HW. pose proof (dt_pos _ _ HC HT) as Hdt.
  destruct (s_fim s) as [A0|] eqn:E0; [|congruence]. destruct (s_slm s) as [A1|] eqn:E1; [|congruence].
  destruct (wf_slab_mats E om s A0 A1 HW E0 E1) as [Hf [g [Hg [M0 M1]]]].
  pose proof (sol_exact E om S0 S1 g A0 A1 M0 M1 (X0 _ eq_refl) (X1 _ eq_refl)) as Hsol.
  pose proof (pre_outcome E HE om S0 S1 (sol_eq E g om) s b x g A0 A1 HW E0 E1 HS0 HS1 ltac:(lra) Hg Hsol) as [H1 H2].
  split; [exact H1|]. fold out in H1, H2. destruct (fst out); [|exact H2].
  exists g. split; [rewrite <- (bu_stab _ _ HB); exact Hg|]. intros I HI X.
  pose proof (march_solves E HE g om (carryP (e_c E) (e_D E) (g_jump g)) (carryP_ext _ _ _) (carryP_zero _ _ _) _ _ H2 I HI) as H3.
  rewrite (marchF_J E HE g om), (gap_sum P E HC HT g) in H3.
  rewrite (tiny_march_slabs P E _ _ HC), (tiny_rhs_ones P E _ HC) in H3.
  rewrite mat_eval by assumption. unfold X, basF, fldF in *. unfold reg in H3. lra.
Qed.

(** one slab without initial data: nothing is missing, jump terms or not *)
Theorem C86_one_slab : forall P D g X Y, p_N P = 1%nat -> p_wp P = false -> march_gap P D g X Y = 0.
Proof.
  intros P D g X Y HN Hw. unfold march_gap. rewrite HN, Hw. destruct (p_jumps P); [|reflexivity].
  cbn [seq]. rewrite Rsum_cons, Rsum_nil. cbn [Nat.ltb Nat.leb]. ring.
Qed.

(** ** Every vector is the result of some run *)
Section Onto.
  Variable E : env.
  Notation c := (e_c E).
  Notation D := (e_D E).
  Notation Lf := (e_Lf E).
  Notation Lp := (e_Lp E).
  Hypothesis HE : env_ok E.
  Variables (g : gammas) (om : nat -> R).
  Notation carry := (carryP c D (g_jump g)).

  Lemma march_slab X j i l m : (j < 4)%nat -> (i < nc_pre c j)%nat -> (l < d_dim D (spc j))%nat -> (m < c_N c)%nat ->
    marchF E g om carry X (field_of Lf (unitv (dof Lf j (m * ntime c j + i)%nat l)))
    = eval D (fn E g om m) (restr (ntime c) m X) (field_of Lp (unitv (dof Lp j i l)))
      - carryX E carry m X (field_of Lp (unitv (dof Lp j i l))).
  Proof.
    intros Hj Hi Hl Hm.
    transitivity (sumn (c_N c) (fun n => delta m n *
      (eval D (fn E g om n) (restr (ntime c) n X) (field_of Lp (unitv (dof Lp j i l))) - carryX E carry n X (field_of Lp (unitv (dof Lp j i l)))))).
    2: { rewrite sumn_delta by exact Hm. reflexivity. }
    unfold marchF. apply Rsum_ext_in; intros n Hn. apply in_seq in Hn.
    pose proof (restr_unit E HE j i l n m Hj Hi Hl Hm ltac:(lia)) as HR. unfold delta.
    rewrite (eval_ext D 4 (nc_pre c) (fn E g om n) _ _ _ _ (wf_slab _ _ _ _) (feq_refl _ _ _ _) HR).
    unfold carryX. rewrite (carryP_ext _ _ _ n _ _ _ _ _ _ (fun _ _ => eq_refl) (fun _ _ => eq_refl) HR).
    rewrite (Nat.eqb_sym m n). destruct (Nat.eqb_spec n m) as [->|Hne]; [ring|].
    rewrite (eval_0r E (fn E g om n) 4 (nc_pre c)) by apply wf_slab. rewrite carryP_zero. ring.
  Qed.

  Hypothesis Inj : forall n, (n < c_N c)%nat -> injective (lay_dim Lp) (assemble D Lp (fn E g om n)).
  Lemma march_inj x x' :
    (forall I, (I < lay_dim Lf)%nat -> marchF E g om carry (field_of Lf x) (field_of Lf (unitv I))
       = marchF E g om carry (field_of Lf x') (field_of Lf (unitv I))) ->
    forall m, (m < c_N c)%nat -> same_slab E m (field_of Lf x) (field_of Lf x').
  Proof.
    intros H m. induction m as [m IH] using lt_wf_ind. intro Hm.
    set (X := field_of Lf x) in *. set (X' := field_of Lf x') in *.
    set (Z := fun j i l => restr (ntime c) m X j i l - restr (ntime c) m X' j i l).
    destruct (field_onto D 4 (nc_pre c) Lp Z (eo_p _ HE)) as [z Hz].
    assert (Z0 : forall J, (J < lay_dim Lp)%nat -> z J = 0).
    { apply (Inj m Hm). intros J HJ.
      rewrite (mult_assemble D 4 (nc_pre c)); [|apply (eo_p _ HE)|apply wf_slab].
      destruct (dof_surj D 4 (nc_pre c) Lp J (eo_p _ HE) HJ) as [j [i [l [Hj [Hi [Hl ->]]]]]].
      assert (Hk : (m * ntime c j + i < nc_full c j)%nat) by (unfold nc_full, nc_pre in *; nia).
      pose proof (H (dof Lf j (m * ntime c j + i)%nat l) (dof_lt D 4 (nc_full c) Lf j _ l (eo_f _ HE) Hj Hk Hl)) as HM.
      rewrite !march_slab in HM by assumption.
      rewrite (carryX_ext E carry (carryP_ext _ _ _) (carryP_first _ _ _) m X X') in HM by (intro; apply IH; lia).
      rewrite (eval_ext D 4 (nc_pre c) _ (field_of Lp z) (fun j i l => 1 * restr (ntime c) m X j i l + -1 * restr (ntime c) m X' j i l)
        _ (field_of Lp (unitv (dof Lp j i l))));
        [|apply wf_slab|intros j' i' l' A1 A2 A3; rewrite <- (Hz j' i' l' A1 A2 A3); unfold Z; ring|apply feq_refl].
      rewrite (eval_lin2 D 4 (nc_pre c)) by apply wf_slab. lra. }
    intros j i l Hj Hi Hl. pose proof (Hz j i l Hj Hi Hl) as HZ. unfold Z, restr in HZ.
    assert (field_of Lp z j i l = 0).
    { unfold field_of. apply Z0. apply (dof_lt D 4 (nc_pre c)); [apply (eo_p _ HE)|assumption..]. }
    lra.
  Qed.
End Onto.

(** every vector is returned for some right-hand side *)
Theorem C86_onto : forall P E om g xt,
  construct P = Ok (e_c E) -> 0 < p_T P -> env_ok E -> get_gammas (p_stab P) = Ok g ->
  regular (e_D E) om -> definite (e_D E) Vp -> definite (e_D E) Vd -> weights_ok P g ->
  p_wp P = true \/ injective (lay_dim (e_Lp E)) (assemble (e_D E) (e_Lp E) (slab_form (e_c E) g om false)) ->
  exists bt, forall s S0 S1 b x, reached E om s -> can_march S0 S1 s -> exact_solvers E s S0 S1 ->
    (forall I, (I < dimF E)%nat -> s_heap s b I = bt I) ->
    forall s', pre_time_marching E b x s = (Ok tt, s') -> forall I, (I < dimF E)%nat -> s_heap s' x I = xt I.
Proof.
  intros P E om g xt HC HT HE Hg HR Dp Dd HW Hfirst. pose proof (construct_inv _ _ HC) as HB. pose proof (dt_pos _ _ HC HT) as Hdt.
  exists (fun I => marchF E g om (carryP (e_c E) (e_D E) (g_jump g)) (fldF E xt) (basF E I)).
  intros s S0 S1 b x HS [HA0 [HA1 [HS0 HS1]]] [X0 X1] Hb s' Hrun. pose proof (reached_wf _ _ _ HS) as HWf.
  destruct (s_fim s) as [A0|] eqn:E0; [|congruence]. destruct (s_slm s) as [A1|] eqn:E1; [|congruence].
  destruct (wf_slab_mats E om s A0 A1 HWf E0 E1) as [Hf [g' [Hg' [M0 M1]]]].
  rewrite (bu_stab _ _ HB), Hg in Hg'. assert (g' = g) by congruence. subst g'.
  pose proof (sol_exact E om S0 S1 g A0 A1 M0 M1 (X0 _ eq_refl) (X1 _ eq_refl)) as Hsol.
  assert (Hgc : get_gammas (c_stab (e_c E)) = Ok g) by (rewrite (bu_stab _ _ HB); exact Hg).
  pose proof (pre_outcome E HE om S0 S1 (sol_eq E g om) s b x g A0 A1 HWf E0 E1 HS0 HS1 ltac:(lra) Hgc Hsol) as [_ H2].
  rewrite Hrun in H2. cbn [fst snd] in H2.
  pose proof (slab_injective P (e_c E) g om (e_D E) (e_Lp E) HC HT (eo_p _ HE) HR Dp Dd HW) as IJ.
  assert (Inj : forall n, (n < c_N (e_c E))%nat -> injective (lay_dim (e_Lp E)) (assemble (e_D E) (e_Lp E) (fn E g om n))).
  { intros n _. unfold fn. destruct (Nat.eqb n 0); [|exact IJ]. rewrite (bu_wp _ _ HB). destruct (p_wp P); [exact IJ|].
    destruct Hfirst as [Hw|Hw]; [discriminate|exact Hw]. }
  apply (proj1 (agree_all E (s_heap s' x) xt HE)). apply agree_slabs.
  apply (march_inj E HE g om Inj). intros I HI.
  rewrite (march_solves E HE g om _ (carryP_ext _ _ _) (carryP_zero _ _ _) _ _ H2 I HI).
  apply Hb. exact HI.
Qed.

(** ** Not the inverse of the assembled matrix *)
Theorem C86_refuted : exists P E s S0 S1 s' g I,
  p_jumps P = true /\ construct P = Ok (e_c E) /\ 0 < p_T P /\ env_ok E /\ reached E om1 s
  /\ can_march S0 S1 s /\ exact_solvers E s S0 S1 /\ pre_time_marching E 0 1 s = (Ok tt, s')
  /\ get_gammas (p_stab P) = Ok g /\ (I < dimF E)%nat
  /\ mult (dimF E) (matF E g om1 true) (s_heap s' 1%nat) I = s_heap s 0%nat I + (1 + 1e-15) / 4.
Proof.
  destruct (exP_ok 0 0 2 true true) as [c HC]; try lia. pose proof (construct_inv _ _ HC) as HB.
  set (P := exP 0 0 2 true true) in *. set (E := exE exI c).
  assert (HT : 0 < p_T P) by (cbn; lra).
  assert (Hdt : 0 < c_dt c) by (apply (dt_pos _ _ HC HT)).
  assert (HE : env_ok E) by (apply exE_ok, (bu_N _ _ HB)).
  assert (HW : weights_ok P exG).
  { unfold weights_ok, coupling, P. cbn [g_data g_dual g_primal g_jump exG p_jumps p_qstar exP].
    repeat split; try lra. destruct (Z.eqb (Z.of_nat 0) 0); decimals; lra. }
  set (J := dof (e_Lf E) 2 1 0). set (I := dof (e_Lf E) 1 1 0).
  destruct (C86_onto P E om1 exG (unitv J) HC HT HE eq_refl exI_regular (exI_definite Vp) (exI_definite Vd) HW (or_introl eq_refl))
    as [bt Hbt].
  pose proof (reached_init E false om1 (fun _ => vzero) 5) as R0. cbv beta iota in R0.
  pose proof (reached_after E om1 _ [Setup_fes] R0) as R1.
  set (s1 := after E [Setup_fes] (init_state false om1 (fun _ => vzero) 5)) in *.
  assert (Hf1 : s_fes s1 = true) by reflexivity.
  clearbody s1.
  destruct (prepare_run _ E exG (exE_good exI 0 0 2 true true c HC) om1 s1 ltac:(cbn; lra) (reached_wf _ _ _ R1) Hf1)
    as [s2 [E2 [HP _]]].
  pose proof (reached_after E om1 s1 [Prepare] R1) as R2.
  assert (E2' : after E [Prepare] s1 = s2) by (unfold after; cbn [fold_left]; apply (step_done E Prepare _ s1 s2 eq_refl E2)).
  rewrite E2' in R2. destruct HP as [Pf [Psl [Pco [_ [Pma [Pfi Pnj]]]]]].
  destruct (C67_exact_solvers P E om1 s2 exG HC HT HE R2 Pfi Psl eq_refl exI_regular (exI_definite Vp) (exI_definite Vd) HW (or_introl eq_refl))
    as [S0 [S1 [HX [T0 T1]]]].
  pose proof (reached_after E om1 s2 [Set_first S0; Set_slab S1; Write 0 bt] R2) as R3.
  set (s3 := after E [Set_first S0; Set_slab S1; Write 0 bt] s2) in *.
  assert (E3 : s3 = put 0 bt (w_ssl (Some S1) (w_sfi (Some S0) s2))) by reflexivity.
  clearbody s3.
  assert (CM : can_march S0 S1 s3).
  { rewrite E3. split; [exact Pfi|]. split; [exact Psl|]. split; reflexivity. }
  assert (HX3 : exact_solvers E s3 S0 S1) by (rewrite E3; exact HX).
  assert (H0 : s_heap s3 0%nat = bt) by (rewrite E3; reflexivity).
  pose proof (C86_partial P E om1 s3 S0 S1 0%nat 1%nat HC HT HE R3 CM HX3) as [_ HP].
  destruct (pre_time_marching E 0 1 s3) as [[[]|e] s'] eqn:Hrun; cbn [fst snd] in HP.
  2: { destruct HP as [r [w [H|H]]]; [destruct (T0 r w) as [u Hu]|destruct (T1 r w) as [u Hu]]; congruence. }
  destruct HP as [g [Hg HP]]. cbn in Hg. injection Hg as <-. fold exG in HP.
  exists P, E, s3, S0, S1, s', exG, I.
  split; [reflexivity|]. split; [exact HC|]. split; [exact HT|]. split; [exact HE|]. split; [exact R3|]. split; [exact CM|].
  split; [exact HX3|]. split; [exact Hrun|]. split; [reflexivity|].
  assert (Q : c_q c = 0%nat /\ c_qs c = 0%nat /\ c_N c = 2%nat).
  { rewrite (bu_cq _ _ HB), (bu_cqs _ _ HB), (bu_NP _ _ HB). auto. }
  destruct Q as [Q1 [Q2 Q3]].
  assert (Hfull : forall j, nc_full c j = 2%nat).
  { intro j. unfold nc_full, ntime, sto. rewrite Q1, Q2, Q3. destruct (Nat.ltb j 2); reflexivity. }
  assert (HI : (I < dimF E)%nat).
  { unfold I, dimF. eapply dof_lt; [apply (eo_f _ HE)|lia|unfold E; cbn [e_c exE]; rewrite Hfull; lia|cbn; lia]. }
  split; [exact HI|].
  assert (HR : forall K, (K < dimF E)%nat -> s_heap s' 1%nat K = unitv J K).
  { apply (Hbt s3 S0 S1 0%nat 1%nat R3 CM HX3); [intros K _; rewrite H0; reflexivity|exact Hrun]. }
  specialize (HP I HI). cbv zeta in HP.
  set (X := fldF E (s_heap s' 1%nat)) in *. set (Y := basF E I) in *.
  assert (HXv : forall j i l, (j < 4)%nat -> (i < 2)%nat -> (l < 3)%nat -> X j i l = if Nat.eqb 2 j && Nat.eqb 1 i then delta 0 l else 0).
  { intros j i l Hj Hi Hl. transitivity (fldF E (unitv J) j i l).
    - unfold X, fldF, field_of. apply HR. unfold dimF.
      eapply dof_lt; [apply (eo_f _ HE)|exact Hj|unfold E; cbn [e_c exE]; rewrite Hfull; lia|unfold spc; destruct (Nat.ltb j 2); exact Hl].
    - unfold J. apply unit_at; auto; try lia; unfold E; cbn [e_c e_D exE]; rewrite ?Hfull; try lia; cbn; lia. }
  assert (HYv : forall j i l, (j < 4)%nat -> (i < 2)%nat -> (l < 3)%nat -> Y j i l = if Nat.eqb 1 j && Nat.eqb 1 i then delta 0 l else 0).
  { intros j i l Hj Hi Hl. unfold Y, basF, I. apply unit_at; auto; try lia; unfold E; cbn [e_c e_D exE]; rewrite ?Hfull; try lia; cbn; lia. }
  assert (ET : tiny_march P (e_D E) X Y = 0).
  { unfold tiny_march, P. cbn [p_N p_q p_qstar exP]. change (Z.to_nat (Z.of_nat 0)) with 0%nat. cbn [seq]. rewrite !Rsum_cons, Rsum_nil.
    cbn [Nat.ltb Nat.leb]. change (e_D E) with exI. rewrite !exI_mass, !HXv by (cbn; lia). cbn [Nat.eqb andb Nat.mul Nat.add]. field. }
  assert (ER : tiny_rhs P (e_D E) Y = 0).
  { rewrite <- (tiny_rhs_ones P E Y HC). unfold reg_ones. apply Rsum_zero. intros n Hn. apply in_seq in Hn.
    change (c_N (e_c E)) with (c_N c) in Hn. rewrite Q3 in Hn.
    rewrite (ones_ext (e_D E) (e_c E) _ (fun j i l => if Nat.ltb j 2 then restr (ntime (e_c E)) n Y j i l else 0)).
    - unfold ones. cbn [Nat.ltb Nat.leb]. apply (ones_zero (e_D E)).
    - intros j i l Hj Hi Hl. unfold restr. destruct (Nat.ltb_spec j 2) as [Hj2|Hj2]; [reflexivity|].
      assert (Hk : (n * ntime (e_c E) j + i < 2)%nat).
      { change (e_c E) with c in *. unfold nc_pre, ntime, sto in *. rewrite Q1, Q2 in *. destruct (Nat.ltb j 2); lia. }
      rewrite HYv; [|exact Hj|exact Hk|unfold spc in Hl; destruct (Nat.ltb j 2); exact Hl].
      replace (Nat.eqb 1 j) with false by (symmetry; apply Nat.eqb_neq; lia). reflexivity. }
  assert (EG : march_gap P (e_D E) exG X Y = (1 + 1e-15) / 4).
  { rewrite <- (gap_sum P E HC HT exG X Y). change (c_N (e_c E)) with (c_N c). rewrite Q3. cbn [seq]. rewrite !Rsum_cons, Rsum_nil.
    unfold gap_n. change (e_c E) with c. change (e_D E) with exI. rewrite (bu_jumps _ _ HB), (bu_wp _ _ HB), (bu_eps _ _ HB).
    cbn [p_jumps p_wp p_qstar exP P Z.of_nat Z.eqb]. cbn [Nat.ltb Nat.leb]. rewrite !exI_mass. unfold jmp, vsub, lastc. rewrite Q1, Q2.
    cbn [Nat.mul Nat.add Nat.sub]. rewrite !HXv, !HYv by lia. cbn [Nat.eqb andb]. unfold delta. cbn [Nat.eqb g_dual exG].
    field. }
  rewrite ET, ER, EG in HP. lra.
Qed.

Print Assumptions C86_partial.
Print Assumptions C86_one_slab.
Print Assumptions C86_onto.
Print Assumptions C86_refuted.
