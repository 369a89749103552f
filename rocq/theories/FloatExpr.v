(** FloatExpr.v -- rounding errors of straight-line formulas in doubles.

    A formula in one variable is evaluated in doubles and in the reals; the
    difference is bounded by a rational number computed from the formula. *)
From Coq Require Import ZArith QArith Reals List Bool Lia Lra Qreals.
From Coq Require Import Floats.SpecFloat.
From Flocq Require Import Core IEEE754.BinarySingleNaN Relative.
From Verif Require Import Base FloatModel FloatRound FloatTime.
Import ListNotations.
Local Open Scope R_scope.

Inductive fex : Type :=
| X | K (m : Z) | Neg (a : fex) | Add (a b : fex) | Sub (a b : fex) | Mul (a b : fex) | Quo (a b : Z) | Div (a : fex) (b : Z).

Fixpoint evf (e : fex) (t : spec_float) : spec_float :=
  match e with
  | X => t | K m => fz m | Neg a => fopp (evf a t)
  | Add a b => fadd (evf a t) (evf b t) | Sub a b => fsub (evf a t) (evf b t) | Mul a b => fmul (evf a t) (evf b t)
  | Quo a b => fdiv (fz a) (fz b)
  | Div a b => fdiv (evf a t) (fz b)
  end.
Fixpoint evr (e : fex) (t : R) : R :=
  match e with
  | X => t | K m => IZR m | Neg a => - evr a t
  | Add a b => evr a t + evr b t | Sub a b => evr a t - evr b t | Mul a b => evr a t * evr b t
  | Quo a b => IZR a / IZR b
  | Div a b => evr a t / IZR b
  end.

(** magnitude and error: [unit] for relative rounding, [tiny] for underflow *)
Definition unitQ : Q := 1 # (2 ^ 53).
Definition tinyQ : Q := 1 # (2 ^ 100).
Definition step (m e : Q) : Q * Q := (Qred m, Qred (e + (unitQ * (m + e) + tinyQ))%Q).
Fixpoint bnd (B : Q) (e : fex) : Q * Q :=
  match e with
  | X => (B, 0%Q) | K m => (inject_Z (Z.abs m), 0%Q) | Neg a => bnd B a
  | Add a b | Sub a b => let '(ma, ea) := bnd B a in let '(mb, eb) := bnd B b in step (ma + mb)%Q (ea + eb)%Q
  | Mul a b => let '(ma, ea) := bnd B a in let '(mb, eb) := bnd B b in step (ma * mb)%Q (ma * eb + mb * ea + ea * eb)%Q
  | Quo a b => step (inject_Z (Z.abs a) / inject_Z (Z.abs b))%Q 0%Q
  | Div a b => let '(ma, ea) := bnd B a in step (ma / inject_Z (Z.abs b))%Q (ea / inject_Z (Z.abs b))%Q
  end.
(** literals are exact, no overflow *)
Definition small (m : Z) : bool := (Z.abs m <=? 2 ^ 53)%Z.
Definition fits (p : Q * Q) : bool := Qle_bool (fst p + snd p)%Q (inject_Z (2 ^ 200)).
Fixpoint fine (B : Q) (e : fex) : bool :=
  match e with
  | X => true | K m => small m | Neg a => fine B a
  | Add a b | Sub a b | Mul a b => fine B a && fine B b && fits (bnd B e)
  | Quo a b => small a && small b && negb (b =? 0)%Z && fits (bnd B e)
  | Div a b => fine B a && small b && negb (b =? 0)%Z && fits (bnd B e)
  end.

(** ** one rounding *)
Lemma unit_val : Q2R unitQ = bpow radix2 (-53).
Proof. unfold Q2R, unitQ. cbn. lra. Qed.
Lemma tiny_val : Q2R tinyQ = bpow radix2 (-100).
Proof. unfold Q2R, tinyQ. cbn. lra. Qed.
Lemma rnd_abs a : Rabs (rnd a - a) <= bpow radix2 (-53) * Rabs a + bpow radix2 (-100).
Proof.
  destruct (error_N_FLT radix2 (-1074) 53 Hprec (fun z => negb (Z.even z)) a) as [eps [eta [H1 [H2 [_ H4]]]]].
  change (round radix2 (FLT_exp (-1074) 53) (Znearest (fun z => negb (Z.even z))) a) with (rnd a) in H4. rewrite H4.
  replace (a * (1 + eps) + eta - a) with (a * eps + eta) by ring.
  apply Rle_trans with (1 := Rabs_triang _ _). apply Rplus_le_compat.
  - rewrite Rabs_mult, Rmult_comm. apply Rmult_le_compat_r; [apply Rabs_pos|]. apply Rle_trans with (1 := H1). cbn. lra.
  - apply Rle_trans with (1 := H2). apply Rle_trans with (1 * bpow radix2 (-1074)); [apply Rmult_le_compat_r; [apply bpow_ge_0|lra]|].
    rewrite Rmult_1_l. apply bpow_le. lia.
Qed.
Lemma opp_ok x a : is_dbl x a -> is_dbl (fopp x) (- a).
Proof.
  intros [b [E1 [E2 E3]]]. exists (Bopp b). repeat split.
  - rewrite <- E1. destruct b; reflexivity.
  - rewrite is_finite_Bopp. exact E2.
  - rewrite B2R_Bopp, E3. reflexivity.
Qed.

(** value [v] of a double near the real [r] *)
Definition near (p : Q * Q) (x : spec_float) (r : R) : Prop :=
  Rabs r <= Q2R (fst p) /\ exists v, is_dbl x v /\ Rabs (v - r) <= Q2R (snd p).
Lemma round_near x v r m e : (Rabs (rnd v) < top -> is_dbl x (rnd v)) -> Rabs r <= Q2R m -> Rabs (v - r) <= Q2R e ->
  fits (step m e) = true -> near (step m e) x r.
Proof.
  intros H Hr He Hf. unfold step, fits in Hf. cbn [fst snd] in Hf. apply Qle_bool_iff, Qle_Rle in Hf.
  assert (EM : Q2R (Qred m) = Q2R m) by (apply Qeq_eqR, Qred_correct).
  assert (EE : Q2R (Qred (e + (unitQ * (m + e) + tinyQ))) = Q2R e + (bpow radix2 (-53) * (Q2R m + Q2R e) + bpow radix2 (-100))).
  { rewrite (Qeq_eqR _ _ (Qred_correct _)), !Q2R_plus, Q2R_mult, Q2R_plus, unit_val, tiny_val. reflexivity. }
  rewrite Q2R_plus, EM, EE in Hf.
  assert (Hv : Rabs v <= Q2R m + Q2R e) by (replace v with (r + (v - r)) by ring; apply Rle_trans with (1 := Rabs_triang _ _); lra).
  assert (D : Rabs (rnd v - r) <= Q2R e + (bpow radix2 (-53) * (Q2R m + Q2R e) + bpow radix2 (-100))).
  { replace (rnd v - r) with ((v - r) + (rnd v - v)) by ring. apply Rle_trans with (1 := Rabs_triang _ _).
    pose proof (rnd_abs v) as A. pose proof (Rmult_le_compat_l _ _ _ (bpow_ge_0 radix2 (-53)) Hv). lra. }
  split; cbn [step fst snd]; [rewrite EM; exact Hr|]. exists (rnd v). split; [|rewrite EE; exact D].
  apply H. apply Rle_lt_trans with (Q2R (inject_Z (2 ^ 200))).
  - replace (rnd v) with (r + (rnd v - r)) by ring. apply Rle_trans with (1 := Rabs_triang _ _). lra.
  - replace (Q2R (inject_Z (2 ^ 200))) with (bpow radix2 200) by (unfold Q2R; cbn; lra). apply bpow_top. lia.
Qed.
Lemma Q2R_abs m : Q2R (inject_Z (Z.abs m)) = Rabs (IZR m).
Proof. rewrite <- abs_IZR. unfold Q2R. cbn. lra. Qed.

Lemma abs_nonzero b : IZR b <> 0 -> ~ (inject_Z (Z.abs b) == 0)%Q.
Proof.
  intros NZ E. apply Qeq_eqR in E. rewrite Q2R_abs in E. unfold Q2R in E. cbn in E. rewrite Rmult_0_l in E.
  apply (Rabs_no_R0 _ NZ). exact E.
Qed.

Theorem formula_near B e x t : fine B e = true -> is_dbl x t -> Rabs t <= Q2R B -> near (bnd B e) (evf e x) (evr e t).
Proof.
  intros H Hx Ht. induction e as [|m|a IHa|a IHa b IHb|a IHa b IHb|a IHa b IHb|a b|a IHa b]; cbn [fine] in H.
  - split; [exact Ht|]. exists t. split; [exact Hx|]. cbn [evr bnd snd]. rewrite (Rminus_diag_eq _ _ eq_refl), Rabs_R0. unfold Q2R. cbn. lra.
  - split; cbn [evr bnd fst snd evf]; [rewrite Q2R_abs; lra|]. exists (IZR m). split; [apply fz_ok, Z.leb_le, H|].
    rewrite (Rminus_diag_eq _ _ eq_refl), Rabs_R0. unfold Q2R. cbn. lra.
  - destruct (IHa H) as [Ha [v [Hv He]]]. split; cbn [evr bnd evf]; [rewrite Rabs_Ropp; exact Ha|]. exists (- v). split; [apply opp_ok, Hv|].
    replace (- v - - evr a t) with (- (v - evr a t)) by ring. rewrite Rabs_Ropp. exact He.
  - apply andb_true_iff in H as [H HF]. apply andb_true_iff in H as [H1 H2].
    destruct (IHa H1) as [Ha [v [Hv Ev]]]. destruct (IHb H2) as [Hb [w [Hw Ew]]]. cbn [bnd] in *.
    destruct (bnd B a) as [ma ea], (bnd B b) as [mb eb]. cbn [fst snd] in *. cbn [evf evr].
    apply (round_near _ (v + w)); [apply fadd_ok; assumption| | |exact HF].
    + rewrite Q2R_plus. apply Rle_trans with (1 := Rabs_triang _ _). lra.
    + rewrite Q2R_plus. replace (v + w - (evr a t + evr b t)) with ((v - evr a t) + (w - evr b t)) by ring. apply Rle_trans with (1 := Rabs_triang _ _). lra.
  - apply andb_true_iff in H as [H HF]. apply andb_true_iff in H as [H1 H2].
    destruct (IHa H1) as [Ha [v [Hv Ev]]]. destruct (IHb H2) as [Hb [w [Hw Ew]]]. cbn [bnd] in *.
    destruct (bnd B a) as [ma ea], (bnd B b) as [mb eb]. cbn [fst snd] in *. cbn [evf evr].
    apply (round_near _ (v - w)); [apply fsub_ok; assumption| | |exact HF].
    + rewrite Q2R_plus. unfold Rminus. apply Rle_trans with (1 := Rabs_triang _ _). rewrite Rabs_Ropp. lra.
    + rewrite Q2R_plus. replace (v - w - (evr a t - evr b t)) with ((v - evr a t) + - (w - evr b t)) by ring. apply Rle_trans with (1 := Rabs_triang _ _). rewrite Rabs_Ropp. lra.
  - apply andb_true_iff in H as [H HF]. apply andb_true_iff in H as [H1 H2].
    destruct (IHa H1) as [Ha [v [Hv Ev]]]. destruct (IHb H2) as [Hb [w [Hw Ew]]]. cbn [bnd] in *.
    destruct (bnd B a) as [ma ea], (bnd B b) as [mb eb]. cbn [fst snd] in *. cbn [evf evr].
    apply (round_near _ (v * w)); [apply fmul_ok; assumption| | |exact HF].
    + rewrite Q2R_mult, Rabs_mult. apply Rmult_le_compat; auto using Rabs_pos.
    + rewrite !Q2R_plus, !Q2R_mult.
      replace (v * w - evr a t * evr b t) with (evr a t * (w - evr b t) + (evr b t * (v - evr a t) + (v - evr a t) * (w - evr b t))) by ring.
      apply Rle_trans with (1 := Rabs_triang _ _). rewrite Rplus_assoc. apply Rplus_le_compat; [rewrite Rabs_mult; apply Rmult_le_compat; auto using Rabs_pos|].
      apply Rle_trans with (1 := Rabs_triang _ _). apply Rplus_le_compat; rewrite Rabs_mult; apply Rmult_le_compat; auto using Rabs_pos.
  - apply andb_true_iff in H as [H HF]. apply andb_true_iff in H as [H H3]. apply andb_true_iff in H as [H1 H2].
    apply negb_true_iff, Z.eqb_neq in H3. assert (NZ : IZR b <> 0) by (apply IZR_neq; exact H3).
    cbn [bnd evf evr] in *. apply (round_near _ (IZR a / IZR b)); [|  | |exact HF].
    + intro. apply fdiv_ok; [apply fz_ok, Z.leb_le, H1|apply fz_ok, Z.leb_le, H2|exact NZ|assumption].
    + rewrite Q2R_div.
      * rewrite !Q2R_abs. unfold Rdiv. rewrite Rabs_mult, Rabs_inv. lra.
      * intro E. apply Qeq_eqR in E. rewrite Q2R_abs in E. unfold Q2R in E. cbn in E. rewrite Rmult_0_l in E.
        apply (Rabs_no_R0 _ NZ). exact E.
    + rewrite (Rminus_diag_eq _ _ eq_refl), Rabs_R0. unfold Q2R. cbn. lra.
  - apply andb_true_iff in H as [H HF]. apply andb_true_iff in H as [H H3]. apply andb_true_iff in H as [H1 H2].
    apply negb_true_iff, Z.eqb_neq in H3. assert (NZ : IZR b <> 0) by (apply IZR_neq; exact H3).
    assert (IP : 0 <= / Rabs (IZR b)) by (left; apply Rinv_0_lt_compat, Rabs_pos_lt, NZ).
    destruct (IHa H1) as [Ha [v [Hv Ev]]]. cbn [bnd] in *. destruct (bnd B a) as [ma ea]. cbn [fst snd] in *. cbn [evf evr].
    apply (round_near _ (v / IZR b)); [| | |exact HF].
    + intro. apply fdiv_ok; [exact Hv|apply fz_ok, Z.leb_le, H2|exact NZ|assumption].
    + rewrite Q2R_div by (apply abs_nonzero, NZ). rewrite Q2R_abs. unfold Rdiv. rewrite Rabs_mult, Rabs_inv. apply Rmult_le_compat_r; assumption.
    + rewrite Q2R_div by (apply abs_nonzero, NZ). rewrite Q2R_abs. replace (v / IZR b - evr a t / IZR b) with ((v - evr a t) * / IZR b) by (field; exact NZ).
      unfold Rdiv. rewrite Rabs_mult, Rabs_inv. apply Rmult_le_compat_r; assumption.
Qed.

Lemma mag_bound B e t : fine B e = true -> Rabs t <= Q2R B -> Rabs (evr e t) <= Q2R (fst (bnd B e)).
Proof.
  intros H Ht. induction e as [|m|a IHa|a IHa b IHb|a IHa b IHb|a IHa b IHb|a b|a IHa b]; cbn [fine] in H; cbn [evr bnd fst].
  - exact Ht.
  - rewrite Q2R_abs. lra.
  - rewrite Rabs_Ropp. auto.
  - apply andb_true_iff in H as [H _]. apply andb_true_iff in H as [H1 H2]. specialize (IHa H1). specialize (IHb H2).
    destruct (bnd B a), (bnd B b). cbn [step fst] in *. rewrite (Qeq_eqR _ _ (Qred_correct _)), Q2R_plus. apply Rle_trans with (1 := Rabs_triang _ _). lra.
  - apply andb_true_iff in H as [H _]. apply andb_true_iff in H as [H1 H2]. specialize (IHa H1). specialize (IHb H2).
    destruct (bnd B a), (bnd B b). cbn [step fst] in *. rewrite (Qeq_eqR _ _ (Qred_correct _)), Q2R_plus. unfold Rminus.
    apply Rle_trans with (1 := Rabs_triang _ _). rewrite Rabs_Ropp. lra.
  - apply andb_true_iff in H as [H _]. apply andb_true_iff in H as [H1 H2]. specialize (IHa H1). specialize (IHb H2).
    destruct (bnd B a), (bnd B b). cbn [step fst] in *. rewrite (Qeq_eqR _ _ (Qred_correct _)), Q2R_mult, Rabs_mult. apply Rmult_le_compat; auto using Rabs_pos.
  - apply andb_true_iff in H as [H _]. apply andb_true_iff in H as [_ H3]. apply negb_true_iff, Z.eqb_neq in H3.
    assert (NZ : IZR b <> 0) by (apply IZR_neq; exact H3). cbn [step fst]. rewrite (Qeq_eqR _ _ (Qred_correct _)), Q2R_div.
    + rewrite !Q2R_abs. unfold Rdiv. rewrite Rabs_mult, Rabs_inv. lra.
    + intro E. apply Qeq_eqR in E. rewrite Q2R_abs in E. unfold Q2R in E. cbn in E. rewrite Rmult_0_l in E.
      apply (Rabs_no_R0 _ NZ). exact E.
  - apply andb_true_iff in H as [H _]. apply andb_true_iff in H as [H H3]. apply andb_true_iff in H as [H1 _]. apply negb_true_iff, Z.eqb_neq in H3.
    assert (NZ : IZR b <> 0) by (apply IZR_neq; exact H3). specialize (IHa H1). destruct (bnd B a). cbn [step fst] in *.
    rewrite (Qeq_eqR _ _ (Qred_correct _)), Q2R_div by (apply abs_nonzero, NZ).
    rewrite Q2R_abs. unfold Rdiv. rewrite Rabs_mult, Rabs_inv. apply Rmult_le_compat_r; [left; apply Rinv_0_lt_compat, Rabs_pos_lt, NZ|exact IHa].
Qed.
