(** FloatRound.v -- the double operations of FloatModel.v are the correctly
    rounded operations of the reals.  The operations themselves are those of
    Coq.Floats.SpecFloat; Flocq is used for its theorems about them. *)
From Coq Require Import ZArith Reals List Bool Lia Lra Psatz.
From Coq Require Import Floats.SpecFloat.
From Flocq Require Import Core IEEE754.BinarySingleNaN Relative.
From Verif Require Import FloatModel.
Import ListNotations.
Local Open Scope R_scope.

(** binary64 *)
Definition Hprec : Prec_gt_0 53 := eq_refl.
Definition Hmax : Prec_lt_emax 53 1024 := eq_refl.
#[export] Existing Instance Hprec.
#[export] Existing Instance Hmax.
Notation dbl := (binary_float 53 1024).
Notation dexp := (FLT_exp (-1074) 53).
(** round to nearest, ties to even, without overflow *)
Definition rnd (x : R) : R := round radix2 dexp ZnearestE x.
(** the reals that are doubles up to overflow *)
Definition dfmt (x : R) : Prop := generic_format radix2 dexp x.
Definition top : R := bpow radix2 1024.

(** [is_dbl x r]: the double [x] is finite and has value [r] *)
Definition is_dbl (x : spec_float) (r : R) : Prop :=
  exists b : dbl, B2SF b = x /\ is_finite b = true /\ B2R b = r.

Lemma is_dbl_fmt x r : is_dbl x r -> dfmt r.
Proof. intros [b [_ [_ <-]]]. apply (generic_format_B2R 53 1024 b). Qed.

(** ** SpecFloat and Flocq agree *)
Lemma rne_eq s m l : round_nearest_even m l = choice_mode mode_NE s m l.
Proof.
  case l; [reflexivity|intro c]. case c; [|reflexivity..].
  now simpl; unfold Round.cond_incr; case Z.even.
Qed.
Lemma round_aux_eq sx mx ex lx :
  SpecFloat.binary_round_aux 53 1024 sx mx ex lx = BinarySingleNaN.binary_round_aux 53 1024 mode_NE sx mx ex lx.
Proof.
  unfold SpecFloat.binary_round_aux, BinarySingleNaN.binary_round_aux.
  set (mrse' := shr_fexp _ _ _). case mrse'; intros mrs' e'; simpl.
  now rewrite (rne_eq sx).
Qed.
Lemma round_eq s m e : SpecFloat.binary_round 53 1024 s m e = BinarySingleNaN.binary_round 53 1024 mode_NE s m e.
Proof.
  unfold SpecFloat.binary_round, BinarySingleNaN.binary_round, shl_align_fexp.
  set (mez := shl_align _ _ _); case mez as [mz ez]. apply round_aux_eq.
Qed.
Lemma normalize_eq m e z :
  SpecFloat.binary_normalize 53 1024 m e z = B2SF (BinarySingleNaN.binary_normalize 53 1024 Hprec Hmax mode_NE m e z).
Proof.
  case m as [|p|p]; simpl; [reflexivity| |]; rewrite B2SF_SF2B; apply round_eq.
Qed.
Lemma mul_eq (x y : dbl) : fmul (B2SF x) (B2SF y) = B2SF (Bmult mode_NE x y).
Proof.
  unfold fmul.
  case x as [sx|sx| |sx mx ex Bx]; case y as [sy|sy| |sy my ey By]; [reflexivity..|].
  simpl. rewrite B2SF_SF2B. apply round_aux_eq.
Qed.
Lemma add_eq (x y : dbl) : fadd (B2SF x) (B2SF y) = B2SF (Bplus mode_NE x y).
Proof.
  unfold fadd.
  case x as [sx|sx| |sx mx ex Bx]; case y as [sy|sy| |sy my ey By];
    [now (trivial || simpl; case Bool.eqb)..|].
  apply normalize_eq.
Qed.
Lemma sub_eq (x y : dbl) : fsub (B2SF x) (B2SF y) = B2SF (Bminus mode_NE x y).
Proof.
  unfold fsub.
  case x as [sx|sx| |sx mx ex Bx]; case y as [sy|sy| |sy my ey By];
    [now (trivial || simpl; case Bool.eqb)..|].
  simpl. unfold Zminus. rewrite <- cond_Zopp_negb. apply normalize_eq.
Qed.
Lemma div_eq (x y : dbl) : fdiv (B2SF x) (B2SF y) = B2SF (Bdiv mode_NE x y).
Proof.
  unfold fdiv.
  case x as [sx|sx| |sx mx ex Bx]; case y as [sy|sy| |sy my ey By];
    [now (trivial || simpl; case Bool.eqb)..|].
  simpl. rewrite B2SF_SF2B.
  set (melz := SFdiv_core_binary _ _ _ _ _ _). case melz as [[mz ez] lz]. apply round_aux_eq.
Qed.

(** ** the operations are correctly rounded *)
Lemma fmul_ok x y a b : is_dbl x a -> is_dbl y b -> Rabs (rnd (a * b)) < top -> is_dbl (fmul x y) (rnd (a * b)).
Proof.
  intros [bx [<- [Fx <-]]] [b' [<- [Fy <-]]] H. rewrite mul_eq. exists (Bmult mode_NE bx b'). split; [reflexivity|].
  pose proof (Bmult_correct 53 1024 _ _ mode_NE bx b') as C.
  match type of C with context [Rlt_bool ?u ?v] => change u with (Rabs (rnd (B2R bx * B2R b'))) in C; change v with top in C end.
  rewrite Rlt_bool_true in C by exact H. destruct C as [C1 [C2 _]]. rewrite C2, Fx, Fy. split; [reflexivity|exact C1].
Qed.
Lemma fadd_ok x y a b : is_dbl x a -> is_dbl y b -> Rabs (rnd (a + b)) < top -> is_dbl (fadd x y) (rnd (a + b)).
Proof.
  intros [bx [<- [Fx <-]]] [b' [<- [Fy <-]]] H. rewrite add_eq. exists (Bplus mode_NE bx b'). split; [reflexivity|].
  pose proof (Bplus_correct 53 1024 _ _ mode_NE bx b' Fx Fy) as C.
  match type of C with context [Rlt_bool ?u ?v] => change u with (Rabs (rnd (B2R bx + B2R b'))) in C; change v with top in C end.
  rewrite Rlt_bool_true in C by exact H. destruct C as [C1 [C2 _]]. split; [exact C2|exact C1].
Qed.
Lemma fsub_ok x y a b : is_dbl x a -> is_dbl y b -> Rabs (rnd (a - b)) < top -> is_dbl (fsub x y) (rnd (a - b)).
Proof.
  intros [bx [<- [Fx <-]]] [b' [<- [Fy <-]]] H. rewrite sub_eq. exists (Bminus mode_NE bx b'). split; [reflexivity|].
  pose proof (Bminus_correct 53 1024 _ _ mode_NE bx b' Fx Fy) as C.
  match type of C with context [Rlt_bool ?u ?v] => change u with (Rabs (rnd (B2R bx - B2R b'))) in C; change v with top in C end.
  rewrite Rlt_bool_true in C by exact H. destruct C as [C1 [C2 _]]. split; [exact C2|exact C1].
Qed.
Lemma fdiv_ok x y a b : is_dbl x a -> is_dbl y b -> b <> 0 -> Rabs (rnd (a / b)) < top -> is_dbl (fdiv x y) (rnd (a / b)).
Proof.
  intros [bx [<- [Fx <-]]] [b' [<- [Fy <-]]] Hb H. rewrite div_eq. exists (Bdiv mode_NE bx b'). split; [reflexivity|].
  pose proof (Bdiv_correct 53 1024 _ _ mode_NE bx b' Hb) as C.
  match type of C with context [Rlt_bool ?u ?v] => change u with (Rabs (rnd (B2R bx / B2R b'))) in C; change v with top in C end.
  rewrite Rlt_bool_true in C by exact H. destruct C as [C1 [C2 _]]. rewrite C2, Fx. split; [reflexivity|exact C1].
Qed.
Lemma fle_ok x y a b : is_dbl x a -> is_dbl y b -> fle x y = Rle_bool a b.
Proof.
  intros [bx [<- [Fx <-]]] [b' [<- [Fy <-]]]. exact (Bleb_correct 53 1024 bx b' Fx Fy).
Qed.
Lemma fle_true x y a b : is_dbl x a -> is_dbl y b -> (fle x y = true <-> a <= b).
Proof.
  intros Hx Hy. rewrite (fle_ok _ _ _ _ Hx Hy). split; intro H.
  - revert H. case Rle_bool_spec; [auto|discriminate].
  - apply Rle_bool_true. exact H.
Qed.

(** ** rounding *)
Lemma rnd_le a b : a <= b -> rnd a <= rnd b.
Proof. intro H. apply round_le; auto with typeclass_instances. Qed.
Lemma rnd_id a : dfmt a -> rnd a = a.
Proof. intro H. apply round_generic; auto with typeclass_instances. Qed.
Lemma rnd_fmt a : dfmt (rnd a).
Proof. apply generic_format_round; auto with typeclass_instances. Qed.
Lemma rnd_0 : rnd 0 = 0.
Proof. apply round_0; auto with typeclass_instances. Qed.
Lemma rnd_nonneg a : 0 <= a -> 0 <= rnd a.
Proof. intro H. rewrite <- rnd_0. apply rnd_le, H. Qed.
(** an integer times a power of two, 53 bits *)
Lemma fmt_int (m e : Z) : (Z.abs m <= 2 ^ 53)%Z -> (-1074 <= e)%Z -> dfmt (IZR m * bpow radix2 e).
Proof.
  intros Hm He. destruct (Z.eq_dec (Z.abs m) (2 ^ 53)) as [Em|Em].
  - assert (E : IZR m * bpow radix2 e = IZR (Z.sgn m) * bpow radix2 (e + 53)).
    { rewrite bpow_plus. assert (Es : m = (Z.sgn m * 2 ^ 53)%Z) by (destruct m; cbn [Z.sgn Z.abs] in *; lia).
      rewrite Es at 1. rewrite mult_IZR. change (IZR (2 ^ 53)) with (bpow radix2 53). ring. }
    rewrite E. apply generic_format_FLT. exists (Float radix2 (Z.sgn m) (e + 53)); cbn [Fnum Fexp].
    + reflexivity.
    + apply Z.le_lt_trans with 1%Z; [|reflexivity]. destruct m; cbn; lia.
    + lia.
  - apply generic_format_FLT. exists (Float radix2 m e); cbn [Fnum Fexp]; [reflexivity| |lia].
    change (radix2 ^ 53)%Z with (2 ^ 53)%Z. lia.
Qed.
Lemma bpow_top e : (e <= 1023)%Z -> bpow radix2 e < top.
Proof. intro H. apply bpow_lt. lia. Qed.
Lemma fmt_bpow e : (-1074 <= e)%Z -> dfmt (bpow radix2 e).
Proof. intro H. replace (bpow radix2 e) with (IZR 1 * bpow radix2 e) by ring. apply fmt_int; [cbn; lia|exact H]. Qed.

(** an integer as a double is exact up to 2^53 *)
Lemma fz_ok m : (Z.abs m <= 2 ^ 53)%Z -> is_dbl (fz m) (IZR m).
Proof.
  intro Hm. unfold fz. rewrite normalize_eq. eexists. split; [reflexivity|].
  pose proof (binary_normalize_correct 53 1024 Hprec Hmax mode_NE m 0 false) as C. cbv zeta in C.
  assert (EF : F2R (Float radix2 m 0) = IZR m) by (unfold F2R; cbn; ring). rewrite EF in C.
  assert (ER : rnd (IZR m) = IZR m).
  { apply rnd_id. replace (IZR m) with (IZR m * bpow radix2 0) by (cbn; ring). apply fmt_int; [exact Hm|lia]. }
  change (round radix2 (SpecFloat.fexp 53 1024) (round_mode mode_NE) (IZR m)) with (rnd (IZR m)) in C.
  rewrite ER in C. change (bpow radix2 1024) with top in C. rewrite Rlt_bool_true in C.
  - destruct C as [C1 [C2 _]]. split; assumption.
  - rewrite <- abs_IZR. apply Rle_lt_trans with (bpow radix2 53); [|apply bpow_top; lia].
    change (bpow radix2 53) with (IZR (2 ^ 53)). apply IZR_le. exact Hm.
Qed.
Lemma fn_ok n : (Z.of_nat n <= 2 ^ 53)%Z -> is_dbl (fn n) (INR n).
Proof. intro H. rewrite INR_IZR_INZ. apply fz_ok. lia. Qed.

(** relative error of rounding, for numbers that are not tiny *)
Definition eps0 : R := bpow radix2 (-53).
Lemma rnd_rel a : bpow radix2 (-1022) <= a -> Rabs (rnd a - a) <= eps0 * a.
Proof.
  intro H. assert (Ha : 0 < a) by (apply Rlt_le_trans with (2 := H); apply bpow_gt_0).
  pose proof (relative_error_N_FLT radix2 (-1074) 53 Hprec (fun z => negb (Z.even z)) a) as R.
  rewrite (Rabs_pos_eq a) in R by lra. apply R in H.
  apply Rle_trans with (1 := H). apply Rmult_le_compat_r; [lra|]. unfold eps0. cbn. lra.
Qed.
