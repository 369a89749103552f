(** FloatLocal.v -- local time coordinates in doubles: error bounds. *)
From Coq Require Import ZArith Reals List Bool Lia Lra.
From Coq Require Import Floats.SpecFloat.
From Flocq Require Import Core IEEE754.BinarySingleNaN Relative.
From Verif Require Import Base FloatModel FloatRound FloatSamples FloatTime.
Import ListNotations.
Local Open Scope R_scope.

Definition u : R := / 9007199254740992.
Lemma u_eq : bpow radix2 (-53) = u. Proof. unfold u. cbn. lra. Qed.
Definition eta : R := bpow radix2 (-1075).
Lemma rnd_err a : Rabs (rnd a - a) <= u * Rabs a + eta.
Proof.
  destruct (error_N_FLT radix2 (-1074) 53 Hprec (fun z => negb (Z.even z)) a) as [eps [et [H1 [H2 [_ H4]]]]].
  change (round radix2 (FLT_exp (-1074) 53) (Znearest (fun z => negb (Z.even z))) a) with (rnd a) in H4. rewrite H4.
  replace (a * (1 + eps) + et - a) with (a * eps + et) by ring.
  apply Rle_trans with (1 := Rabs_triang _ _). apply Rplus_le_compat.
  - rewrite Rabs_mult, Rmult_comm. apply Rmult_le_compat_r; [apply Rabs_pos|]. apply Rle_trans with (1 := H1). rewrite <- u_eq. cbn. lra.
  - apply Rle_trans with (1 := H2). unfold eta. right. replace (/ 2) with (bpow radix2 (-1)) by (cbn; lra). rewrite <- bpow_plus. reflexivity.
Qed.
Lemma rnd_err_nonneg a : 0 <= a -> a - (u * a + eta) <= rnd a <= a + (u * a + eta).
Proof. intro H. pose proof (rnd_err a) as E. rewrite (Rabs_pos_eq a H) in E. apply Rabs_le_inv in E. lra. Qed.

Lemma fmt_twice a : dfmt a -> dfmt (2 * a).
Proof.
  intro H. apply (FLT_format_generic radix2 (-1074) 53) in H. destruct H as [[m e] -> H1 H2]. apply generic_format_FLT.
  exists (Float radix2 m (e + 1)); [|exact H1|cbn in *; lia]. unfold F2R. cbn [Fnum Fexp]. rewrite bpow_plus. change (bpow radix2 1) with 2. ring.
Qed.
Lemma is_dbl_unique x a b : is_dbl x a -> is_dbl x b -> a = b.
Proof. intros [p [P1 [_ <-]]] [q [Q1 [_ <-]]]. rewrite <- !SF2R_B2SF. congruence. Qed.

Section Run.
Variables (x : spec_float) (t : R) (N n : nat).
Hypothesis Hx : is_dbl x t.
Hypothesis Hlo : bpow radix2 (-900) <= t.
Hypothesis Hhi : t <= bpow radix2 1000.
Hypothesis HN : (1 <= N)%nat.
Hypothesis HN2 : (Z.of_nat N <= 2 ^ 50)%Z.
Hypothesis Hn : (n < N)%nat.
Let HN53 : (Z.of_nat N <= 2 ^ 53)%Z. Proof. lia. Qed.
Let D : R := dt t N.
Let nD : R := INR n * D.

Lemma D_pos : 0 < D. Proof. apply (dt_pos t N); assumption. Qed.
Lemma D_lo : bpow radix2 (-960) <= D.
Proof.
  unfold D, dt. rewrite <- (rnd_id (bpow radix2 (-960))) by (apply fmt_bpow; lia). apply rnd_le.
  pose proof (N_pos N HN). pose proof (N_le N HN53).
  apply Rle_trans with (bpow radix2 (-900) / bpow radix2 53).
  - unfold Rdiv. rewrite <- bpow_opp, <- bpow_plus. apply bpow_le. lia.
  - unfold Rdiv. apply Rmult_le_compat; [apply bpow_ge_0|left; apply Rinv_0_lt_compat, bpow_gt_0|exact Hlo|].
    apply Rinv_le_contravar; lra.
Qed.
(** underflow is far below the slab length *)
Lemma eta_D : 0 <= eta <= u * u * D.
Proof.
  split; [apply bpow_ge_0|]. unfold eta. rewrite <- u_eq. apply Rle_trans with (bpow radix2 (-53) * bpow radix2 (-53) * bpow radix2 (-960)).
  - rewrite <- !bpow_plus. apply bpow_le. lia.
  - apply Rmult_le_compat_l; [apply Rmult_le_pos; apply bpow_ge_0|apply D_lo].
Qed.
Lemma n_small : 0 <= INR n <= 1125899906842624.
Proof. split; [apply pos_INR|]. rewrite INR_IZR_INZ. apply IZR_le. lia. Qed.
Lemma nD_small : 0 <= nD /\ nD <= 1125899906842624 * D.
Proof. pose proof D_pos. pose proof n_small. unfold nD. split; [apply Rmult_le_pos; lra|apply Rmult_le_compat_r; lra]. Qed.
Lemma tn_near : nD - (u * nD + eta) <= tn t N n <= nD + (u * nD + eta).
Proof. unfold tn. apply rnd_err_nonneg, nD_small. Qed.
Lemma top_of a : Rabs a <= 4 * bpow radix2 1001 -> Rabs (rnd a) < top.
Proof.
  intro H. assert (E : 4 * bpow radix2 1001 = bpow radix2 1003).
  { change 1003%Z with (2 + 1001)%Z. rewrite bpow_plus. cbn [bpow]. replace (IZR (Z.pow_pos radix2 2)) with 4 by (cbn; lra). reflexivity. }
  rewrite E in H. apply Rle_lt_trans with (bpow radix2 1003); [|apply bpow_top; lia].
  apply Rabs_le_inv in H. pose proof (fmt_bpow 1003 ltac:(lia)) as F. apply Rabs_le. split.
  - rewrite <- (rnd_id (- bpow radix2 1003)) by (apply generic_format_opp; exact F). apply rnd_le. lra.
  - rewrite <- (rnd_id (bpow radix2 1003)) by exact F. apply rnd_le. lra.
Qed.

(** a time [y] of the slab and its coordinate *)
Section Time.
  Variables (y : spec_float) (f : R).
  Hypothesis Hy : is_dbl y f.
  Let d := rnd (f - tn t N n).
  Hypothesis Hf : Rabs (f - tn t N n) <= 2 * D.
  Lemma diff_ok : is_dbl (fsub y (f_start x N n)) d.
  Proof.
    unfold d, f_start. apply fsub_ok; [exact Hy|apply (tn_ok x t N); assumption|]. apply top_of. apply Rle_trans with (1 := Hf).
    pose proof (dt_hi t N Hlo Hhi HN HN53) as H. fold D in H. pose proof (bpow_ge_0 radix2 1001). lra.
  Qed.
  Lemma diff_near : Rabs (d - (f - tn t N n)) <= 3 * u * D.
  Proof.
    pose proof (rnd_err (f - tn t N n)) as E. fold d in E. apply Rle_trans with (1 := E). pose proof eta_D. pose proof D_pos. unfold u in *. lra.
  Qed.
  Lemma quot_ok : is_dbl (f_local x N n y) (rnd (d / D)) /\ Rabs (rnd (d / D) - (f - tn t N n) / D) <= 6 * u.
  Proof.
    pose proof D_pos as HD. pose proof diff_near as E1.
    assert (Q : Rabs (d / D - (f - tn t N n) / D) <= 3 * u).
    { replace (d / D - (f - tn t N n) / D) with ((d - (f - tn t N n)) * / D) by (field; lra). rewrite Rabs_mult, Rabs_inv, (Rabs_pos_eq D) by lra.
      apply (Rmult_le_reg_r D); [exact HD|]. rewrite Rmult_assoc, Rinv_l, Rmult_1_r by lra. exact E1. }
    assert (F : Rabs ((f - tn t N n) / D) <= 2).
    { unfold Rdiv. rewrite Rabs_mult, Rabs_inv, (Rabs_pos_eq D) by lra. apply (Rmult_le_reg_r D); [exact HD|]. rewrite Rmult_assoc, Rinv_l, Rmult_1_r by lra. exact Hf. }
    assert (G : Rabs (d / D) <= 2 + 3 * u).
    { replace (d / D) with ((f - tn t N n) / D + (d / D - (f - tn t N n) / D)) by ring. apply Rle_trans with (1 := Rabs_triang _ _). lra. }
    assert (Et : eta <= u / 4).
    { unfold eta. apply Rle_trans with (bpow radix2 (-55)); [apply bpow_le; lia|]. right. unfold u. cbn. lra. }
    split.
    - unfold f_local. apply fdiv_ok; [apply diff_ok|apply (f_dt_ok x t N); assumption|fold D; lra|].
      apply top_of. apply Rle_trans with (1 := G). apply Rle_trans with (4 * bpow radix2 0); [unfold u; cbn; lra|].
      apply Rmult_le_compat_l; [lra|apply bpow_le; lia].
    - pose proof (rnd_err (d / D)) as E2. replace (rnd (d / D) - (f - tn t N n) / D) with ((rnd (d / D) - d / D) + (d / D - (f - tn t N n) / D)) by ring.
      apply Rle_trans with (1 := Rabs_triang _ _). unfold u in *. lra.
  Qed.
End Time.

(** round trip: from the coordinate to the time and back *)
Section Trip.
  Variables (z : spec_float) (s : R).
  Hypothesis Hz : is_dbl z s.
  Hypothesis Hs : 0 <= s <= 1.
  Let w := rnd (D * s).
  Let ti := rnd (tn t N n + w).
  Lemma w_near : 0 <= w /\ D * s - 2 * u * D <= w <= D * s + 2 * u * D.
  Proof.
    pose proof D_pos. pose proof eta_D. assert (0 <= D * s <= D) by (split; [apply Rmult_le_pos; lra|rewrite <- (Rmult_1_r D) at 2; apply Rmult_le_compat_l; lra]).
    pose proof (rnd_err_nonneg (D * s) ltac:(lra)) as E. fold w in E. split; [apply rnd_nonneg; lra|]. unfold u in *. lra.
  Qed.
  Lemma time_ok : is_dbl (f_time x N n z) ti.
  Proof.
    pose proof (dt_hi t N Hlo Hhi HN HN53) as H1. fold D in H1. pose proof (tn_bound t N Hlo Hhi HN HN53 n Hn) as H2. pose proof w_near as H3.
    pose proof D_pos. pose proof eta_D. pose proof (bpow_ge_0 radix2 1001).
    assert (0 <= D * s <= D) by (split; [apply Rmult_le_pos; lra|rewrite <- (Rmult_1_r D) at 2; apply Rmult_le_compat_l; lra]).
    unfold f_time, ti. apply fadd_ok; [apply (tn_ok x t N); assumption| |].
    - unfold w. apply fmul_ok; [apply (f_dt_ok x t N); assumption|exact Hz|]. fold D. apply top_of. rewrite Rabs_pos_eq; lra.
    - apply top_of. unfold u in *. rewrite Rabs_pos_eq; lra.
  Qed.
  Lemma ti_near : Rabs (ti - tn t N n - D * s) <= u * nD + 5 * u * D.
  Proof.
    pose proof D_pos. pose proof eta_D. pose proof w_near as [W0 W]. pose proof nD_small as [P1 P2]. pose proof tn_near as [T1 T2].
    assert (0 <= D * s <= D) by (split; [apply Rmult_le_pos; lra|rewrite <- (Rmult_1_r D) at 2; apply Rmult_le_compat_l; lra]).
    assert (T0 : 0 <= tn t N n) by (apply rnd_nonneg; exact P1).
    pose proof (rnd_err_nonneg (tn t N n + w) ltac:(lra)) as E. fold ti in E. apply Rabs_le. unfold u in *. lra.
  Qed.
  Theorem trip_near : exists v, is_dbl (f_local x N n (f_time x N n z)) v /\ Rabs (v - s) <= (INR n + 11) * u.
  Proof.
    pose proof D_pos as HD. pose proof ti_near as E. pose proof nD_small as [P1 P2].
    assert (0 <= D * s <= D) by (split; [apply Rmult_le_pos; lra|rewrite <- (Rmult_1_r D) at 2; apply Rmult_le_compat_l; lra]).
    assert (F : Rabs (ti - tn t N n) <= 2 * D) by (apply Rabs_le_inv in E; apply Rabs_le; unfold u in *; lra).
    destruct (quot_ok (f_time x N n z) ti time_ok F) as [Q1 Q2]. eexists. split; [exact Q1|].
    assert (G : Rabs ((ti - tn t N n) / D - s) <= (INR n + 5) * u).
    { replace ((ti - tn t N n) / D - s) with ((ti - tn t N n - D * s) * / D) by (field; lra). rewrite Rabs_mult, Rabs_inv, (Rabs_pos_eq D) by lra.
      apply (Rmult_le_reg_r D); [exact HD|]. rewrite Rmult_assoc, Rinv_l, Rmult_1_r by lra. apply Rle_trans with (1 := E). unfold nD. lra. }
    match goal with |- Rabs (?a - s) <= _ => replace (a - s) with ((a - (ti - tn t N n) / D) + ((ti - tn t N n) / D - s)) by ring end.
    apply Rle_trans with (1 := Rabs_triang _ _). lra.
  Qed.
End Trip.

(** times that the slab test accepts *)
Section Sample.
  Variables (y : spec_float) (f : R).
  Hypothesis Hy : is_dbl y f.
  Hypothesis Hin : tn t N n <= f <= en t N n.
  Theorem sample_near : exists v, is_dbl (f_local x N n y) v /\ 0 <= v <= 1 + (INR n + 10) * u
    /\ Rabs (v - (f - INR n * (t / INR N)) / (t / INR N)) <= (5 * INR n + 12) * u.
  Proof.
    pose proof D_pos as HD. pose proof eta_D as He. pose proof nD_small as [P1 P2]. pose proof tn_near as [T1 T2].
    assert (T0 : 0 <= tn t N n) by (apply rnd_nonneg; exact P1).
    pose proof (rnd_err_nonneg (tn t N n + D) ltac:(lra)) as E. change (rnd (tn t N n + D)) with (en t N n) in E.
    assert (UP : f - tn t N n <= D + u * nD + 3 * u * D) by (unfold u in *; lra).
    assert (F : Rabs (f - tn t N n) <= 2 * D) by (rewrite Rabs_pos_eq by lra; unfold u in *; lra).
    destruct (quot_ok y f Hy F) as [Q1 Q2]. eexists. split; [exact Q1|].
    assert (V0 : 0 <= rnd (rnd (f - tn t N n) / D)).
    { apply rnd_nonneg. apply Rmult_le_pos; [apply rnd_nonneg; lra|left; apply Rinv_0_lt_compat, HD]. }
    assert (C1 : (f - tn t N n) / D <= 1 + (INR n + 3) * u).
    { apply (Rmult_le_reg_r D); [exact HD|]. unfold Rdiv. rewrite Rmult_assoc, Rinv_l, Rmult_1_r by lra. unfold nD in UP. lra. }
    split; [apply Rabs_le_inv in Q2; lra|].
    (* exact slab length and start *)
    set (d := t / INR N). pose proof (N_pos N HN) as NP. pose proof (t_pos t Hlo) as TP.
    assert (Hd : 0 < d) by (apply Rdiv_lt_0_compat; lra).
    assert (DD : Rabs (D - d) <= u * d + eta).
    { pose proof (rnd_err d) as R. rewrite (Rabs_pos_eq d) in R by lra. exact R. }
    apply Rabs_le_inv in DD.
    assert (Dd : d <= 2 * D) by (unfold u in *; lra).
    set (a := f - tn t N n) in *. set (b := f - INR n * d).
    assert (NB : 0 <= INR n * d /\ INR n * d <= 2 * nD) by (unfold nD; pose proof n_small; split; [apply Rmult_le_pos; lra|]; replace (2 * (INR n * D)) with (INR n * (2 * D)) by ring; apply Rmult_le_compat_l; lra).
    assert (AB : Rabs (a - b) <= 2 * u * nD + u * D + INR n * (u * d + eta)).
    { replace (a - b) with ((nD - tn t N n) + INR n * (d - D)) by (unfold a, b, nD; ring).
      apply Rle_trans with (1 := Rabs_triang _ _). apply Rplus_le_compat; [apply Rabs_le; unfold u in *; lra|].
      rewrite Rabs_mult, (Rabs_pos_eq (INR n)) by apply pos_INR. apply Rmult_le_compat_l; [apply pos_INR|]. apply Rabs_le. lra. }
    assert (NE : INR n * eta <= u * D).
    { pose proof n_small. apply Rle_trans with (1125899906842624 * eta); [apply Rmult_le_compat_r; lra|]. unfold u in *. lra. }
    assert (AB2 : Rabs (a - b) <= 3 * u * nD + 3 * u * D).
    { apply Rle_trans with (1 := AB). rewrite Rmult_plus_distr_l. replace (INR n * (u * d)) with (u * (INR n * d)) by ring.
      assert (X : INR n * d <= nD + u * nD * 2 + u * D).
      { assert (Y : INR n * (d - D) <= INR n * (u * d + eta)) by (apply Rmult_le_compat_l; [apply pos_INR|lra]).
        assert (EY : INR n * (d - D) = INR n * d - nD) by (unfold nD; ring). rewrite EY in Y.
        replace (INR n * (u * d + eta)) with (u * (INR n * d) + INR n * eta) in Y by ring.
        set (p := INR n * d) in *. set (q := INR n * eta) in *. clearbody p q. unfold u in *. lra. }
      set (p := INR n * d) in *. set (q := INR n * eta) in *. clearbody p q. unfold u in *. lra. }
    assert (BB : Rabs b <= 2 * D + u * D).
    { assert (A2 : Rabs a <= D + u * nD + 3 * u * D) by (rewrite Rabs_pos_eq; unfold a in *; lra).
      apply Rabs_le_inv in A2. pose proof AB2 as A3. apply Rabs_le_inv in A3. apply Rabs_le. clearbody a b d nD D. unfold u in *. lra. }
    match goal with |- Rabs (?v - _) <= _ => replace (v - b / d) with ((v - a / D) + ((a - b) * / D + b * (/ D - / d))) by (field; lra) end.
    apply Rle_trans with (1 := Rabs_triang _ _). replace ((5 * INR n + 12) * u) with (6 * u + ((3 * INR n + 3) * u + (2 * INR n + 3) * u)) by ring.
    apply Rplus_le_compat; [exact Q2|]. apply Rle_trans with (1 := Rabs_triang _ _). apply Rplus_le_compat.
    - rewrite Rabs_mult, Rabs_inv, (Rabs_pos_eq D) by lra. apply (Rmult_le_reg_r D); [exact HD|]. rewrite Rmult_assoc, Rinv_l, Rmult_1_r by lra.
      apply Rle_trans with (1 := AB2). unfold nD. lra.
    - rewrite Rabs_mult. replace (/ D - / d) with ((d - D) / (d * D)) by (field; lra). unfold Rdiv. rewrite Rabs_mult, Rabs_inv, (Rabs_pos_eq (d * D)) by (apply Rmult_le_pos; lra).
      assert (M : Rabs (d - D) <= u * d + eta) by (apply Rabs_le; lra).
      apply (Rmult_le_reg_r (d * D)); [apply Rmult_lt_0_compat; lra|]. rewrite Rmult_assoc, (Rmult_assoc (Rabs (d - D))), Rinv_l, Rmult_1_r by (apply Rmult_integral_contrapositive_currified; lra).
      apply Rle_trans with ((2 * D + u * D) * (u * d + eta)); [apply Rmult_le_compat; auto using Rabs_pos|].
      assert (M2 : u * d + eta <= (u + 4 * (u * u)) * d) by (assert (D <= 2 * d) by (unfold u in *; lra); unfold u in *; lra).
      apply Rle_trans with ((2 * D + u * D) * ((u + 4 * (u * u)) * d)); [apply Rmult_le_compat_l; [unfold u; lra|exact M2]|].
      replace ((2 * D + u * D) * ((u + 4 * (u * u)) * d)) with (((2 + u) * (u + 4 * (u * u))) * (d * D)) by ring.
      apply Rmult_le_compat_r; [apply Rmult_le_pos; lra|]. pose proof (pos_INR n). unfold u in *. lra.
  Qed.
End Sample.

(** the coordinate in [-1, 1] that the lifting uses *)
Lemma top_of16 a : Rabs a <= 16 * bpow radix2 1001 -> Rabs (rnd a) < top.
Proof.
  intro H. assert (E : 16 * bpow radix2 1001 = bpow radix2 1005).
  { change 1005%Z with (4 + 1001)%Z. rewrite bpow_plus. f_equal. }
  rewrite E in H. apply Rle_lt_trans with (bpow radix2 1005); [|apply bpow_top; lia].
  apply Rabs_le_inv in H. pose proof (fmt_bpow 1005 ltac:(lia)) as F. apply Rabs_le. split.
  - rewrite <- (rnd_id (- bpow radix2 1005)) by (apply generic_format_opp; exact F). apply rnd_le. lra.
  - rewrite <- (rnd_id (bpow radix2 1005)) by exact F. apply rnd_le. lra.
Qed.
Section Reflect.
  Variables (y : spec_float) (f : R).
  Hypothesis Hy : is_dbl y f.
  Hypothesis Hf : Rabs (f - tn t N n) <= 2 * D.
  Let e2 := rnd (en t N n + tn t N n).
  Lemma e2_near : Rabs (e2 - (2 * tn t N n + D)) <= 3 * u * nD + 4 * u * D.
  Proof.
    pose proof D_pos. pose proof eta_D. pose proof nD_small as [P1 P2]. pose proof tn_near as [T1 T2].
    assert (T0 : 0 <= tn t N n) by (apply rnd_nonneg; exact P1).
    pose proof (rnd_err_nonneg (tn t N n + D) ltac:(lra)) as E. change (rnd (tn t N n + D)) with (en t N n) in E.
    assert (E0 : 0 <= en t N n) by (apply rnd_nonneg; unfold D in *; lra).
    pose proof (rnd_err_nonneg (en t N n + tn t N n) ltac:(lra)) as E2. fold e2 in E2.
    set (a := en t N n) in *. set (b := tn t N n) in *. clearbody a b e2 nD D. apply Rabs_le. unfold u in *. lra.
  Qed.
  Theorem reflect_near : exists v, is_dbl (f_reflect x N n y) v /\ Rabs (v - (2 * ((f - tn t N n) / D) - 1)) <= (3 * INR n + 18) * u.
  Proof.
    pose proof D_pos as HD. pose proof eta_D as He. pose proof nD_small as [P1 P2]. pose proof tn_near as [T1 T2]. pose proof e2_near as E2.
    assert (T0 : 0 <= tn t N n) by (apply rnd_nonneg; exact P1).
    pose proof (dt_hi t N Hlo Hhi HN HN53) as H1. fold D in H1. pose proof (tn_bound t N Hlo Hhi HN HN53 n Hn) as H2.
    pose proof (bpow_ge_0 radix2 1001) as B0. pose proof (Rabs_le_inv _ _ Hf) as Hf'. pose proof (Rabs_le_inv _ _ E2) as E2'.
    pose proof (rnd_err_nonneg (tn t N n + D) ltac:(lra)) as E. change (rnd (tn t N n + D)) with (en t N n) in E.
    assert (E0 : 0 <= en t N n) by (apply rnd_nonneg; unfold D in *; lra).
    assert (EN : en t N n <= 3 * bpow radix2 1001) by (set (a := en t N n) in *; set (b := tn t N n) in *; clearbody a b nD D; unfold u in *; lra).
    assert (F2 : rnd (2 * f) = 2 * f).
    { apply rnd_id, fmt_twice, (is_dbl_fmt _ _ Hy). }
    assert (D2 : is_dbl (fmul (fz 2) y) (2 * f)).
    { rewrite <- F2. apply (fmul_ok _ _ 2 f); [apply (fz_ok 2); lia|exact Hy|]. apply top_of16. apply Rabs_le. lra. }
    assert (DE : is_dbl (fadd (fadd (f_start x N n) (f_dt x N)) (f_start x N n)) e2).
    { unfold e2. apply fadd_ok; [apply (en_ok x t N); assumption|apply (tn_ok x t N); assumption|]. apply top_of16. rewrite Rabs_pos_eq; lra. }
    assert (M6 : Rabs (2 * f - e2) <= 6 * D) by (apply Rabs_le; set (a := tn t N n) in *; clearbody a e2 nD D; unfold u in *; lra).
    set (m := rnd (2 * f - e2)).
    assert (DM : is_dbl (fsub (fmul (fz 2) y) (fadd (fadd (f_start x N n) (f_dt x N)) (f_start x N n))) m).
    { apply fsub_ok; [exact D2|exact DE|]. apply top_of16. lra. }
    assert (M7 : Rabs (m - (2 * f - e2)) <= 7 * u * D) by (pose proof (rnd_err (2 * f - e2)) as X; fold m in X; clearbody m e2 nD D; unfold u in *; lra).
    assert (MM : Rabs (m - (2 * (f - tn t N n) - D)) <= 3 * u * nD + 11 * u * D).
    { replace (m - (2 * (f - tn t N n) - D)) with ((m - (2 * f - e2)) + - (e2 - (2 * tn t N n + D))) by ring.
      apply Rle_trans with (1 := Rabs_triang _ _). rewrite Rabs_Ropp. lra. }
    set (c := 2 * ((f - tn t N n) / D) - 1).
    assert (Q : Rabs (m / D - c) <= (3 * INR n + 11) * u).
    { replace (m / D - c) with ((m - (2 * (f - tn t N n) - D)) * / D) by (unfold c; field; lra). rewrite Rabs_mult, Rabs_inv, (Rabs_pos_eq D) by lra.
      apply (Rmult_le_reg_r D); [exact HD|]. rewrite Rmult_assoc, Rinv_l, Rmult_1_r by lra. apply Rle_trans with (1 := MM). unfold nD. lra. }
    assert (G : Rabs (m / D) <= 25 / 4).
    { unfold Rdiv at 1. rewrite Rabs_mult, Rabs_inv, (Rabs_pos_eq D) by lra. apply (Rmult_le_reg_r D); [exact HD|]. rewrite Rmult_assoc, Rinv_l, Rmult_1_r by lra.
      replace m with ((m - (2 * f - e2)) + (2 * f - e2)) by ring. apply Rle_trans with (1 := Rabs_triang _ _). clearbody m e2 nD D. unfold u in *. lra. }
    assert (Et : eta <= u / 4).
    { unfold eta. apply Rle_trans with (bpow radix2 (-55)); [apply bpow_le; lia|]. right. unfold u. cbn. lra. }
    exists (rnd (m / D)). split.
    - unfold f_reflect. apply fdiv_ok; [exact DM|apply (f_dt_ok x t N); assumption|fold D; lra|].
      apply top_of16. apply Rle_trans with (1 := G). apply Rle_trans with (16 * bpow radix2 0); [cbn; lra|].
      apply Rmult_le_compat_l; [lra|apply bpow_le; lia].
    - pose proof (rnd_err (m / D)) as R. replace (rnd (m / D) - c) with ((rnd (m / D) - m / D) + (m / D - c)) by ring.
      apply Rle_trans with (1 := Rabs_triang _ _). replace ((3 * INR n + 18) * u) with (7 * u + (3 * INR n + 11) * u) by ring.
      apply Rplus_le_compat; [|exact Q]. unfold u in *. lra.
  Qed.
End Reflect.
Theorem reflect_trip z s : is_dbl z s -> 0 <= s <= 1 ->
  exists v, is_dbl (f_reflect x N n (f_time x N n z)) v /\ Rabs (v - (2 * s - 1)) <= (5 * INR n + 28) * u.
Proof.
  intros Hz Hs. pose proof D_pos as HD. pose proof (ti_near s Hs) as E. pose proof nD_small as [P1 P2].
  assert (0 <= D * s <= D) by (split; [apply Rmult_le_pos; lra|rewrite <- (Rmult_1_r D) at 2; apply Rmult_le_compat_l; lra]).
  set (ti := rnd (tn t N n + rnd (D * s))) in *.
  assert (F : Rabs (ti - tn t N n) <= 2 * D) by (apply Rabs_le_inv in E; apply Rabs_le; unfold u in *; lra).
  destruct (reflect_near _ ti (time_ok z s Hz Hs) F) as [v [A B]]. exists v. split; [exact A|].
  assert (G : Rabs ((ti - tn t N n) / D - s) <= (INR n + 5) * u).
  { replace ((ti - tn t N n) / D - s) with ((ti - tn t N n - D * s) * / D) by (field; lra). rewrite Rabs_mult, Rabs_inv, (Rabs_pos_eq D) by lra.
    apply (Rmult_le_reg_r D); [exact HD|]. rewrite Rmult_assoc, Rinv_l, Rmult_1_r by lra. apply Rle_trans with (1 := E). unfold nD. lra. }
  set (c := (ti - tn t N n) / D) in *. replace (v - (2 * s - 1)) with ((v - (2 * c - 1)) + 2 * (c - s)) by ring.
  apply Rle_trans with (1 := Rabs_triang _ _). rewrite (Rabs_mult 2), (Rabs_pos_eq 2) by lra. lra.
Qed.
Theorem reflect_sample y f : is_dbl y f -> tn t N n <= f <= en t N n ->
  exists v, is_dbl (f_reflect x N n y) v /\ Rabs (v - (2 * ((f - INR n * (t / INR N)) / (t / INR N)) - 1)) <= (13 * INR n + 54) * u.
Proof.
  intros Hy Hin. pose proof D_pos as HD. pose proof eta_D as He. pose proof nD_small as [P1 P2]. pose proof tn_near as [T1 T2].
  assert (T0 : 0 <= tn t N n) by (apply rnd_nonneg; exact P1).
  pose proof (rnd_err_nonneg (tn t N n + D) ltac:(lra)) as E. change (rnd (tn t N n + D)) with (en t N n) in E.
  assert (UP : f - tn t N n <= D + u * nD + 3 * u * D) by (unfold u in *; lra).
  assert (F : Rabs (f - tn t N n) <= 2 * D) by (rewrite Rabs_pos_eq by lra; unfold u in *; lra).
  destruct (reflect_near y f Hy F) as [v [A B]]. exists v. split; [exact A|].
  destruct (sample_near y f Hy Hin) as [w [W1 [_ W2]]]. destruct (quot_ok y f Hy F) as [Q1 Q2].
  set (r := rnd (rnd (f - tn t N n) / D)) in *. assert (w = r) as -> by (apply (is_dbl_unique _ _ _ W1 Q1)).
  set (c := (f - tn t N n) / D) in *. set (e := (f - INR n * (t / INR N)) / (t / INR N)) in *.
  replace (v - (2 * e - 1)) with ((v - (2 * c - 1)) + (2 * (r - e) + - (2 * (r - c)))) by ring.
  apply Rle_trans with (1 := Rabs_triang _ _). apply Rle_trans with ((3 * INR n + 18) * u + (Rabs (2 * (r - e)) + Rabs (- (2 * (r - c))))).
  - apply Rplus_le_compat; [exact B|apply Rabs_triang].
  - rewrite Rabs_Ropp, !(Rabs_mult 2), (Rabs_pos_eq 2) by lra. lra.
Qed.
End Run.
