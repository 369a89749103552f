(** Props_MeshDoubles.v -- property C102: the sides of the rectangles of the
    plane geometries, computed in doubles, meet where they should. *)
From Coq Require Import ZArith Reals List Bool Lia Lra.
From Coq Require Import Floats.SpecFloat.
From Flocq Require Import Core IEEE754.BinarySingleNaN.
From Verif Require Import FloatModel FloatRound FloatTime FloatMesh Props_Float.
Import ListNotations.
Open Scope R_scope.

(** ** rounding of numbers of size about one *)
Lemma dbl_value x r : is_dbl x r -> value x r.
Proof.
  intros [b [E [F V]]]. subst x. split; [apply valid_binary_B2SF|]. split; [rewrite is_finite_SF_B2SF; exact F|].
  rewrite SF2R_B2SF. exact V.
Qed.
Lemma rnd_err a e : (-1000 <= e)%Z -> Rabs a < bpow radix2 e -> Rabs (rnd a - a) <= bpow radix2 (e - 54).
Proof.
  intros He Ha. destruct (Req_dec a 0) as [->|Hn].
  - rewrite rnd_0, Rminus_0_r, Rabs_R0. apply bpow_ge_0.
  - pose proof (error_le_half_ulp radix2 dexp (fun z => negb (Z.even z)) a) as H.
    rewrite ulp_neq_0 in H by exact Hn. change (round radix2 dexp (Znearest (fun z => negb (Z.even z))) a) with (rnd a) in H.
    apply Rle_trans with (1 := H). replace (e - 54)%Z with (e - 53 + -1)%Z by ring. rewrite bpow_plus. change (bpow radix2 (-1)) with (/ 2).
    rewrite Rmult_comm. apply Rmult_le_compat_r; [lra|]. apply bpow_le. unfold cexp.
    assert (M : (mag radix2 a <= e)%Z) by (apply mag_le_bpow; assumption).
    unfold FLT_exp. lia.
Qed.
Lemma grid x e : (-1000 <= e)%Z -> dfmt x -> bpow radix2 (e - 1) <= Rabs x -> exists m, x = IZR m * bpow radix2 (e - 53).
Proof.
  intros He Hx Hb. red in Hx. red in Hx. unfold F2R in Hx. cbn [Fnum Fexp] in Hx.
  assert (M : (e <= mag radix2 x)%Z) by (apply mag_ge_bpow; exact Hb).
  assert (C : (e - 53 <= cexp radix2 dexp x)%Z) by (unfold cexp, FLT_exp; lia).
  exists (Ztrunc (scaled_mantissa radix2 dexp x) * 2 ^ (cexp radix2 dexp x - (e - 53)))%Z.
  rewrite Hx at 1. rewrite mult_IZR. change 2%Z with (radix_val radix2). rewrite IZR_Zpower by lia.
  rewrite Rmult_assoc, <- bpow_plus. f_equal. f_equal. ring.
Qed.
Lemma small c : Rabs c <= 8 -> Rabs (rnd c) < top.
Proof.
  intro H. assert (F8 : dfmt (bpow radix2 3)) by (apply fmt_bpow; lia). change (bpow radix2 3) with 8 in F8.
  assert (FM : dfmt (Ropp 8)) by (apply generic_format_opp; exact F8).
  pose proof (rnd_id _ F8) as R8. pose proof (rnd_id _ FM) as RM. apply Rabs_le_inv in H. destruct H as [H1 H2].
  apply rnd_le in H1. apply rnd_le in H2. rewrite RM in H1. rewrite R8 in H2.
  apply Rle_lt_trans with (bpow radix2 3); [|apply bpow_top; lia]. change (bpow radix2 3) with 8. apply Rabs_le. lra.
Qed.
Lemma vadd x y a b : is_dbl x a -> is_dbl y b -> Rabs (a + b) <= 8 -> is_dbl (fadd x y) (rnd (a + b)).
Proof. intros H1 H2 H3. apply fadd_ok; [assumption|assumption|apply small, H3]. Qed.
Lemma vsub x y a b : is_dbl x a -> is_dbl y b -> Rabs (a - b) <= 8 -> is_dbl (fsub x y) (rnd (a - b)).
Proof. intros H1 H2 H3. apply fsub_ok; [assumption|assumption|apply small, H3]. Qed.
Lemma dbl_unique x a b : is_dbl x a -> is_dbl x b -> a = b.
Proof. intros H1 H2. apply dbl_value in H1, H2. destruct H1 as [_ [_ <-]], H2 as [_ [_ <-]]. reflexivity. Qed.
(** a concrete double *)
Ltac concrete := apply value_dbl; split; [reflexivity|]; split; [reflexivity|]; vm_compute; lra.
Lemma near_one s : Rabs (s - 1) <= bpow radix2 (-54) -> rnd s = 1.
Proof.
  intro H. apply Rabs_le_inv in H. destruct H as [H1 H2].
  assert (O : is_dbl (fz 1) 1) by (apply (fz_ok 1); lia).
  assert (E : is_dbl (S754_finite false 4503599627370496 (-106)) (bpow radix2 (-54))) by concrete.
  assert (S8 : Rabs (1 + bpow radix2 (-54)) <= 8 /\ Rabs (1 - bpow radix2 (-54)) <= 8) by (split; apply Rabs_le; cbn; lra).
  pose proof (vadd _ _ _ _ O E (proj1 S8)) as U. pose proof (vsub _ _ _ _ O E (proj2 S8)) as D.
  replace (fadd (fz 1) (S754_finite false 4503599627370496 (-106))) with (fz 1) in U by reflexivity.
  replace (fsub (fz 1) (S754_finite false 4503599627370496 (-106))) with (fz 1) in D by reflexivity.
  apply (dbl_unique _ _ _ O) in U. apply (dbl_unique _ _ _ O) in D.
  apply Rle_antisym.
  - rewrite U. apply rnd_le. lra.
  - rewrite D. apply rnd_le. lra.
Qed.
Lemma near_three_halves s : Rabs (s - 3 / 2) <= bpow radix2 (-53) -> rnd s = 3 / 2.
Proof.
  intro H. apply Rabs_le_inv in H. destruct H as [H1 H2].
  assert (O : is_dbl (cents 150) (3 / 2)) by concrete.
  assert (E : is_dbl (S754_finite false 4503599627370496 (-105)) (bpow radix2 (-53))) by concrete.
  assert (S8 : Rabs (3 / 2 + bpow radix2 (-53)) <= 8 /\ Rabs (3 / 2 - bpow radix2 (-53)) <= 8) by (split; apply Rabs_le; cbn; lra).
  pose proof (vadd _ _ _ _ O E (proj1 S8)) as U. pose proof (vsub _ _ _ _ O E (proj2 S8)) as D.
  replace (fadd (cents 150) (S754_finite false 4503599627370496 (-105))) with (cents 150) in U by reflexivity.
  replace (fsub (cents 150) (S754_finite false 4503599627370496 (-105))) with (cents 150) in D by reflexivity.
  apply (dbl_unique _ _ _ O) in U. apply (dbl_unique _ _ _ O) in D.
  apply Rle_antisym.
  - rewrite U. apply rnd_le. lra.
  - rewrite D. apply rnd_le. lra.
Qed.

(** ** heights *)
(** from y up to 1, for every double y of the unit interval *)
Lemma up_to_one y r : is_dbl y r -> 0 <= r <= 1 -> is_dbl (fadd y (fsub (cents 100) y)) 1.
Proof.
  intros Hy Hr. assert (O : is_dbl (cents 100) 1) by concrete.
  assert (D : is_dbl (fsub (cents 100) y) (rnd (1 - r))) by (apply vsub; [exact O|exact Hy|apply Rabs_le; lra]).
  destruct (Req_dec r 0) as [Z|Z].
  - subst r. assert (E1 : rnd (1 - 0) = 1) by (apply near_one; apply Rabs_le; cbn; lra). rewrite E1 in D.
    replace 1 with (rnd (0 + 1)) by (apply near_one; apply Rabs_le; cbn; lra). apply vadd; [exact Hy|exact D|apply Rabs_le; lra].
  - assert (B : Rabs (rnd (1 - r) - (1 - r)) <= bpow radix2 (0 - 54)) by (apply rnd_err; [lia|]; apply Rabs_def1; cbn; lra).
    assert (B2 := B). apply Rabs_le_inv in B2. cbn in B2.
    rewrite <- (near_one (r + rnd (1 - r))).
    + apply vadd; [exact Hy|exact D|]. apply Rabs_le. lra.
    + replace (r + rnd (1 - r) - 1) with (rnd (1 - r) - (1 - r)) by ring. exact B.
Qed.
(** from y up to 3/2, for every double y between 0 and 3/2 *)
Lemma up_to_three_halves y r : is_dbl y r -> 0 <= r <= 3 / 2 -> is_dbl (fadd y (fsub (cents 150) y)) (3 / 2).
Proof.
  intros Hy Hr. assert (O : is_dbl (cents 150) (3 / 2)) by concrete.
  assert (D : is_dbl (fsub (cents 150) y) (rnd (3 / 2 - r))) by (apply vsub; [exact O|exact Hy|apply Rabs_le; lra]).
  assert (B : Rabs (rnd (3 / 2 - r) - (3 / 2 - r)) <= bpow radix2 (1 - 54)) by (apply rnd_err; [lia|]; apply Rabs_def1; cbn; lra).
  assert (B2 := B). apply Rabs_le_inv in B2. cbn in B2.
  rewrite <- (near_three_halves (r + rnd (3 / 2 - r))).
  + apply vadd; [exact Hy|exact D|]. apply Rabs_le. lra.
  + replace (r + rnd (3 / 2 - r) - 3 / 2) with (rnd (3 / 2 - r) - (3 / 2 - r)) by ring. exact B.
Qed.
(** eta - 1/4 is exact *)
Lemma quarter_fmt r : dfmt r -> / 4 <= r <= 1 -> dfmt (r - / 4).
Proof.
  intros F Hr. destruct (Rle_lt_dec (/ 2) r) as [H|H].
  - destruct (grid r 0 ltac:(lia) F) as [m Em]; [rewrite Rabs_pos_eq by lra; cbn; lra|].
    assert (E : r - / 4 = IZR (m - 2 ^ 51) * bpow radix2 (0 - 53)) by (rewrite Em at 1; rewrite minus_IZR; cbn; lra).
    rewrite E. apply fmt_int; [|lia].
    assert (0 < m)%Z by (apply lt_IZR; cbn in Em; lra). assert (m <= 2 ^ 53)%Z by (apply le_IZR; cbn in *; lra). lia.
  - destruct (grid r (-1) ltac:(lia) F) as [m Em]; [rewrite Rabs_pos_eq by lra; cbn; lra|].
    assert (E : r - / 4 = IZR (m - 2 ^ 52) * bpow radix2 (-1 - 53)) by (rewrite Em at 1; rewrite minus_IZR; cbn; lra).
    rewrite E. apply fmt_int; [|lia].
    assert (0 < m)%Z by (apply lt_IZR; cbn in Em; lra). assert (m <= 2 ^ 53)%Z by (apply le_IZR; cbn in *; lra). lia.
Qed.
Lemma below y r : is_dbl y r -> / 4 <= r <= 1 -> is_dbl (fsub y (cents 25)) (r - / 4).
Proof.
  intros Hy Hr. assert (Q : is_dbl (cents 25) (/ 4)) by concrete.
  rewrite <- (rnd_id (r - / 4)) by (apply quarter_fmt; [apply (is_dbl_fmt _ _ Hy)|exact Hr]).
  apply vsub; [exact Hy|exact Q|apply Rabs_le; lra].
Qed.
Lemma quarter_up y r : is_dbl y r -> / 4 <= r <= 1 -> is_dbl (fadd (cents 25) (fsub y (cents 25))) r.
Proof.
  intros Hy Hr. assert (Q : is_dbl (cents 25) (/ 4)) by concrete.
  rewrite <- (rnd_id r) by (apply (is_dbl_fmt _ _ Hy)). replace r with (/ 4 + (r - / 4)) at 1 by ring.
  apply vadd; [exact Q|apply below; assumption|apply Rabs_le; lra].
Qed.
(** two sides of size at most 3/2: from a up to b, with error at most 3 * 2^-53 *)
Lemma from_to x y a b : is_dbl x a -> is_dbl y b -> Rabs a <= 3 / 2 -> Rabs b <= 3 / 2 ->
  exists c, is_dbl (fadd x (fsub y x)) c /\ Rabs (c - b) <= 3 * bpow radix2 (-53).
Proof.
  intros Hx Hy Ha Hb. apply Rabs_le_inv in Ha, Hb.
  assert (D : is_dbl (fsub y x) (rnd (b - a))) by (apply vsub; [exact Hy|exact Hx|apply Rabs_le; lra]).
  assert (B : Rabs (rnd (b - a) - (b - a)) <= bpow radix2 (2 - 54)) by (apply rnd_err; [lia|]; apply Rabs_def1; cbn; lra).
  apply Rabs_le_inv in B. cbn in B. exists (rnd (a + rnd (b - a))).
  split; [apply vadd; [exact Hx|exact D|apply Rabs_le; lra]|].
  assert (C : Rabs (rnd (a + rnd (b - a)) - (a + rnd (b - a))) <= bpow radix2 (1 - 54)) by (apply rnd_err; [lia|]; apply Rabs_def1; cbn; lra).
  apply Rabs_le_inv in C. cbn in C. apply Rabs_le. cbn. lra.
Qed.
(** a sum of three numbers of size at most 3/2 *)
Lemma sum3 x y z a b d : is_dbl x a -> is_dbl y b -> is_dbl z d -> Rabs (b + d) <= 3 -> Rabs (a + (b + d)) <= 3 / 2 ->
  exists c, is_dbl (fadd x (fadd y z)) c /\ Rabs (c - (a + (b + d))) <= 3 * bpow radix2 (-53).
Proof.
  intros Hx Hy Hz H1 H2. apply Rabs_le_inv in H1, H2.
  assert (D : is_dbl (fadd y z) (rnd (b + d))) by (apply vadd; [exact Hy|exact Hz|apply Rabs_le; lra]).
  assert (B : Rabs (rnd (b + d) - (b + d)) <= bpow radix2 (2 - 54)) by (apply rnd_err; [lia|]; apply Rabs_def1; cbn; lra).
  apply Rabs_le_inv in B. cbn in B. exists (rnd (a + rnd (b + d))).
  split; [apply vadd; [exact Hx|exact D|apply Rabs_le; lra]|].
  assert (C : Rabs (rnd (a + rnd (b + d)) - (a + rnd (b + d))) <= bpow radix2 (1 - 54)) by (apply rnd_err; [lia|]; apply Rabs_def1; cbn; lra).
  apply Rabs_le_inv in C. cbn in C. apply Rabs_le. cbn. lra.
Qed.
(** the literal n/100 is the double nearest to the decimal *)
Lemma cents_ok n : (Z.abs n <= 400)%Z -> exists c, is_dbl (cents n) c /\ Rabs (c - IZR n / 100) <= bpow radix2 (-51).
Proof.
  intro Hn. exists (rnd (IZR n / IZR 100)).
  assert (A : Rabs (IZR n / IZR 100) <= 4).
  { unfold Rdiv. rewrite Rabs_mult, <- abs_IZR, (Rabs_pos_eq (/ IZR 100)) by lra. apply IZR_le in Hn. lra. }
  split.
  - unfold cents, fq. apply fdiv_ok; [apply fz_ok; lia|apply fz_ok; lia|lra|apply small; lra].
  - pose proof (rnd_err (IZR n / IZR 100) 3 ltac:(lia)) as H. apply H. apply Rle_lt_trans with (1 := A). cbn. lra.
Qed.
Ltac sides := repeat (constructor; [apply dbl_value; try concrete; try assumption|]); try constructor.

(** get_mesh_bottom_data: for every double eta between 1/4 and 1, the tops of the
    middle row and the bottoms of the upper row are the same number eta, and the
    upper row ends at 1, without rounding error; only the inner rectangle that
    ends at 0.9 is off, by at most 2^-50. *)
Theorem C102_bottom : forall eta e, value eta e -> / 4 <= e <= 1 ->
  Forall2 value (map fr_x (f_rects_bottom eta)) [0; 0; 3 / 4; / 4; / 4; 0; / 4; 3 / 4] /\
  Forall2 value (map fr_y (f_rects_bottom eta)) [0; / 4; / 4; / 4; e; e; e; e] /\
  Forall2 value (map fr_right (f_rects_bottom eta)) [1; / 4; 1; 3 / 4; 3 / 4; / 4; 3 / 4; 1] /\
  exists c, Rabs (c - 9 / 10) <= bpow radix2 (-50) /\
  Forall2 value (map fr_top (f_rects_bottom eta)) [/ 4; e; e; e; c; 1; 1; 1].
Proof.
  intros eta e V He. apply value_dbl in V. cbn [map f_rects_bottom fr_x fr_y].
  split; [sides|]. split; [sides|]. split; [sides|].
  destruct (cents_ok 90 ltac:(lia)) as [n [Hn Bn]]. apply Rabs_le_inv in Bn. cbn in Bn.
  destruct (from_to eta (cents 90) e n V Hn) as [c [Hc Bc]]; [apply Rabs_le; lra|apply Rabs_le; lra|].
  exists c. split; [apply Rabs_le_inv in Bc; apply Rabs_le; cbn in Bc |- *; lra|].
  repeat (constructor; [unfold fr_top; cbn [fr_y fr_dy]; apply dbl_value; first [concrete|apply quarter_up; assumption|exact Hc|apply (up_to_one eta e V); lra]|]). constructor.
Qed.

(** get_mesh_hierarchy_fitted_disc: the rectangles below end exactly at eta and
    the ones above start exactly 1/4 lower (eta - 0.25 is exact) and end at 1. *)
Theorem C102_fitted : forall eta e, value eta e -> / 4 <= e <= 1 ->
  map fr_right (f_rects_fitted eta) = map cents [100; 90; 90; 90; 100]%Z /\
  map fr_x (f_rects_fitted eta) = map cents [0; 10; 10; 10; 0]%Z /\
  Forall2 value (map fr_y (f_rects_fitted eta)) [0; / 4; / 4; e - / 4; e - / 4] /\
  exists c, Rabs (c - 95 / 100) <= bpow radix2 (-50) /\
  Forall2 value (map fr_top (f_rects_fitted eta)) [e; e; e; c; 1].
Proof.
  intros eta e V He. apply value_dbl in V. cbn [map f_rects_fitted fr_x fr_y].
  split; [vm_compute; reflexivity|]. split; [reflexivity|].
  pose proof (below eta e V He) as Y.
  split; [sides|].
  destruct (cents_ok 95 ltac:(lia)) as [n [Hn Bn]]. apply Rabs_le_inv in Bn. cbn in Bn.
  destruct (from_to _ (cents 95) (e - / 4) n Y Hn) as [c [Hc Bc]]; [apply Rabs_le; lra|apply Rabs_le; lra|].
  exists c. split; [apply Rabs_le_inv in Bc; apply Rabs_le; cbn in Bc |- *; lra|].
  assert (Z : is_dbl (fadd (cents 0) eta) e).
  { rewrite <- (rnd_id e) by (apply (is_dbl_fmt _ _ V)). replace e with (0 + e) at 1 by ring. apply vadd; [concrete|exact V|apply Rabs_le; lra]. }
  repeat (constructor; [unfold fr_top; cbn [fr_y fr_dy]; apply dbl_value; first [exact Z|apply quarter_up; assumption|exact Hc|apply (up_to_one _ _ Y); lra]|]). constructor.
Qed.

(** get_mesh_inclusion_square below eta = 3/2: the top remainder ends exactly at
    3/2, the side of the outer box; the other sides are off by at most 2^-50. *)
Theorem C102_inclusion : forall x_l x_r y_l y_r eta xl xr yl yr e,
  value x_l xl -> value x_r xr -> value y_l yl -> value y_r yr -> value eta e ->
  Rabs xl <= 3 / 2 -> Rabs xr <= 3 / 2 -> Rabs yl <= 3 / 2 -> Rabs yr <= 3 / 2 -> 0 <= e < 3 / 2 ->
  exists c0 c1 c2 c3 cx,
  Forall2 value (map fr_top (f_rects_inclusion x_l x_r y_l y_r eta)) [c0; c1; c2; c3; 3 / 4; 3 / 2] /\
  Forall2 value (map fr_right (f_rects_inclusion x_l x_r y_l y_r eta)) [3 / 2; 5 / 4; cx; cx; 3 / 4; 3 / 2] /\
  Rabs (c0 - e) <= bpow radix2 (-50) /\ Rabs (c1 - (e - / 10)) <= bpow radix2 (-50) /\ Rabs (c2 - e) <= bpow radix2 (-50) /\
  Rabs (c3 - yr) <= bpow radix2 (-50) /\ Rabs (cx - xr) <= bpow radix2 (-50).
Proof.
  intros x_l x_r y_l y_r eta xl xr yl yr e V1 V2 V3 V4 V B1 B2 B3 B4 He.
  apply value_dbl in V1, V2, V3, V4, V.
  assert (H15 : is_dbl (cents 150) (3 / 2)) by concrete.
  assert (F : fle (cents 150) eta = false).
  { destruct (fle (cents 150) eta) eqn:Q; [|reflexivity]. apply (fle_true _ _ _ _ H15 V) in Q. lra. }
  unfold f_rects_inclusion. rewrite F. cbn [app map].
  destruct (sum3 (cents (-150)) (cents 150) eta (- (3 / 2)) (3 / 2) e) as [c0 [H0 E0]];
    [concrete|exact H15|exact V|apply Rabs_le; lra|apply Rabs_le; lra|].
  destruct (cents_ok 115 ltac:(lia)) as [n [Hn Bn]]. apply Rabs_le_inv in Bn. cbn in Bn.
  destruct (sum3 (cents (-125)) (cents 115) eta (- (5 / 4)) n e) as [c1 [H1 E1]];
    [concrete|exact Hn|exact V|apply Rabs_le; lra|apply Rabs_le; lra|].
  destruct (from_to y_l eta yl e V3 V B3) as [c2 [H2 E2]]; [apply Rabs_le; lra|].
  destruct (from_to eta y_r e yr V V4) as [c3 [H3 E3]]; [apply Rabs_le; lra|exact B4|].
  destruct (from_to x_l x_r xl xr V1 V2 B1 B2) as [cx [Hx Ex]].
  exists c0, c1, c2, c3, cx.
  split; [repeat (constructor; [unfold fr_top; cbn [fr_y fr_dy]; apply dbl_value; first [exact H0|exact H1|exact H2|exact H3|concrete|apply (up_to_three_halves eta e V); lra]|]); constructor|].
  split; [repeat (constructor; [unfold fr_right; cbn [fr_x fr_dx]; apply dbl_value; first [exact Hx|concrete]|]); constructor|].
  apply Rabs_le_inv in E0, E1, E2, E3, Ex. cbn in E0, E1, E2, E3, Ex |- *.
  split; [apply Rabs_le; lra|]. split; [apply Rabs_le; lra|]. split; [apply Rabs_le; lra|]. split; apply Rabs_le; lra.
Qed.
(** the corners they start from, and the case eta >= 3/2, where the rectangles
    that are united with the frame do not depend on eta *)
Theorem C102_inclusion_corners : forall x_l x_r y_l y_r eta e, value eta e ->
  let rs := f_rects_inclusion x_l x_r y_l y_r eta in
  (e < 3 / 2 -> map fr_x rs = [cents (-150); cents (-125); x_l; x_l; cents (-75); cents (-150)] /\
                map fr_y rs = [cents (-150); cents (-125); y_l; eta; cents (-75); eta]) /\
  (3 / 2 <= e -> map fr_x rs = map cents [-150; -125]%Z ++ x_l :: map cents [-75; -125]%Z /\
                 map fr_y rs = map cents [-150; -125]%Z ++ y_l :: map cents [-75; -125]%Z /\
                 map fr_right (firstn 2 rs ++ skipn 3 rs) = map cents [150; 125; 75; 125]%Z /\
                 map fr_top (skipn 3 rs) = map cents [75; 150]%Z /\
                 forall xl xr yl yr, value x_l xl -> value x_r xr -> value y_l yl -> value y_r yr ->
                   Rabs xl <= 3 / 2 -> Rabs xr <= 3 / 2 -> Rabs yl <= 3 / 2 -> Rabs yr <= 3 / 2 ->
                   exists r c d, nth_error rs 2 = Some r /\ value (fr_right r) c /\ value (fr_top r) d /\
                   Rabs (c - xr) <= bpow radix2 (-50) /\ Rabs (d - yr) <= bpow radix2 (-50)).
Proof.
  intros x_l x_r y_l y_r eta e V rs. apply value_dbl in V. subst rs. unfold f_rects_inclusion.
  assert (H15 : is_dbl (cents 150) (3 / 2)) by concrete. pose proof (fle_true _ _ _ _ H15 V) as F. split; intro He.
  - destruct (fle (cents 150) eta) eqn:Q; [apply proj1 in F; specialize (F eq_refl); lra|]. split; reflexivity.
  - rewrite (proj2 F He). split; [reflexivity|]. split; [reflexivity|]. split; [vm_compute; reflexivity|]. split; [vm_compute; reflexivity|].
    intros xl xr yl yr V1 V2 V3 V4 B1 B2 B3 B4. apply value_dbl in V1, V2, V3, V4.
    destruct (from_to x_l x_r xl xr V1 V2 B1 B2) as [c [Hc Ec]]. destruct (from_to y_l y_r yl yr V3 V4 B3 B4) as [d [Hd Ed]].
    exists (FR x_l y_l (fsub x_r x_l) (fsub y_r y_l)), c, d. split; [reflexivity|].
    split; [apply dbl_value, Hc|]. split; [apply dbl_value, Hd|].
    apply Rabs_le_inv in Ec, Ed. cbn in Ec, Ed |- *. split; apply Rabs_le; lra.
Qed.
(** the outer box need not end at eta: with eta = 0.1 it ends above the bottom of
    the top remainder *)
Theorem C102_inclusion_refuted : exists eta e, value eta e /\ 0 <= e < 3 / 2 /\
  let rs := f_rects_inclusion (cents (-125)) (cents 125) (cents (-125)) (cents 125) eta in
  exists r1 rt, nth_error rs 0 = Some r1 /\ nth_error rs 5 = Some rt /\ fr_y rt = eta /\ fle (fr_top r1) (fr_y rt) = false.
Proof.
  destruct (cents_ok 10 ltac:(lia)) as [e [He Be]]. apply Rabs_le_inv in Be. cbn in Be.
  exists (cents 10), e. split; [apply dbl_value, He|]. split; [lra|].
  cbv zeta. eexists. eexists. split; [vm_compute; reflexivity|]. split; [vm_compute; reflexivity|]. split; vm_compute; reflexivity.
Qed.
(** with the default arguments every side is the decimal one expects, also where
    the arguments are rounded *)
Theorem C102_defaults :
  map fr_top (f_rects_inclusion (cents (-125)) (cents 125) (cents (-125)) (cents 125) (cents 125)) = map cents [125; 115; 125; 125; 75; 150]%Z /\
  map fr_right (f_rects_inclusion (cents (-125)) (cents 125) (cents (-125)) (cents 125) (cents 125)) = map cents [150; 125; 125; 125; 75; 150]%Z /\
  map fr_top (f_rects_bottom (cents 60)) = map cents [25; 60; 60; 60; 90; 100; 100; 100]%Z /\
  map fr_y (f_rects_fitted (cents 60)) = map cents [0; 25; 25; 35; 35]%Z /\
  map fr_top (f_rects_fitted (cents 60)) = map cents [60; 60; 60; 95; 100]%Z.
Proof. repeat split; vm_compute; reflexivity. Qed.
(** the geometries without parameters *)
Theorem C102_constants :
  map fr_top f_rects_convex = map cents [100; 100; 95; 100]%Z /\ map fr_right f_rects_convex = map cents [100; 90; 90; 90]%Z /\
  map fr_x f_rects_convex = map cents [0; 10; 10; 10]%Z /\ map fr_y f_rects_convex = map cents [0; 25; 25; 95]%Z /\
  map fr_right f_rects_nonconvex = [cents 75; fq 7 8; cents 100] /\
  map fr_x f_rects_nonconvex = [cents 25; fq 1 8; cents 0] /\ map fr_y f_rects_nonconvex = map cents [5; 5; 0]%Z /\
  map fr_top (firstn 1 f_rects_nonconvex ++ skipn 2 f_rects_nonconvex) = map cents [50; 100]%Z /\
  map fr_x f_rects_around = map cents [0; 20; 20]%Z /\ map fr_y f_rects_around = map cents [0; 20; 20]%Z /\
  map fr_top f_rects_around = map cents [100; 80; 80]%Z /\ map fr_right f_rects_around = map cents [100; 80; 80]%Z.
Proof. repeat split; vm_compute; reflexivity. Qed.
(** 0.05 + 0.9 is not 0.95 in doubles *)
Theorem C102_nonconvex_refuted : exists r, nth_error f_rects_nonconvex 1 = Some r /\ fle (fr_top r) (cents 95) = false /\
  fsub (fr_top r) (cents 95) = fdiv (fz 1) (fz (2 ^ 53)).
Proof. eexists. split; [vm_compute; reflexivity|]. split; vm_compute; reflexivity. Qed.
Theorem C102_nonvacuous : exists e, value (cents 60) e /\ / 4 <= e <= 1 /\ value (fsub (cents 60) (cents 25)) (e - / 4) /\ fsub (cents 60) (cents 25) <> fz 0.
Proof.
  destruct (cents_ok 60 ltac:(lia)) as [e [He Be]]. apply Rabs_le_inv in Be. cbn in Be.
  exists e. split; [apply dbl_value, He|]. split; [lra|]. split; [apply dbl_value, below; [exact He|lra]|vm_compute; discriminate].
Qed.
Print Assumptions C102_bottom.
Print Assumptions C102_inclusion.
