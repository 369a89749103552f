(** Props_MeshLink.v -- property C102, last part: the rectangles of FloatMesh.v
    are those of MeshModel.v up to rounding. *)
From Coq Require Import ZArith Reals List Bool Lia Lra.
From Coq Require Import Floats.SpecFloat.
From Flocq Require Import Core.
From Verif Require Import Base QuadProofs MeshModel Props_Mesh FloatModel FloatRound FloatTime FloatMesh Props_Float Props_MeshDoubles.
Import ListNotations.
Open Scope R_scope.

(** a finite double with a value within t of r *)
Definition within (t : R) (x : spec_float) (r : R) : Prop := exists v, value x v /\ Rabs (v - r) <= t.
(** the rectangles among the commands *)
Definition rects (g : list geo) : list (R * R * R * R) :=
  flat_map (fun c => match c with Rect x y z dx dy t => [(x, y, dx, dy)] | _ => [] end) g.
(** all arguments and the far sides agree up to 2^-46 *)
Definition drawn (f : frect) (r : R * R * R * R) : Prop :=
  let '(x, y, dx, dy) := r in let w := within (bpow radix2 (-46)) in
  w (fr_x f) x /\ w (fr_y f) y /\ w (fr_dx f) dx /\ w (fr_dy f) dy /\ w (fr_right f) (x + dx) /\ w (fr_top f) (y + dy).

Lemma within_le s t x r : s <= t -> within s x r -> within t x r.
Proof. intros H [v [V B]]. exists v. split; [exact V|lra]. Qed.
Lemma within_refl x r : value x r -> within 0 x r.
Proof. intro V. exists r. split; [exact V|]. rewrite Rminus_diag_eq, Rabs_R0 by reflexivity. lra. Qed.
Lemma within_cents n : (Z.abs n <= 400)%Z -> within (bpow radix2 (-51)) (cents n) (IZR n / 100).
Proof. intro H. destruct (cents_ok n H) as [c [H1 H2]]. exists c. split; [apply dbl_value, H1|exact H2]. Qed.
Lemma within_add s t x y a b : within s x a -> within t y b -> Rabs (a + b) <= 7 -> s + t <= 1 ->
  within (s + t + bpow radix2 (-50)) (fadd x y) (a + b).
Proof.
  intros [v [V Bv]] [w [W Bw]] H Hs. apply value_dbl in V, W. apply Rabs_le_inv in H, Bv, Bw.
  exists (rnd (v + w)). split; [apply dbl_value, vadd; [exact V|exact W|apply Rabs_le; lra]|].
  assert (B : Rabs (rnd (v + w) - (v + w)) <= bpow radix2 (4 - 54)) by (apply rnd_err; [lia|]; apply Rabs_def1; cbn; lra).
  apply Rabs_le_inv in B. apply Rabs_le. change (4 - 54)%Z with (-50)%Z in B. lra.
Qed.
Lemma within_sub s t x y a b : within s x a -> within t y b -> Rabs (a - b) <= 7 -> s + t <= 1 ->
  within (s + t + bpow radix2 (-50)) (fsub x y) (a - b).
Proof.
  intros [v [V Bv]] [w [W Bw]] H Hs. apply value_dbl in V, W. apply Rabs_le_inv in H, Bv, Bw.
  exists (rnd (v - w)). split; [apply dbl_value, vsub; [exact V|exact W|apply Rabs_le; lra]|].
  assert (B : Rabs (rnd (v - w) - (v - w)) <= bpow radix2 (4 - 54)) by (apply rnd_err; [lia|]; apply Rabs_def1; cbn; lra).
  apply Rabs_le_inv in B. apply Rabs_le. change (4 - 54)%Z with (-50)%Z in B. lra.
Qed.
(** arguments within 2^-48 *)
Lemma drawn_by x y dx dy rx ry rdx rdy : let w := within (bpow radix2 (-48)) in
  w x rx -> w y ry -> w dx rdx -> w dy rdy -> Rabs (rx + rdx) <= 7 -> Rabs (ry + rdy) <= 7 ->
  drawn (FR x y dx dy) (rx, ry, rdx, rdy).
Proof.
  intros w H1 H2 H3 H4 H5 H6. subst w.
  assert (L : bpow radix2 (-48) <= bpow radix2 (-46)) by (apply bpow_le; lia).
  assert (L2 : bpow radix2 (-48) + bpow radix2 (-48) + bpow radix2 (-50) <= bpow radix2 (-46)) by (cbn; lra).
  assert (L3 : bpow radix2 (-48) + bpow radix2 (-48) <= 1) by (cbn; lra).
  unfold drawn, fr_right, fr_top; cbn [fr_x fr_y fr_dx fr_dy].
  repeat split; try (apply (within_le _ _ _ _ L); assumption); apply (within_le _ _ _ _ L2); apply within_add; assumption.
Qed.
Lemma lit n r : (Z.abs n <= 400)%Z -> r = IZR n / 100 -> within (bpow radix2 (-48)) (cents n) r.
Proof. intros H ->. apply within_le with (bpow radix2 (-51)); [apply bpow_le; lia|apply within_cents, H]. Qed.
Lemma arg x r : value x r -> within (bpow radix2 (-48)) x r.
Proof. intro V. apply within_le with 0; [apply bpow_ge_0|apply within_refl, V]. Qed.
Lemma dif s t x y a b : within s x a -> within t y b -> Rabs (a - b) <= 7 -> s <= bpow radix2 (-51) -> t <= bpow radix2 (-49) ->
  within (bpow radix2 (-48)) (fsub x y) (a - b).
Proof.
  intros H1 H2 H3 Hs Ht. apply within_le with (s + t + bpow radix2 (-50)); [cbn in *; lra|]. apply within_sub; [assumption|assumption|assumption|cbn in *; lra].
Qed.
Lemma sum s t x y a b : within s x a -> within t y b -> Rabs (a + b) <= 7 -> s <= bpow radix2 (-51) -> t <= bpow radix2 (-49) ->
  within (bpow radix2 (-48)) (fadd x y) (a + b).
Proof.
  intros H1 H2 H3 Hs Ht. apply within_le with (s + t + bpow radix2 (-50)); [cbn in *; lra|]. apply within_add; [assumption|assumption|assumption|cbn in *; lra].
Qed.
Lemma arg0 x r : value x r -> within (bpow radix2 (-51)) x r.
Proof. intro V. apply within_le with 0; [apply bpow_ge_0|apply within_refl, V]. Qed.
Lemma lit0 n r : (Z.abs n <= 400)%Z -> r = IZR n / 100 -> within (bpow radix2 (-51)) (cents n) r.
Proof. intros H ->. apply within_cents, H. Qed.
Lemma p51 : bpow radix2 (-51) <= bpow radix2 (-51). Proof. lra. Qed.
Lemma p49 : bpow radix2 (-51) <= bpow radix2 (-49). Proof. apply bpow_le. lia. Qed.
Ltac leaf := lazymatch goal with |- within _ (cents _) _ => apply lit0; [lia|decimals; lra] | _ => apply arg0; assumption end.
Ltac side := lazymatch goal with
  | |- within _ (cents _) _ => apply lit; [lia|decimals; lra]
  | |- within _ (fsub _ _) _ => refine (dif _ _ _ _ _ _ _ _ _ p51 p49); [leaf|leaf|apply Rabs_le; decimals; lra]
  | |- within _ (fadd _ _) _ => refine (sum _ _ _ _ _ _ _ _ _ p51 p49); [leaf|leaf|apply Rabs_le; decimals; lra]
  | _ => apply arg; assumption end.
Ltac one := apply drawn_by; [side|side|side|side|apply Rabs_le; decimals; lra|apply Rabs_le; decimals; lra].
Ltac all := repeat (constructor; [one|]); constructor.

(** the rectangles of each geometry; y_eta = eta - 0.25 is used again *)
Theorem C102_model_convex : Forall2 drawn f_rects_convex (rects cmds_convex).
Proof. unfold f_rects_convex, rects, cmds_convex. cbn [flat_map app]. all. Qed.
Theorem C102_model_around : Forall2 drawn f_rects_around (rects cmds_around).
Proof. unfold f_rects_around, rects, cmds_around. cbn [flat_map app]. all. Qed.
Theorem C102_model_nonconvex : Forall2 drawn f_rects_nonconvex (rects cmds_nonconvex).
Proof.
  unfold f_rects_nonconvex, rects, cmds_nonconvex. cbn [flat_map app].
  assert (V : value (fq 1 8) 0.125) by (apply dbl_value; replace 0.125 with (/ 8) by (decimals; lra); concrete). all.
Qed.
Theorem C102_model_bottom : forall eta e, value eta e -> 0 <= e <= 1 -> Forall2 drawn (f_rects_bottom eta) (rects (cmds_bottom e)).
Proof. intros eta e V He. unfold f_rects_bottom, rects, cmds_bottom. cbn [flat_map app]. all. Qed.
Theorem C102_model_fitted : forall eta e, value eta e -> 0 <= e <= 1 -> Forall2 drawn (f_rects_fitted eta) (rects (cmds_disc e)).
Proof.
  intros eta e V He. unfold f_rects_fitted, rects, cmds_disc. cbn [flat_map app].
  assert (Y : within (bpow radix2 (-49)) (fsub eta (cents 25)) (e - 0.25)).
  { apply within_le with (0 + bpow radix2 (-51) + bpow radix2 (-50)); [cbn; lra|].
    apply within_sub; [apply within_refl, V|leaf|apply Rabs_le; decimals; lra|cbn; lra]. }
  assert (Y8 : within (bpow radix2 (-48)) (fsub eta (cents 25)) (e - 0.25)) by (apply (within_le (bpow radix2 (-49))); [apply bpow_le; lia|exact Y]).
  assert (p : bpow radix2 (-49) <= bpow radix2 (-49)) by lra.
  assert (D1 : within (bpow radix2 (-48)) (fsub (cents 95) (fsub eta (cents 25))) (0.95 - (e - 0.25)))
    by (refine (dif _ _ _ _ _ _ _ Y _ p51 p); [leaf|apply Rabs_le; decimals; lra]).
  assert (D2 : within (bpow radix2 (-48)) (fsub (cents 100) (fsub eta (cents 25))) (1 - (e - 0.25)))
    by (refine (dif _ _ _ _ _ _ _ Y _ p51 p); [leaf|apply Rabs_le; decimals; lra]).
  repeat (constructor; [apply drawn_by; [first [assumption|side]|first [assumption|side]|first [assumption|side]|first [assumption|side]|apply Rabs_le; decimals; lra|apply Rabs_le; decimals; lra]|]).
  constructor.
Qed.
(** the square inclusion: the tests of eta against 1.5 agree as well *)
Theorem C102_model_inclusion : forall auto_tag x_l x_r y_l y_r eta xl xr yl yr e,
  value x_l xl -> value x_r xr -> value y_l yl -> value y_r yr -> value eta e ->
  Rabs xl <= 3 / 2 -> Rabs xr <= 3 / 2 -> Rabs yl <= 3 / 2 -> Rabs yr <= 3 / 2 -> 0 <= e <= 3 ->
  Forall2 drawn (f_rects_inclusion x_l x_r y_l y_r eta) (rects (cmds_square auto_tag xl xr yl yr e)).
Proof.
  intros auto_tag x_l x_r y_l y_r eta xl xr yl yr e V1 V2 V3 V4 V B1 B2 B3 B4 He.
  apply Rabs_le_inv in B1, B2, B3, B4.
  assert (H15 : is_dbl (cents 150) (3 / 2)) by concrete.
  pose proof (fle_true _ _ _ _ H15 (value_dbl _ _ V)) as F.
  unfold f_rects_inclusion, rects, cmds_square.
  destruct (Rlt_dec e 1.5) as [L|L].
  - assert (Q : fle (cents 150) eta = false).
    { destruct (fle (cents 150) eta); [|reflexivity]. exfalso. apply proj1 in F. specialize (F eq_refl). revert L. decimals. lra. }
    rewrite Q. cbn [flat_map app]. clear F H15. revert L. decimals. intro L. all.
  - assert (Q : 3 / 2 <= e) by (revert L; decimals; lra). apply F in Q. rewrite Q. cbn [flat_map app]. clear F H15. all.
Qed.
(** the six rectangles of the default inclusion *)
Theorem C102_model_nonvacuous : exists e, value (cents 125) e /\ 0 <= e <= 3 /\
  List.length (rects (cmds_square (fun _ _ => 7%Z) (-1.25) 1.25 (-1.25) 1.25 1.25)) = 6%nat /\
  List.length (rects (cmds_square (fun _ _ => 7%Z) (-1.25) 1.25 (-1.25) 1.25 1.5)) = 5%nat /\ ~ drawn (FR (cents 0) (cents 0) (cents 100) (cents 99)) (0, 0, 1, 1).
Proof.
  exists (5 / 4). split; [apply dbl_value; concrete|]. split; [lra|]. unfold cmds_square, rects.
  split; [destruct (Rlt_dec 1.25 1.5) as [K|K]; [reflexivity|exfalso; apply K; decimals; lra]|].
  split; [destruct (Rlt_dec 1.5 1.5) as [K|K]; [exfalso; lra|reflexivity]|].
  intros [_ [_ [_ [[v [V B]] _]]]]. cbn [fr_dy] in V. destruct (cents_ok 99 ltac:(lia)) as [c [Hc Bc]].
  apply value_dbl in V. rewrite (dbl_unique _ _ _ Hc V) in Bc. apply Rabs_le_inv in B, Bc. cbn in B, Bc. lra.
Qed.
Print Assumptions C102_model_inclusion.
