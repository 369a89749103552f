(** Props_Square.v -- C103: the surfaces of get_mesh_inclusion_square. *)
From Coq Require Import Reals List ZArith Lra Lia Bool.
From Verif Require Import QuadProofs Base MeshModel Props_Mesh Props_Geometry Props_Regions Props_Disc.
Import ListNotations.
Open Scope R_scope.

Lemma one_rect (b : bool) x0 dx y0 dy x1 y1 x y : 0 < dx -> 0 < dy -> x1 = x0 + dx -> y1 = y0 + dy ->
  (if b then sbtw x x0 dx /\ sbtw y y0 dy /\ 0 = 0 else ~ (btw x x0 dx /\ btw y y0 dy /\ 0 = 0)) <-> on_rect b x0 x1 y0 y1 x y.
Proof. intros. destruct b; [apply open_rect; assumption|apply closed_off; assumption]. Qed.
Lemma one_frame (a : bool) x0 dx y0 dy x1 y1 u0 du v0 dv u1 v1 x y : 0 < dx -> 0 < dy -> x1 = x0 + dx -> y1 = y0 + dy ->
  0 < du -> 0 < dv -> u1 = u0 + du -> v1 = v0 + dv ->
  (if a then (sbtw x x0 dx /\ sbtw y y0 dy /\ 0 = 0 \/ False) /\ ~ (btw x u0 du /\ btw y v0 dv /\ 0 = 0 \/ False)
   else ~ ((btw x x0 dx /\ btw y y0 dy /\ 0 = 0 \/ False) /\ ~ (sbtw x u0 du /\ sbtw y v0 dv /\ 0 = 0 \/ False))) <->
  (if a then in_rect x0 x1 y0 y1 x y /\ off_rect u0 u1 v0 v1 x y else off_rect x0 x1 y0 y1 x y \/ in_rect u0 u1 v0 v1 x y).
Proof.
  intros H1 H2 H3 H4 H5 H6 H7 H8. destruct a.
  - apply cut_in. rewrite (open_rect x0 dx y0 dy x1 y1) by assumption. rewrite (closed_off u0 du v0 dv u1 v1) by assumption. reflexivity.
  - rewrite (open_rect u0 du v0 dv u1 v1) by assumption. rewrite cut_off by apply in_rect_known.
    rewrite (closed_off x0 dx y0 dy x1 y1) by assumption. reflexivity.
Qed.
Ltac halves := replace (-1.5) with (-3/2) by (decimals; lra); replace (-1.25) with (-5/4) by (decimals; lra); replace 2.5 with (5/2) by (decimals; lra);
  replace 2.75 with (11/4) by (decimals; lra); replace (-0.75) with (-3/4) by (decimals; lra); replace 1.5 with (3/2) by (decimals; lra);
  replace 1.15 with (23/20) by (decimals; lra); replace 1.25 with (5/4) by (decimals; lra).

(** ** below eta = 3/2, with the default sides of the target but any upper one *)
Definition cmds_low auto_tag (y_r eta : R) : list geo := cmds_square auto_tag (-1.25) 1.25 (-1.25) y_r eta.
Lemma low_fits auto_tag y_r eta a b c d e x y : 17/20 < eta -> eta < y_r < 3/2 ->
  fits_pattern (map snd (denote (cmds_low auto_tag y_r eta))) [a; b; c; d; e] (x, y, 0) <->
  (if a then in_rect (-3/2) (3/2) (-3/2) eta x y /\ off_rect (-5/4) (5/4) (-5/4) (eta - 1/10) x y
   else off_rect (-3/2) (3/2) (-3/2) eta x y \/ in_rect (-5/4) (5/4) (-5/4) (eta - 1/10) x y) /\
  on_rect b (-5/4) (5/4) (-5/4) eta x y /\ on_rect c (-5/4) (5/4) eta y_r x y /\ on_rect d (-3/4) (3/4) (-3/4) (3/4) x y /\
  on_rect e (-3/2) (3/2) eta (3/2) x y.
Proof.
  intros He Hy. unfold cmds_low, cmds_square. halves.
  destruct (Rlt_dec eta (3/2)) as [_|K]; [|exfalso; lra]. cbv zeta. cbn [app].
  rewrite <- (one_frame a (-3/2) 3 (-3/2) (3/2 + eta) (3/2) eta (-5/4) (5/2) (-5/4) (23/20 + eta) (5/4) (eta - 1/10)) by lra.
  rewrite <- (one_rect b (-5/4) (5/4 - -5/4) (-5/4) (eta - -5/4) (5/4) eta) by lra.
  rewrite <- (one_rect c (-5/4) (5/4 - -5/4) eta (y_r - eta) (5/4) y_r) by lra.
  rewrite <- (one_rect d (-3/4) (3/2) (-3/4) (3/2) (3/4) (3/4)) by lra.
  rewrite <- (one_rect e (-3/2) 3 eta (3/2 - eta) (3/2) (3/2)) by lra.
  clear. destruct a, b, c, d, e; seen; tauto.
Qed.
(** Six surfaces.  The part of the target below eta is cut again at the height eta - 1/10, where
    the hole of the frame ends: the hole is 1.15 + eta high and starts at -1.25. *)
Theorem C103_low : forall auto_tag y_r eta, 17/20 < eta -> eta < y_r < 3/2 -> forall pat x y, surface (cmds_low auto_tag y_r eta) pat x y <->
  (pat = [true; false; false; false; false] /\ in_rect (-3/2) (3/2) (-3/2) eta x y /\ off_rect (-5/4) (5/4) (-5/4) eta x y) \/
  (pat = [true; true; false; false; false] /\ in_rect (-5/4) (5/4) (eta - 1/10) eta x y) \/
  (pat = [false; true; false; false; false] /\ in_rect (-5/4) (5/4) (-5/4) (eta - 1/10) x y /\ off_rect (-3/4) (3/4) (-3/4) (3/4) x y) \/
  (pat = [false; true; false; true; false] /\ in_rect (-3/4) (3/4) (-3/4) (3/4) x y) \/
  (pat = [false; false; true; false; true] /\ in_rect (-5/4) (5/4) eta y_r x y) \/
  (pat = [false; false; false; false; true] /\ in_rect (-3/2) (3/2) eta (3/2) x y /\ off_rect (-5/4) (5/4) eta y_r x y).
Proof.
  intros auto_tag y_r eta He Hy pat x y. split.
  - intros [HT H]. pose proof (fits_length _ _ _ H) as L.
    assert (LL : List.length (map snd (denote (cmds_low auto_tag y_r eta))) = 5%nat).
    { unfold cmds_low, cmds_square. destruct (Rlt_dec eta 1.5) as [_|K]; [reflexivity|]. exfalso. apply K. decimals. lra. }
    rewrite LL in L. clear LL. destruct pat as [|a [|b [|c [|d [|e [|]]]]]]; try discriminate L. clear L.
    apply low_fits in H; [|assumption|assumption]. unfold on_rect, in_rect, off_rect in *. destruct H as [HA [HB [HC [HD HE]]]].
    destruct a, b; try (exfalso; lra); destruct c; try (exfalso; lra); destruct d; try (exfalso; lra); destruct e; try (exfalso; lra).
    + right. left. split; [reflexivity|]. lra.
    + left. split; [reflexivity|]. lra.
    + right. right. right. left. split; [reflexivity|]. lra.
    + right. right. left. split; [reflexivity|]. lra.
    + right. right. right. right. left. split; [reflexivity|]. lra.
    + right. right. right. right. right. split; [reflexivity|]. lra.
    + clear - HT. cbn in HT. intuition discriminate.
  - intro H. split.
    + destruct H as [[-> _]|[[-> _]|[[-> _]|[[-> _]|[[-> _]|[-> _]]]]]]; cbn; tauto.
    + destruct H as [[-> H]|[[-> H]|[[-> H]|[[-> H]|[[-> H]|[-> H]]]]]]; apply low_fits; try assumption; unfold on_rect, in_rect, off_rect in *; lra.
Qed.
Definition low_surfaces : list (list bool) :=
  [[true; false; false; false; false]; [true; true; false; false; false]; [false; true; false; false; false]; [false; true; false; true; false];
   [false; false; true; false; true]; [false; false; false; false; true]].
Ltac picks_low := intros x y; rewrite C103_low by assumption; split;
  [intro; intuition auto|intros [[E H]|[[E H]|[[E H]|[[E H]|[[E H]|[E H]]]]]]; try discriminate E; exact H].
(** each is one piece and lies on one side of y = eta *)
Theorem C103_low_parts : forall auto_tag y_r eta, 17/20 < eta -> eta < y_r < 3/2 ->
  (forall pat x y, surface (cmds_low auto_tag y_r eta) pat x y -> In pat low_surfaces) /\
  (forall pat, In pat low_surfaces -> connected (surface (cmds_low auto_tag y_r eta) pat)) /\
  (forall pat, (forall x y, surface (cmds_low auto_tag y_r eta) pat x y -> y < eta) \/ (forall x y, surface (cmds_low auto_tag y_r eta) pat x y -> eta < y)).
Proof.
  intros auto_tag y_r eta He Hy. split; [|split].
  - intros pat x y H. apply C103_low in H; [|assumption|assumption]. unfold low_surfaces. cbn [In].
    destruct H as [[-> _]|[[-> _]|[[-> _]|[[-> _]|[[-> _]|[-> _]]]]]]; auto 10.
  - intros pat HP. unfold low_surfaces in HP. cbn [In] in HP. destruct HP as [<-|[<-|[<-|[<-|[<-|[<-|[]]]]]]].
    + apply (connected_iff (framed (-3/2) (3/2) (-3/2) eta (-5/4) (5/4) (-5/4) eta)); [|apply framed_connected; lra]. unfold framed. picks_low.
    + apply (connected_iff (in_rect (-5/4) (5/4) (eta - 1/10) eta)); [|apply rect_connected]. picks_low.
    + apply (connected_iff (framed (-5/4) (5/4) (-5/4) (eta - 1/10) (-3/4) (3/4) (-3/4) (3/4))); [|apply framed_connected; lra]. unfold framed. picks_low.
    + apply (connected_iff (in_rect (-3/4) (3/4) (-3/4) (3/4))); [|apply rect_connected]. picks_low.
    + apply (connected_iff (in_rect (-5/4) (5/4) eta y_r)); [|apply rect_connected]. picks_low.
    + apply (connected_iff (framed (-3/2) (3/2) eta (3/2) (-5/4) (5/4) eta y_r)); [|apply framed_connected; lra]. unfold framed. picks_low.
  - intro pat. destruct (in_dec (list_eq_dec bool_dec) pat [[false; false; true; false; true]; [false; false; false; false; true]]) as [I|N]; [right|left]; intros x y H;
      apply C103_low in H; try assumption; destruct H as [[-> H]|[[-> H]|[[-> H]|[[-> H]|[[-> H]|[-> H]]]]]]; unfold in_rect in H;
      try lra; exfalso; first [destruct I as [I|[I|[]]]; discriminate I|apply N; cbn; auto].
Qed.
(** so the target below eta is not meshed as one region: no surface meets the line y = eta - 1/10,
    and points of the target below and above it are on different surfaces *)
Theorem C103_low_refuted : forall auto_tag y_r eta, 17/20 < eta -> eta < y_r < 3/2 ->
  (forall pat x, -5/4 < x < 5/4 -> ~ surface (cmds_low auto_tag y_r eta) pat x (eta - 1/10)) /\
  (exists p q, p <> q /\ surface (cmds_low auto_tag y_r eta) p 1 (eta - 3/20) /\ surface (cmds_low auto_tag y_r eta) q 1 (eta - 1/20)).
Proof.
  intros auto_tag y_r eta He Hy. split.
  - intros pat x Hx H. apply C103_low in H; [|assumption|assumption]. unfold in_rect, off_rect in H. lra.
  - exists [false; true; false; false; false], [true; true; false; false; false]. split; [discriminate|].
    split; apply C103_low; try assumption; unfold in_rect, off_rect; [right; right; left|right; left]; (split; [reflexivity|lra]).
Qed.

(** ** from eta = 3/2 on *)
Definition cmds_high auto_tag (eta : R) : list geo := cmds_square auto_tag (-1.25) 1.25 (-1.25) 1.25 eta.
Lemma high_fits auto_tag eta a b c d x y : 3/2 <= eta ->
  fits_pattern (map snd (denote (cmds_high auto_tag eta))) [a; b; c; d] (x, y, 0) <->
  (if a then in_rect (-3/2) (3/2) (-3/2) eta x y /\ off_rect (-5/4) (5/4) (-5/4) (eta - 1/10) x y
   else off_rect (-3/2) (3/2) (-3/2) eta x y \/ in_rect (-5/4) (5/4) (-5/4) (eta - 1/10) x y) /\
  on_rect b (-5/4) (5/4) (-5/4) (5/4) x y /\ on_rect c (-3/4) (3/4) (-3/4) (3/4) x y /\ on_rect d (-5/4) (5/4) (-5/4) (3/2) x y.
Proof.
  intros He. unfold cmds_high, cmds_square. halves.
  destruct (Rlt_dec eta (3/2)) as [K|_]; [exfalso; lra|]. cbv zeta. cbn [app].
  rewrite <- (one_frame a (-3/2) 3 (-3/2) (3/2 + eta) (3/2) eta (-5/4) (5/2) (-5/4) (23/20 + eta) (5/4) (eta - 1/10)) by lra.
  rewrite <- (one_rect b (-5/4) (5/4 - -5/4) (-5/4) (5/4 - -5/4) (5/4) (5/4)) by lra.
  rewrite <- (one_rect c (-3/4) (3/2) (-3/4) (3/2) (3/4) (3/4)) by lra.
  rewrite <- (one_rect d (-5/4) (5/2) (-5/4) (11/4) (5/4) (3/2)) by lra.
  clear. destruct a, b, c, d; seen; tauto.
Qed.
(** Five surfaces below eta = 8/5; a strip on top of the remainder belongs to the frame too.  The
    domain reaches up to eta, not 3/2. *)
Theorem C103_high : forall auto_tag eta, 3/2 <= eta < 8/5 -> forall pat x y, surface (cmds_high auto_tag eta) pat x y <->
  (pat = [true; false; false; false] /\ in_rect (-3/2) (3/2) (-3/2) eta x y /\ off_rect (-5/4) (5/4) (-5/4) (3/2) x y) \/
  (pat = [true; false; false; true] /\ in_rect (-5/4) (5/4) (eta - 1/10) (3/2) x y) \/
  (pat = [false; false; false; true] /\ in_rect (-5/4) (5/4) (5/4) (eta - 1/10) x y) \/
  (pat = [false; true; false; true] /\ in_rect (-5/4) (5/4) (-5/4) (5/4) x y /\ off_rect (-3/4) (3/4) (-3/4) (3/4) x y) \/
  (pat = [false; true; true; true] /\ in_rect (-3/4) (3/4) (-3/4) (3/4) x y).
Proof.
  intros auto_tag eta He pat x y. assert (He' : 3/2 <= eta) by lra. split.
  - intros [HT H]. pose proof (fits_length _ _ _ H) as L.
    assert (LL : List.length (map snd (denote (cmds_high auto_tag eta))) = 4%nat).
    { unfold cmds_high, cmds_square. destruct (Rlt_dec eta 1.5) as [K|_]; [|reflexivity]. exfalso. revert K. decimals. lra. }
    rewrite LL in L. clear LL. destruct pat as [|a [|b [|c [|d [|]]]]]; try discriminate L. clear L.
    apply high_fits in H; [|assumption]. unfold on_rect, in_rect, off_rect in *. destruct H as [HA [HB [HC HD]]].
    destruct a, b; try (exfalso; lra); destruct c; try (exfalso; lra); destruct d; try (exfalso; lra).
    + right. left. split; [reflexivity|]. lra.
    + left. split; [reflexivity|]. lra.
    + right. right. right. right. split; [reflexivity|]. lra.
    + right. right. right. left. split; [reflexivity|]. lra.
    + right. right. left. split; [reflexivity|]. lra.
    + clear - HT. cbn in HT. intuition discriminate.
  - intro H. split.
    + destruct H as [[-> _]|[[-> _]|[[-> _]|[[-> _]|[-> _]]]]]; cbn; tauto.
    + destruct H as [[-> H]|[[-> H]|[[-> H]|[[-> H]|[-> H]]]]]; apply high_fits; try assumption; unfold on_rect, in_rect, off_rect in *; lra.
Qed.
Ltac picks_high := intros x y; rewrite C103_high by assumption; split;
  [intro; intuition auto|intros [[E H]|[[E H]|[[E H]|[[E H]|[E H]]]]]; try discriminate E; exact H].
Definition high_surfaces : list (list bool) :=
  [[true; false; false; false]; [true; false; false; true]; [false; false; false; true]; [false; true; false; true]; [false; true; true; true]].
Theorem C103_high_parts : forall auto_tag eta, 3/2 <= eta < 8/5 ->
  (forall pat x y, surface (cmds_high auto_tag eta) pat x y -> In pat high_surfaces) /\
  (forall pat, In pat high_surfaces -> connected (surface (cmds_high auto_tag eta) pat)).
Proof.
  intros auto_tag eta He. split.
  - intros pat x y H. apply C103_high in H; [|assumption]. unfold high_surfaces. cbn [In].
    destruct H as [[-> _]|[[-> _]|[[-> _]|[[-> _]|[-> _]]]]]; auto 10.
  - intros pat HP. unfold high_surfaces in HP. cbn [In] in HP. destruct HP as [<-|[<-|[<-|[<-|[<-|[]]]]]].
    + apply (connected_iff (framed (-3/2) (3/2) (-3/2) eta (-5/4) (5/4) (-5/4) (3/2))); [|apply framed_connected; lra]. unfold framed. picks_high.
    + apply (connected_iff (in_rect (-5/4) (5/4) (eta - 1/10) (3/2))); [|apply rect_connected]. picks_high.
    + apply (connected_iff (in_rect (-5/4) (5/4) (5/4) (eta - 1/10))); [|apply rect_connected]. picks_high.
    + apply (connected_iff (framed (-5/4) (5/4) (-5/4) (5/4) (-3/4) (3/4) (-3/4) (3/4))); [|apply framed_connected; lra]. unfold framed. picks_high.
    + apply (connected_iff (in_rect (-3/4) (3/4) (-3/4) (3/4))); [|apply rect_connected]. picks_high.
Qed.
(** above eta = 8/5 a hole is left between the remainder and the top of the frame *)
Theorem C103_hole : forall auto_tag eta, 8/5 < eta -> forall pat x y, in_rect (-5/4) (5/4) (3/2) (eta - 1/10) x y -> ~ surface (cmds_high auto_tag eta) pat x y.
Proof.
  intros auto_tag eta He pat x y HI [HT H]. assert (He' : 3/2 <= eta) by lra. pose proof (fits_length _ _ _ H) as L.
  assert (LL : List.length (map snd (denote (cmds_high auto_tag eta))) = 4%nat).
  { unfold cmds_high, cmds_square. destruct (Rlt_dec eta 1.5) as [K|_]; [|reflexivity]. exfalso. revert K. decimals. lra. }
  rewrite LL in L. clear LL. destruct pat as [|a [|b [|c [|d [|]]]]]; try discriminate L. clear L.
  apply high_fits in H; [|assumption]. unfold on_rect, in_rect, off_rect in *. destruct H as [HA [HB [HC HD]]].
  destruct a; [exfalso; lra|]. destruct b; [exfalso; lra|]. destruct c; [exfalso; lra|]. destruct d; [exfalso; lra|].
  clear - HT. cbn in HT. intuition discriminate.
Qed.
(** These are the commands the function gives, before it fails on its unbound name. *)
Theorem C103_commands : forall auto_tag h msh x y_r eta,
  geo_inclusion_square auto_tag (-1.25) 1.25 (-1.25) y_r eta (st h [] [] false 1 msh x) = (Ok tt, st h (cmds_low auto_tag y_r eta) [] false 1 msh x) /\
  geo_inclusion_square auto_tag (-1.25) 1.25 (-1.25) 1.25 eta (st h [] [] false 1 msh x) = (Ok tt, st h (cmds_high auto_tag eta) [] false 1 msh x).
Proof. intros. split; apply geo_square_run. Qed.
Theorem C103_nonvacuous : 17/20 < 1 /\ 1 < 5/4 < 3/2 /\
  surface (cmds_low ex_auto99 (5/4) 1) [true; true; false; false; false] 0 (19/20) /\ surface (cmds_low ex_auto99 (5/4) 1) [false; false; true; false; true] 0 (9/8) /\
  surface (cmds_high ex_auto99 (3/2)) [true; false; false; true] 0 (29/20) /\ surface (cmds_high ex_auto99 (3/2)) [false; true; false; true] 1 0.
Proof.
  split; [lra|]. split; [lra|]. unfold in_rect, off_rect.
  split; [apply C103_low; [lra|lra|]; right; left; split; [reflexivity|unfold in_rect; lra]|].
  split; [apply C103_low; [lra|lra|]; right; right; right; right; left; split; [reflexivity|unfold in_rect; lra]|].
  split; [apply C103_high; [lra|]; right; left; split; [reflexivity|unfold in_rect; lra]|].
  apply C103_high; [lra|]; right; right; right; left; split; [reflexivity|unfold in_rect, off_rect; lra].
Qed.
Print Assumptions C103_low. Print Assumptions C103_high. Print Assumptions C103_hole. Print Assumptions C103_commands.
