(** Props_Disc.v -- C100: the surfaces of get_mesh_hierarchy_fitted_disc and get_mesh_bottom_data. *)
From Coq Require Import Reals List ZArith Lra Lia Bool.
From Verif Require Import QuadProofs Base MeshModel Props_Mesh Props_Geometry Props_Regions.
Import ListNotations.
Open Scope R_scope.

Lemma open_rect x0 dx y0 dy x1 y1 x y : 0 < dx -> 0 < dy -> x1 = x0 + dx -> y1 = y0 + dy -> (sbtw x x0 dx /\ sbtw y y0 dy /\ 0 = 0) <-> in_rect x0 x1 y0 y1 x y.
Proof. unfold sbtw, in_rect. intros. lra. Qed.
Lemma closed_off x0 dx y0 dy x1 y1 x y : 0 < dx -> 0 < dy -> x1 = x0 + dx -> y1 = y0 + dy -> ~ (btw x x0 dx /\ btw y y0 dy /\ 0 = 0) <-> off_rect x0 x1 y0 y1 x y.
Proof.
  unfold btw, off_rect. intros Hx Hy -> ->. split.
  - intro H. destruct (Rlt_dec x x0); [lra|]. destruct (Rlt_dec (x0 + dx) x); [lra|]. destruct (Rlt_dec y y0); [lra|]. destruct (Rlt_dec (y0 + dy) y); [lra|].
    exfalso. apply H. lra.
  - intros H K. lra.
Qed.
Lemma cut_in (A B C : Prop) : (A /\ ~ B <-> C) -> (A \/ False) /\ ~ (B \/ False) <-> C.
Proof. tauto. Qed.
Lemma cut_off (A B : Prop) : (B \/ ~ B) -> ~ ((A \/ False) /\ ~ (B \/ False)) <-> ~ A \/ B.
Proof. tauto. Qed.
Lemma in_rect_known x0 x1 y0 y1 x y : in_rect x0 x1 y0 y1 x y \/ ~ in_rect x0 x1 y0 y1 x y.
Proof. destruct (in_rect_dec x0 x1 y0 y1 x y); auto. Qed.
Ltac seen := unfold denote;
  cbn [fold_left denote1 app filter map existsb ent_eqb fst snd Nat.eqb Z.eqb Pos.eqb andb orb negb fits_pattern s_cl s_in];
  repeat setoid_rewrite ex_cons; repeat setoid_rewrite ex_nil; cbn [s_cl s_in].

(** the points inside (b = true) or off a rectangle *)
Definition on_rect (b : bool) (x0 x1 y0 y1 x y : R) : Prop := if b then in_rect x0 x1 y0 y1 x y else off_rect x0 x1 y0 y1 x y.
(** ** the fitted disc *)
Lemma disc_fits eta a b c d x y : 1/2 < eta < 19/20 -> fits_pattern (map snd (denote (cmds_disc eta))) [a; b; c; d] (x, y, 0) <->
  (if a then in_rect 0 1 0 eta x y /\ off_rect (1/10) (9/10) (1/4) eta x y else off_rect 0 1 0 eta x y \/ in_rect (1/10) (9/10) (1/4) eta x y) /\
  on_rect b (1/10) (9/10) (1/4) eta x y /\ on_rect c (1/10) (9/10) (eta - 1/4) (19/20) x y /\ on_rect d 0 1 (eta - 1/4) 1 x y.
Proof.
  intro He. unfold cmds_disc.
  replace 0.1 with (1/10) by (decimals; lra). replace 0.25 with (1/4) by (decimals; lra). replace 0.8 with (8/10) by (decimals; lra). replace 0.95 with (19/20) by (decimals; lra).
  unfold on_rect.
  assert (A : (if a then (sbtw x 0 1 /\ sbtw y 0 eta /\ 0 = 0 \/ False) /\ ~ (btw x (1 / 10) (8 / 10) /\ btw y (1 / 4) (eta - 1 / 4) /\ 0 = 0 \/ False)
      else ~ ((btw x 0 1 /\ btw y 0 eta /\ 0 = 0 \/ False) /\ ~ (sbtw x (1 / 10) (8 / 10) /\ sbtw y (1 / 4) (eta - 1 / 4) /\ 0 = 0 \/ False))) <->
    if a then in_rect 0 1 0 eta x y /\ off_rect (1/10) (9/10) (1/4) eta x y else off_rect 0 1 0 eta x y \/ in_rect (1/10) (9/10) (1/4) eta x y).
  { destruct a.
    - apply cut_in. rewrite (open_rect 0 1 0 eta 1 eta) by lra. rewrite (closed_off (1/10) (8/10) (1/4) (eta - 1/4) (9/10) eta) by lra. reflexivity.
    - rewrite (open_rect (1/10) (8/10) (1/4) (eta - 1/4) (9/10) eta) by lra. rewrite cut_off by apply in_rect_known.
      rewrite (closed_off 0 1 0 eta 1 eta) by lra. reflexivity. }
  assert (B : (if b then sbtw x (1 / 10) (8 / 10) /\ sbtw y (1 / 4) (eta - 1 / 4) /\ 0 = 0 else ~ (btw x (1 / 10) (8 / 10) /\ btw y (1 / 4) (eta - 1 / 4) /\ 0 = 0)) <->
    if b then in_rect (1/10) (9/10) (1/4) eta x y else off_rect (1/10) (9/10) (1/4) eta x y).
  { destruct b; [apply open_rect; lra|apply closed_off; lra]. }
  assert (C : (if c then sbtw x (1 / 10) (8 / 10) /\ sbtw y (eta - 1 / 4) (19/20 - (eta - 1 / 4)) /\ 0 = 0 else ~ (btw x (1 / 10) (8 / 10) /\ btw y (eta - 1 / 4) (19/20 - (eta - 1 / 4)) /\ 0 = 0)) <->
    if c then in_rect (1/10) (9/10) (eta - 1/4) (19/20) x y else off_rect (1/10) (9/10) (eta - 1/4) (19/20) x y).
  { destruct c; [apply open_rect; lra|apply closed_off; lra]. }
  assert (D : (if d then sbtw x 0 1 /\ sbtw y (eta - 1 / 4) (1 - (eta - 1 / 4)) /\ 0 = 0 else ~ (btw x 0 1 /\ btw y (eta - 1 / 4) (1 - (eta - 1 / 4)) /\ 0 = 0)) <->
    if d then in_rect 0 1 (eta - 1/4) 1 x y else off_rect 0 1 (eta - 1/4) 1 x y).
  { destruct d; [apply open_rect; lra|apply closed_off; lra]. }
  rewrite <- A, <- B, <- C, <- D. clear. destruct a, b, c, d; seen; tauto.
Qed.

(** Seven pieces: omega below the line y = eta - 1/4, its two ends beside B above that line
    (one pattern, not connected), B cut at the lines y = eta - 1/4 and y = eta, and the rest. *)
Theorem C100_disc : forall eta, 1/2 < eta < 19/20 -> forall pat x y, surface (cmds_disc eta) pat x y <->
  (pat = [true; false; false; false] /\ in_rect 0 1 0 (eta - 1/4) x y /\ off_rect (1/10) (9/10) (1/4) eta x y) \/
  (pat = [true; false; false; true] /\ (in_rect 0 (1/10) (eta - 1/4) eta x y \/ in_rect (9/10) 1 (eta - 1/4) eta x y)) \/
  (pat = [false; true; false; false] /\ in_rect (1/10) (9/10) (1/4) (eta - 1/4) x y) \/
  (pat = [false; true; true; true] /\ in_rect (1/10) (9/10) (eta - 1/4) eta x y) \/
  (pat = [false; false; true; true] /\ in_rect (1/10) (9/10) eta (19/20) x y) \/
  (pat = [false; false; false; true] /\ in_rect 0 1 eta 1 x y /\ off_rect (1/10) (9/10) eta (19/20) x y).
Proof.
  intros eta He pat x y. split.
  - intros [HT H]. pose proof (fits_length _ _ _ H) as L. destruct pat as [|a [|b [|c [|d [|]]]]]; try discriminate L.
    apply (disc_fits _ _ _ _ _ _ _ He) in H. unfold on_rect, in_rect, off_rect in *. destruct H as [HA [HB [HC HD]]].
    destruct a, b, c, d; try (exfalso; lra).
    + right. left. split; [reflexivity|]. lra.
    + left. split; [reflexivity|]. lra.
    + do 3 right. left. split; [reflexivity|]. lra.
    + do 2 right. left. split; [reflexivity|]. lra.
    + do 4 right. left. split; [reflexivity|]. lra.
    + do 5 right. split; [reflexivity|]. lra.
    + clear - HT. cbn in HT. intuition discriminate.
  - intro H. split.
    + destruct H as [[-> _]|[[-> _]|[[-> _]|[[-> _]|[[-> _]|[-> _]]]]]]; cbn; tauto.
    + destruct H as [[-> H]|[[-> H]|[[-> H]|[[-> H]|[[-> H]|[-> H]]]]]]; apply (disc_fits _ _ _ _ _ _ _ He); unfold on_rect, in_rect, off_rect in *; lra.
Qed.

Definition disc_surfaces : list (list bool) :=
  [[true; false; false; false]; [true; false; false; true]; [false; true; false; false]; [false; true; true; true]; [false; false; true; true]; [false; false; false; true]].
Lemma surface_in eta pat x y : 1/2 < eta < 19/20 -> surface (cmds_disc eta) pat x y -> In pat disc_surfaces.
Proof. intros He H. apply (C100_disc eta He) in H. unfold disc_surfaces. cbn. intuition congruence. Qed.
Ltac picks_disc He := intros x y; rewrite (C100_disc _ He); split;
  [intro; intuition auto|intros [[E H]|[[E H]|[[E H]|[[E H]|[[E H]|[E H]]]]]]; try discriminate E; exact H].
(** all are connected but the second, which has two parts *)
Lemma side_kept S c : (forall y, ~ S c y) -> forall x y x' y', joined S x y x' y' -> x < c -> x' < c.
Proof.
  intros HS x y x' y'. induction 1 as [x y x' y' K|x y x' y' x'' y'' _ IH1 _ IH2]; intro Hx; [|auto].
  destruct (Rlt_dec x' c) as [L|L]; [exact L|]. exfalso.
  apply (HS (y + ((c - x) / (x' - x)) * (y' - y))). replace c with (x + ((c - x) / (x' - x)) * (x' - x)) at 1 by (field; lra). apply K.
  split; [apply Rmult_le_pos; [lra|left; apply Rinv_0_lt_compat; lra]|].
  apply (Rmult_le_reg_r (x' - x)); [lra|]. unfold Rdiv. rewrite Rmult_assoc, Rinv_l by lra. lra.
Qed.
Theorem C100_disc_parts : forall eta, 1/2 < eta < 19/20 ->
  (forall pat, In pat disc_surfaces -> pat <> [true; false; false; true] -> connected (surface (cmds_disc eta) pat)) /\
  connected (in_rect 0 (1/10) (eta - 1/4) eta) /\ connected (in_rect (9/10) 1 (eta - 1/4) eta) /\
  ~ connected (surface (cmds_disc eta) [true; false; false; true]).
Proof.
  intros eta He. split; [|split; [apply rect_connected|split; [apply rect_connected|]]].
  - intros pat HP HN. unfold disc_surfaces in HP. cbn in HP. destruct HP as [<-|[<-|[<-|[<-|[<-|[<-|[]]]]]]].
    + apply (connected_iff (framed 0 1 0 (eta - 1/4) (1/10) (9/10) (1/4) (eta - 1/4))); [|apply framed_connected; lra].
      intros x y. rewrite (C100_disc _ He). unfold framed. split.
      * intro H. left. split; [reflexivity|]. unfold in_rect, off_rect in *. lra.
      * intros [[_ H]|[[E _]|[[E _]|[[E _]|[[E _]|[E _]]]]]]; try discriminate E. unfold in_rect, off_rect in *. lra.
    + contradiction.
    + apply (connected_iff (in_rect (1/10) (9/10) (1/4) (eta - 1/4))); [|apply rect_connected]. picks_disc He.
    + apply (connected_iff (in_rect (1/10) (9/10) (eta - 1/4) eta)); [|apply rect_connected]. picks_disc He.
    + apply (connected_iff (in_rect (1/10) (9/10) eta (19/20))); [|apply rect_connected]. picks_disc He.
    + apply (connected_iff (framed 0 1 eta 1 (1/10) (9/10) eta (19/20))); [|apply framed_connected; lra]. unfold framed. picks_disc He.
  - intro HC.
    assert (P : forall x y, surface (cmds_disc eta) [true; false; false; true] x y <-> in_rect 0 (1/10) (eta - 1/4) eta x y \/ in_rect (9/10) 1 (eta - 1/4) eta x y).
    { intros x y. rewrite (C100_disc _ He). split; [intros [[E H]|[[E H]|[[E H]|[[E H]|[[E H]|[E H]]]]]]; try discriminate E; exact H|intro H; right; left; auto]. }
    assert (J : joined (surface (cmds_disc eta) [true; false; false; true]) (1/20) (eta - 1/8) (19/20) (eta - 1/8)) by (apply HC; apply P; unfold in_rect; lra).
    apply (side_kept _ (1/2)) in J; [lra| |lra]. intros y K. apply P in K. unfold in_rect in K. lra.
Qed.
(** The rectangle B_minus is not one surface: its points below and above y = eta - 1/4 lie
    in different surfaces, and that line is an interface. *)
Theorem C100_disc_refuted : forall eta, 1/2 < eta < 19/20 ->
  (forall pat, ~ (surface (cmds_disc eta) pat (1/2) ((eta - 1/4 + 1/4) / 2) /\ surface (cmds_disc eta) pat (1/2) (eta - 1/8))) /\
  (forall pat x, 0 < x < 1 -> ~ surface (cmds_disc eta) pat x (eta - 1/4)).
Proof.
  intros eta He. split.
  - intros pat [H K]. apply (C100_disc _ He) in H. apply (C100_disc _ He) in K. unfold in_rect, off_rect in *.
    destruct H as [[E H]|[[E H]|[[E H]|[[E H]|[[E H]|[E H]]]]]]; try (exfalso; lra).
    destruct K as [[F K]|[[F K]|[[F K]|[[F K]|[[F K]|[F K]]]]]]; try (exfalso; lra). congruence.
  - intros pat x Hx H. apply (C100_disc _ He) in H. unfold in_rect, off_rect in *. lra.
Qed.
(** The line y = eta is fitted: every surface lies on one side of it. *)
Theorem C100_disc_fitted : forall eta, 1/2 < eta < 19/20 -> forall pat, (forall x y, surface (cmds_disc eta) pat x y -> y < eta) \/ (forall x y, surface (cmds_disc eta) pat x y -> eta < y).
Proof.
  intros eta He pat. destruct (list_eq_dec bool_dec pat [false; false; true; true]) as [E|N1].
  - right. intros x y H. apply (C100_disc _ He) in H. subst pat. unfold in_rect in H. intuition (try discriminate; lra).
  - destruct (list_eq_dec bool_dec pat [false; false; false; true]) as [E|N2].
    + right. intros x y H. apply (C100_disc _ He) in H. subst pat. unfold in_rect in H. intuition (try discriminate; lra).
    + left. intros x y H. apply (C100_disc _ He) in H. unfold in_rect in H. intuition (try contradiction; lra).
Qed.
(** so on every mesh of the hierarchy a cell lies below or above y = eta *)
Theorem C100_disc_cells : forall entities com msh_file build refine rank remote n eta h s ms s', 1/2 < eta < 19/20 -> g_open s = false ->
  (rank <> 0%nat -> remote = Some (prune_z (file_disc entities com msh_file eta h))) ->
  in_surfaces (cmds_disc eta) disc_surfaces (mesh_of build (file_disc entities com msh_file eta h)) -> subdivides refine ->
  get_mesh_hierarchy_fitted_disc entities com msh_file build refine false rank remote n eta h s = (Ok ms, s') ->
  forall m, In m ms -> forall c, In c (m_cells m) -> (forall x y, inside m c x y -> y < eta) \/ (forall x y, inside m c x y -> eta < y).
Proof.
  intros entities com msh_file build refine rank remote n eta h s ms s' He HO HR HF HS E m Hm c Hc.
  destruct (C56_partial entities com msh_file build refine rank remote n h s HO) as [_ [_ [H _]]]. destruct (H eta HR) as [ms' [s'' [E' HRef]]].
  rewrite E in E'. injection E' as -> ->. pose proof HRef as [EL _]. destruct (In_nth _ _ d0 Hm) as [i [Hi <-]].
  destruct (refined_surfaces refine _ _ _ _ _ HS HRef HF i ltac:(lia) c Hc) as [pat [_ HQ]].
  destruct (C100_disc_fitted eta He pat) as [K|K]; [left|right]; intros x y L; apply (K x), HQ, L.
Qed.

(** ** data at the bottom *)
Lemma bottom_fits eta a b c d e f g k x y : 1/4 < eta < 9/10 -> fits_pattern (map snd (denote (cmds_bottom eta))) [a; b; c; d; e; f; g; k] (x, y, 0) <->
  on_rect a 0 1 0 (1/4) x y /\ on_rect b 0 (1/4) (1/4) eta x y /\ on_rect c (3/4) 1 (1/4) eta x y /\ on_rect d (1/4) (3/4) (1/4) eta x y /\
  on_rect e (1/4) (3/4) eta (9/10) x y /\ on_rect f 0 (1/4) eta 1 x y /\ on_rect g (1/4) (3/4) eta 1 x y /\ on_rect k (3/4) 1 eta 1 x y.
Proof.
  intro He. unfold cmds_bottom.
  replace 0.25 with (1/4) by (decimals; lra). replace 0.75 with (3/4) by (decimals; lra). replace 0.5 with (1/2) by (decimals; lra). replace 0.9 with (9/10) by (decimals; lra).
  unfold denote. cbn [fold_left denote1 app map snd fits_pattern s_cl s_in].
  assert (Q : forall (b : bool) x0 dx y0 dy x1 y1, 0 < dx -> 0 < dy -> x1 = x0 + dx -> y1 = y0 + dy ->
    (if b then sbtw x x0 dx /\ sbtw y y0 dy /\ 0 = 0 else ~ (btw x x0 dx /\ btw y y0 dy /\ 0 = 0)) <-> on_rect b x0 x1 y0 y1 x y).
  { intros [] x0 dx y0 dy x1 y1 H1 H2 H3 H4; [apply open_rect; assumption|apply closed_off; assumption]. }
  rewrite (Q a 0 1 0 (1/4) 1 (1/4)), (Q b 0 (1/4) (1/4) (eta - 1/4) (1/4) eta), (Q c (3/4) (1/4) (1/4) (eta - 1/4) 1 eta), (Q d (1/4) (1/2) (1/4) (eta - 1/4) (3/4) eta),
    (Q e (1/4) (1/2) eta (9/10 - eta) (3/4) (9/10)), (Q f 0 (1/4) eta (1 - eta) (1/4) 1), (Q g (1/4) (1/2) eta (1 - eta) (3/4) 1), (Q k (3/4) (1/4) eta (1 - eta) 1 1) by lra.
  tauto.
Qed.

(** Eight surfaces: B_plus lies in the middle rectangle of the top, which it splits. *)
Definition only (i : nat) : list bool := map (Nat.eqb i) (seq 1 8).
Definition both57 : list bool := [false; false; false; false; true; false; true; false].
Definition bottom_surfaces : list (list bool) := [only 1; only 2; only 3; only 4; both57; only 6; only 7; only 8].
Theorem C100_bottom : forall eta, 1/4 < eta < 9/10 -> forall pat x y, surface (cmds_bottom eta) pat x y <->
  (pat = only 1 /\ in_rect 0 1 0 (1/4) x y) \/ (pat = only 2 /\ in_rect 0 (1/4) (1/4) eta x y) \/ (pat = only 3 /\ in_rect (3/4) 1 (1/4) eta x y) \/
  (pat = only 4 /\ in_rect (1/4) (3/4) (1/4) eta x y) \/ (pat = both57 /\ in_rect (1/4) (3/4) eta (9/10) x y) \/ (pat = only 6 /\ in_rect 0 (1/4) eta 1 x y) \/
  (pat = only 7 /\ in_rect (1/4) (3/4) (9/10) 1 x y) \/ (pat = only 8 /\ in_rect (3/4) 1 eta 1 x y).
Proof.
  intros eta He pat x y. unfold only, both57. cbn [map seq Nat.eqb]. split.
  - intros [HT H]. pose proof (fits_length _ _ _ H) as L. destruct pat as [|a [|b [|c [|d [|e [|f [|g [|k [|]]]]]]]]]; try discriminate L. clear L.
    apply (bottom_fits _ _ _ _ _ _ _ _ _ _ _ He) in H. destruct H as [HA [HB [HC [HD [HE [HF [HG HK]]]]]]]. unfold on_rect, in_rect, off_rect in *.
    destruct a; [left|right].
    { destruct b; [exfalso; lra|]. destruct c; [exfalso; lra|]. destruct d; [exfalso; lra|]. destruct e; [exfalso; lra|]. destruct f; [exfalso; lra|]. destruct g; [exfalso; lra|]. destruct k; [exfalso; lra|]. auto. }
    destruct b; [left|right].
    { destruct c; [exfalso; lra|]. destruct d; [exfalso; lra|]. destruct e; [exfalso; lra|]. destruct f; [exfalso; lra|]. destruct g; [exfalso; lra|]. destruct k; [exfalso; lra|]. auto. }
    destruct c; [left|right].
    { destruct d; [exfalso; lra|]. destruct e; [exfalso; lra|]. destruct f; [exfalso; lra|]. destruct g; [exfalso; lra|]. destruct k; [exfalso; lra|]. auto. }
    destruct d; [left|right].
    { destruct e; [exfalso; lra|]. destruct f; [exfalso; lra|]. destruct g; [exfalso; lra|]. destruct k; [exfalso; lra|]. auto. }
    destruct e; [left|right].
    { destruct f; [exfalso; lra|]. destruct g; [|exfalso; lra]. destruct k; [exfalso; lra|]. auto. }
    destruct f; [left|right].
    { destruct g; [exfalso; lra|]. destruct k; [exfalso; lra|]. auto. }
    destruct g; [left|right].
    { destruct k; [exfalso; lra|]. split; [reflexivity|]. lra. }
    destruct k; [auto|]. exfalso. clear - HT. cbn in HT. intuition discriminate.
  - intro H. split.
    + destruct H as [[-> _]|[[-> _]|[[-> _]|[[-> _]|[[-> _]|[[-> _]|[[-> _]|[-> _]]]]]]]]; cbn; tauto.
    + destruct H as [[-> H]|[[-> H]|[[-> H]|[[-> H]|[[-> H]|[[-> H]|[[-> H]|[-> H]]]]]]]]; apply (bottom_fits _ _ _ _ _ _ _ _ _ _ _ He); unfold on_rect, in_rect, off_rect in *; lra.
Qed.
Theorem C100_bottom_parts : forall eta, 1/4 < eta < 9/10 ->
  (forall pat x y, surface (cmds_bottom eta) pat x y -> In pat bottom_surfaces) /\
  (forall pat, In pat bottom_surfaces -> connected (surface (cmds_bottom eta) pat)) /\
  (forall pat, (forall x y, surface (cmds_bottom eta) pat x y -> y < eta) \/ (forall x y, surface (cmds_bottom eta) pat x y -> eta < y)).
Proof.
  intros eta He. split; [|split].
  - intros pat x y H. apply (C100_bottom _ He) in H. unfold bottom_surfaces. cbn [In]. destruct H as [[-> _]|[[-> _]|[[-> _]|[[-> _]|[[-> _]|[[-> _]|[[-> _]|[-> _]]]]]]]]; auto 10.
  - assert (P : forall pat x0 x1 y0 y1, (forall x y, surface (cmds_bottom eta) pat x y <-> in_rect x0 x1 y0 y1 x y) -> connected (surface (cmds_bottom eta) pat)).
    { intros pat x0 x1 y0 y1 H. apply (connected_iff (in_rect x0 x1 y0 y1)); [intros x y; symmetry; apply H|apply rect_connected]. }
    intros pat HP. unfold bottom_surfaces in HP. cbn [In] in HP. destruct HP as [<-|[<-|[<-|[<-|[<-|[<-|[<-|[<-|[]]]]]]]]]; eapply P; intros x y; rewrite (C100_bottom _ He);
      (split; [intros [[E H]|[[E H]|[[E H]|[[E H]|[[E H]|[[E H]|[[E H]|[E H]]]]]]]]; try discriminate E; exact H|intro H; auto 10]).
  - intro pat. destruct (in_dec (list_eq_dec bool_dec) pat [only 1; only 2; only 3; only 4]) as [I|N].
    + left. intros x y H. apply (C100_bottom _ He) in H. cbn [In] in I.
      destruct H as [[-> H]|[[-> H]|[[-> H]|[[-> H]|[[-> H]|[[-> H]|[[-> H]|[-> H]]]]]]]]; unfold in_rect in H; try lra; exfalso; destruct I as [I|[I|[I|[I|[]]]]]; discriminate I.
    + right. intros x y H. apply (C100_bottom _ He) in H. cbn [In] in N.
      destruct H as [[-> H]|[[-> H]|[[-> H]|[[-> H]|[[-> H]|[[-> H]|[[-> H]|[-> H]]]]]]]]; unfold in_rect in H; try lra; exfalso; apply N; auto.
Qed.

(** ** the inclusion *)
Definition on_disk (b : bool) (x y : R) : Prop := if b then x * x + y * y < 1 else 1 < x * x + y * y.
Lemma inclusion_fits auto_tag a b c d x y : fits_pattern (map snd (denote (cmds_inclusion auto_tag))) [a; b; c; d] (x, y, 0) <->
  (if a then in_rect (-3/2) (3/2) (-3/2) (3/2) x y /\ off_rect (-5/4) (5/4) (-5/4) (3/2) x y
   else off_rect (-3/2) (3/2) (-3/2) (3/2) x y \/ in_rect (-5/4) (5/4) (-5/4) (3/2) x y) /\
  on_rect b (-1/2) (1/2) (-1/2) (1/2) x y /\ on_disk c x y /\ on_rect d (-5/4) (5/4) (-5/4) (3/2) x y.
Proof.
  unfold cmds_inclusion. cbv zeta. cbn [app].
  replace (-1.5) with (-3/2) by (decimals; lra). replace (-1.25) with (-5/4) by (decimals; lra). replace 2.5 with (5/2) by (decimals; lra). replace 2.75 with (11/4) by (decimals; lra).
  replace (-0.5) with (-1/2) by (decimals; lra). unfold on_rect.
  assert (A : (if a then (sbtw x (-3/2) 3 /\ sbtw y (-3/2) 3 /\ 0 = 0 \/ False) /\ ~ (btw x (-5/4) (5/2) /\ btw y (-5/4) (11/4) /\ 0 = 0 \/ False)
      else ~ ((btw x (-3/2) 3 /\ btw y (-3/2) 3 /\ 0 = 0 \/ False) /\ ~ (sbtw x (-5/4) (5/2) /\ sbtw y (-5/4) (11/4) /\ 0 = 0 \/ False))) <->
    if a then in_rect (-3/2) (3/2) (-3/2) (3/2) x y /\ off_rect (-5/4) (5/4) (-5/4) (3/2) x y
    else off_rect (-3/2) (3/2) (-3/2) (3/2) x y \/ in_rect (-5/4) (5/4) (-5/4) (3/2) x y).
  { destruct a.
    - apply cut_in. rewrite (open_rect (-3/2) 3 (-3/2) 3 (3/2) (3/2)) by lra. rewrite (closed_off (-5/4) (5/2) (-5/4) (11/4) (5/4) (3/2)) by lra. reflexivity.
    - rewrite (open_rect (-5/4) (5/2) (-5/4) (11/4) (5/4) (3/2)) by lra. rewrite cut_off by apply in_rect_known.
      rewrite (closed_off (-3/2) 3 (-3/2) 3 (3/2) (3/2)) by lra. reflexivity. }
  assert (B : (if b then sbtw x (-1/2) 1 /\ sbtw y (-1/2) 1 /\ 0 = 0 else ~ (btw x (-1/2) 1 /\ btw y (-1/2) 1 /\ 0 = 0)) <->
    if b then in_rect (-1/2) (1/2) (-1/2) (1/2) x y else off_rect (-1/2) (1/2) (-1/2) (1/2) x y).
  { destruct b; [apply open_rect; lra|apply closed_off; lra]. }
  assert (C : (if c then ((x - 0) / 1) ^ 2 + ((y - 0) / 1) ^ 2 < 1 /\ 0 = 0 else ~ (((x - 0) / 1) ^ 2 + ((y - 0) / 1) ^ 2 <= 1 /\ 0 = 0)) <-> on_disk c x y).
  { unfold on_disk. replace (((x - 0) / 1) ^ 2 + ((y - 0) / 1) ^ 2) with (x * x + y * y) by field. destruct c; split; intro; lra. }
  assert (D : (if d then sbtw x (-5/4) (5/2) /\ sbtw y (-5/4) (11/4) /\ 0 = 0 else ~ (btw x (-5/4) (5/2) /\ btw y (-5/4) (11/4) /\ 0 = 0)) <->
    if d then in_rect (-5/4) (5/4) (-5/4) (3/2) x y else off_rect (-5/4) (5/4) (-5/4) (3/2) x y).
  { destruct d; [apply open_rect; lra|apply closed_off; lra]. }
  rewrite <- A, <- B, <- C, <- D. clear. destruct a, b, c, d; seen; tauto.
Qed.
Lemma target_in_disk x y : in_rect (-1/2) (1/2) (-1/2) (1/2) x y -> x * x + y * y < 1.
Proof.
  unfold in_rect. intros [[A B] [C D]]. assert (0 < (1/2 - x) * (1/2 + x)) by (apply Rmult_lt_0_compat; lra).
  assert (0 < (1/2 - y) * (1/2 + y)) by (apply Rmult_lt_0_compat; lra). lra.
Qed.
Lemma sqr_far t a : 1 < a -> t < - a \/ a < t -> 1 < t * t.
Proof. intros Ha [H|H]; nra. Qed.
Lemma frame_off_disk x y : off_rect (-5/4) (5/4) (-5/4) (3/2) x y -> 1 < x * x + y * y.
Proof.
  unfold off_rect. intro H. pose proof (Rle_0_sqr x) as Px. pose proof (Rle_0_sqr y) as Py. unfold Rsqr in *.
  destruct H as [H|[H|[H|H]]]; [assert (1 < x * x) by (apply (sqr_far x (5/4)); lra)|assert (1 < x * x) by (apply (sqr_far x (5/4)); lra)|
    assert (1 < y * y) by (apply (sqr_far y (5/4)); lra)|assert (1 < y * y) by (apply (sqr_far y (5/4)); lra)]; lra.
Qed.
Lemma sqr_bound t : t * t < 1 -> -1 < t < 1.
Proof. intro H. split; apply Rnot_le_lt; intro K; nra. Qed.
Lemma disk_bound x y : x * x + y * y < 1 -> -1 < x < 1 /\ -1 < y < 1.
Proof. intro H. pose proof (Rle_0_sqr x). pose proof (Rle_0_sqr y). unfold Rsqr in *. split; apply sqr_bound; lra. Qed.
Lemma off_target x y : 1 < x * x + y * y -> off_rect (-1/2) (1/2) (-1/2) (1/2) x y.
Proof.
  intro H. unfold off_rect. destruct (Rlt_dec x (-1/2)); [lra|]. destruct (Rlt_dec (1/2) x); [lra|]. destruct (Rlt_dec y (-1/2)); [lra|]. destruct (Rlt_dec (1/2) y); [lra|].
  exfalso. assert (0 <= (1/2 - x) * (1/2 + x)) by (apply Rmult_le_pos; lra). assert (0 <= (1/2 - y) * (1/2 + y)) by (apply Rmult_le_pos; lra). lra.
Qed.
(** Four surfaces: the frame, the target square, the disk around it, and what is left
    between disk and frame; the circle is an interface. *)
Theorem C100_inclusion : forall auto_tag pat x y, surface (cmds_inclusion auto_tag) pat x y <->
  (pat = [true; false; false; false] /\ in_rect (-3/2) (3/2) (-3/2) (3/2) x y /\ off_rect (-5/4) (5/4) (-5/4) (3/2) x y) \/
  (pat = [false; true; true; true] /\ in_rect (-1/2) (1/2) (-1/2) (1/2) x y) \/
  (pat = [false; false; true; true] /\ x * x + y * y < 1 /\ off_rect (-1/2) (1/2) (-1/2) (1/2) x y) \/
  (pat = [false; false; false; true] /\ in_rect (-5/4) (5/4) (-5/4) (3/2) x y /\ 1 < x * x + y * y).
Proof.
  intros auto_tag pat x y.
  pose proof (disk_bound x y) as K1. pose proof (target_in_disk x y) as K2. pose proof (frame_off_disk x y) as K3.
  split.
  - intros [HT H]. pose proof (fits_length _ _ _ H) as L. destruct pat as [|a [|b [|c [|d [|]]]]]; try discriminate L. clear L.
    apply inclusion_fits in H. unfold on_rect, on_disk, in_rect, off_rect in *. destruct H as [HA [HB [HC HD]]].
    destruct a, b, c, d; try (exfalso; lra).
    + left. split; [reflexivity|]. lra.
    + right. left. split; [reflexivity|]. lra.
    + right. right. left. split; [reflexivity|]. lra.
    + right. right. right. split; [reflexivity|]. lra.
    + clear - HT. cbn in HT. intuition discriminate.
  - intro H. split.
    + destruct H as [[-> _]|[[-> _]|[[-> _]|[-> _]]]]; cbn; tauto.
    + destruct H as [[-> H]|[[-> H]|[[-> H]|[-> H]]]]; apply inclusion_fits.
      * specialize (K3 (proj2 H)). pose proof (off_target x y K3). unfold on_rect, on_disk, in_rect, off_rect in *. lra.
      * specialize (K2 H). specialize (K1 K2). unfold on_rect, on_disk, in_rect, off_rect in *. lra.
      * specialize (K1 (proj1 H)). unfold on_rect, on_disk, in_rect, off_rect in *. lra.
      * pose proof (off_target x y (proj2 H)). unfold on_rect, on_disk, in_rect, off_rect in *. lra.
Qed.
(** every surface lies inside or outside the unit circle *)
Theorem C100_inclusion_fitted : forall auto_tag pat,
  (forall x y, surface (cmds_inclusion auto_tag) pat x y -> x * x + y * y < 1) \/ (forall x y, surface (cmds_inclusion auto_tag) pat x y -> 1 < x * x + y * y).
Proof.
  intros auto_tag pat.
  pose proof target_in_disk as K2. pose proof frame_off_disk as K3.
  destruct (in_dec (list_eq_dec bool_dec) pat [[false; true; true; true]; [false; false; true; true]]) as [I|N]; [left|right]; intros x y H; apply C100_inclusion in H.
  - destruct H as [[-> H]|[[-> H]|[[-> H]|[-> H]]]]; [|apply K2, H|apply H|]; exfalso; destruct I as [I|[I|[]]]; discriminate I.
  - destruct H as [[-> H]|[[-> H]|[[-> H]|[-> H]]]]; [apply K3, H| | |apply H]; exfalso; apply N; cbn; auto.
Qed.

(** * Non-vacuity *)
Definition ex_auto99 : list geo -> nat -> Z := fun l _ => (10 + Z.of_nat (List.length l))%Z.
Theorem C100_nonvacuous : surface (cmds_disc (7/10)) [true; false; false; false] (1/2) (1/8) /\ surface (cmds_disc (7/10)) [true; false; false; true] (1/20) (3/5) /\
  surface (cmds_disc (7/10)) [true; false; false; true] (19/20) (3/5) /\ surface (cmds_disc (7/10)) [false; true; false; false] (1/2) (3/10) /\
  surface (cmds_disc (7/10)) [false; true; true; true] (1/2) (3/5) /\ surface (cmds_disc (7/10)) [false; false; true; true] (1/2) (4/5) /\
  surface (cmds_disc (7/10)) [false; false; false; true] (1/20) (4/5) /\
  surface (cmds_bottom (6/10)) both57 (1/2) (4/5) /\ surface (cmds_bottom (6/10)) (only 7) (1/2) (19/20) /\
  surface (cmds_inclusion ex_auto99) [false; false; true; true] (3/4) 0 /\ surface (cmds_inclusion ex_auto99) [false; false; false; true] 1 (1/2) /\
  in_surfaces (cmds_disc (7/10)) disc_surfaces (mesh_of mkMesh (file_disc ex_ents99 ex_com_convex ex_file99 (7/10) 5)) /\
  exists ms s', get_mesh_hierarchy_fitted_disc ex_ents99 ex_com_convex ex_file99 mkMesh bisect false 0 None 1 (7/10) 5 ex_closed = (Ok ms, s') /\
    map m_cells ms = [[[0; 1; 2]%nat]; [[0; 3; 2]%nat; [3; 1; 2]%nat]].
Proof.
  assert (He : 1/2 < 7/10 < 19/20) by lra. assert (Hb : 1/4 < 6/10 < 9/10) by lra.
  split; [apply (C100_disc _ He); left; split; [reflexivity|unfold in_rect, off_rect; lra]|].
  split; [apply (C100_disc _ He); right; left; split; [reflexivity|unfold in_rect, off_rect; lra]|].
  split; [apply (C100_disc _ He); right; left; split; [reflexivity|unfold in_rect, off_rect; lra]|].
  split; [apply (C100_disc _ He); do 2 right; left; split; [reflexivity|unfold in_rect, off_rect; lra]|].
  split; [apply (C100_disc _ He); do 3 right; left; split; [reflexivity|unfold in_rect, off_rect; lra]|].
  split; [apply (C100_disc _ He); do 4 right; left; split; [reflexivity|unfold in_rect, off_rect; lra]|].
  split; [apply (C100_disc _ He); do 5 right; split; [reflexivity|unfold in_rect, off_rect; lra]|].
  split; [apply (C100_bottom _ Hb); do 4 right; left; split; [reflexivity|unfold in_rect, off_rect; lra]|].
  split; [apply (C100_bottom _ Hb); do 6 right; left; split; [reflexivity|unfold in_rect, off_rect; lra]|].
  split; [apply C100_inclusion; do 2 right; left; split; [reflexivity|unfold in_rect, off_rect; lra]|].
  split; [apply C100_inclusion; do 3 right; split; [reflexivity|unfold in_rect, off_rect; lra]|].
  split.
  - intros c Hc. cbn in Hc. destruct Hc as [<-|[]]. exists [true; false; false; false]. split; [left; reflexivity|]. intros x y [w [HL [HP [HS [-> ->]]]]].
    apply (C100_disc _ He). left. split; [reflexivity|].
    destruct (three_weights w HL) as [a [b [c ->]]]. inversion HP as [|? ? Pa HP1]; subst. inversion HP1 as [|? ? Pb HP2]; subst. inversion HP2 as [|? ? Pc _]; subst.
    cbn [fold_right] in HS. unfold blend, in_rect, off_rect. cbn. lra.
  - destruct (C56_partial ex_ents99 ex_com_convex ex_file99 mkMesh bisect 0 None 1 5 ex_closed eq_refl) as [_ [_ [H _]]].
    destruct (H (7/10) ltac:(intro K; contradiction)) as [ms [s' [E [HL [H0 HI]]]]]. exists ms, s'. split; [exact E|]. specialize (HI 0%nat ltac:(lia)).
    destruct ms as [|a [|b [|c ms]]]; try discriminate HL. cbn [nth] in H0, HI. subst a. rewrite HI. reflexivity.
Qed.
Print Assumptions C100_disc.
Print Assumptions C100_disc_parts.
Print Assumptions C100_disc_refuted.
Print Assumptions C100_disc_fitted.
Print Assumptions C100_disc_cells.
Print Assumptions C100_bottom.
Print Assumptions C100_bottom_parts.
Print Assumptions C100_inclusion.
Print Assumptions C100_inclusion_fitted.
Print Assumptions C100_nonvacuous.
