(** Props_Volumes.v -- C104: the volumes and cells of get_3d_mesh_data_all_around. *)
From Coq Require Import Reals List ZArith Lra Lia Bool.
From Verif Require Import QuadProofs Base MeshModel DriverModel Props_Driver Props_Mesh Props_Geometry Props_Regions.
Import ListNotations.
Open Scope R_scope.

(** the volumes of the fragment: as the surfaces of C99, with points of space *)
Definition volume (cs : list geo) (pat : list bool) (p : pt) : Prop :=
  In true pat /\ fits_pattern (map snd (denote cs)) pat p.
Definition in_box (u v : R) (p : pt) : Prop := let '(a, b, c) := p in u < a < v /\ u < b < v /\ u < c < v.
Definition off_box (u v : R) (p : pt) : Prop := let '(a, b, c) := p in a < u \/ v < a \/ b < u \/ v < b \/ c < u \/ v < c.
Definition shell (p : pt) : Prop := in_box 0 1 p /\ off_box (1/5) (4/5) p.

Ltac shown3 := unfold volume, denote;
  cbn [fold_left denote1 app filter map existsb ent_eqb fst snd Nat.eqb Z.eqb Pos.eqb andb orb negb fits_pattern s_cl s_in];
  repeat setoid_rewrite ex_cons; repeat setoid_rewrite ex_nil; cbn [s_cl s_in]; unfold btw, sbtw.

(** exactly two volumes: the shell and the inner box *)
Theorem C104_volumes : forall pat p, volume cmds_3d pat p <->
  (pat = [true; false] /\ shell p) \/ (pat = [false; true] /\ in_box (1/5) (4/5) p).
Proof.
  intros pat [[a b] c]. unfold shell, in_box, off_box. split.
  - intro H. pose proof (fits_length _ _ _ (proj2 H)) as L. destruct pat as [|p [|q [|]]]; try discriminate L.
    revert H. unfold cmds_3d. destruct p, q; shown3; decimals; intros [HT H].
    + exfalso. destruct H as [[_ H2] [H3 _]]. apply H2. left. lra.
    + left. split; [reflexivity|]. destruct H as [[[H1|[]] H2] _]. split; [lra|].
      destruct (Rlt_dec a (1/5)); [lra|]. destruct (Rlt_dec (4/5) a); [lra|]. destruct (Rlt_dec b (1/5)); [lra|]. destruct (Rlt_dec (4/5) b); [lra|].
      destruct (Rlt_dec c (1/5)); [lra|]. destruct (Rlt_dec (4/5) c); [lra|]. exfalso. apply H2. left. lra.
    + right. split; [reflexivity|]. intuition lra.
    + cbn in HT. intuition discriminate.
  - unfold cmds_3d. intros [[-> H]|[-> H]]; (split; [cbn; tauto|]); revert H; shown3; decimals; intro H.
    + destruct H as [H1 H2]. split; [split; [left; lra|intro N; intuition lra]|]. split; [intro N; intuition lra|exact I].
    + split; [intros [N1 N2]; apply N2; left; lra|]. split; [lra|exact I].
Qed.

(** both are connected: two points of a volume are joined by segments inside it *)
Definition seg (t : R) (p q : pt) : pt := let '(a, b, c) := p in let '(a', b', c') := q in (a + t * (a' - a), b + t * (b' - b), c + t * (c' - c)).
Inductive joined3 (S : pt -> Prop) : pt -> pt -> Prop :=
| joined3_segment p q : (forall t, 0 <= t <= 1 -> S (seg t p q)) -> joined3 S p q
| joined3_trans p q r : joined3 S p q -> joined3 S q r -> joined3 S p r.
Definition connected3 (S : pt -> Prop) : Prop := forall p q, S p -> S q -> joined3 S p q.
Lemma joined3_sym S p q : joined3 S p q -> joined3 S q p.
Proof.
  induction 1 as [[[a b] c] [[a' b'] c'] H|p q r _ IH1 _ IH2]; [|exact (joined3_trans _ _ _ _ IH2 IH1)].
  apply joined3_segment. intros t Ht. specialize (H (1 - t) ltac:(lra)). unfold seg in *.
  replace (a' + t * (a - a')) with (a + (1 - t) * (a' - a)) by ring. replace (b' + t * (b - b')) with (b + (1 - t) * (b' - b)) by ring.
  replace (c' + t * (c - c')) with (c + (1 - t) * (c' - c)) by ring. exact H.
Qed.
(** an open box with its own sides *)
Definition slab (a0 a1 b0 b1 c0 c1 : R) (p : pt) : Prop := let '(a, b, c) := p in a0 < a < a1 /\ b0 < b < b1 /\ c0 < c < c1.
Lemma slab_joined (S : pt -> Prop) a0 a1 b0 b1 c0 c1 p q : (forall r, slab a0 a1 b0 b1 c0 c1 r -> S r) ->
  slab a0 a1 b0 b1 c0 c1 p -> slab a0 a1 b0 b1 c0 c1 q -> joined3 S p q.
Proof.
  intros HS. destruct p as [[a b] c], q as [[a' b'] c']. intros [H1 [H2 H3]] [K1 [K2 K3]].
  apply joined3_segment. intros t Ht. apply HS. unfold seg, slab. split; [apply between; assumption|]. split; apply between; assumption.
Qed.
Theorem C104_connected : connected3 shell /\ connected3 (in_box (1/5) (4/5)) /\
  (forall pat, connected3 (volume cmds_3d pat)).
Proof.
  assert (C1 : connected3 shell).
  { assert (K : forall a0 a1 b0 b1 c0 c1, 0 <= a0 -> a1 <= 1 -> 0 <= b0 -> b1 <= 1 -> 0 <= c0 -> c1 <= 1 ->
      (a1 <= 1/5 \/ 4/5 <= a0 \/ b1 <= 1/5 \/ 4/5 <= b0 \/ c1 <= 1/5 \/ 4/5 <= c0) -> forall r, slab a0 a1 b0 b1 c0 c1 r -> shell r).
    { intros. destruct r as [[a b] c]. unfold slab, shell, in_box, off_box in *. lra. }
    (* every point reaches a corner of its side, and every corner the corner near 0 *)
    assert (Z : forall p, shell p -> joined3 shell p (1/10, 1/10, 1/10)).
    { intros [[a b] c] H. pose proof H as [H1 H2]. unfold in_box, off_box in H1, H2.
      destruct H2 as [H2|[H2|[H2|[H2|[H2|H2]]]]].
      - apply (slab_joined _ 0 (1/5) 0 1 0 1); [apply K; lra|unfold slab; lra|unfold slab; lra].
      - apply joined3_trans with (9/10, 1/10, 1/10).
        + apply (slab_joined _ (4/5) 1 0 1 0 1); [apply K; lra|unfold slab; lra|unfold slab; lra].
        + apply (slab_joined _ 0 1 0 (1/5) 0 1); [apply K; lra|unfold slab; lra|unfold slab; lra].
      - apply (slab_joined _ 0 1 0 (1/5) 0 1); [apply K; lra|unfold slab; lra|unfold slab; lra].
      - apply joined3_trans with (1/10, 9/10, 1/10).
        + apply (slab_joined _ 0 1 (4/5) 1 0 1); [apply K; lra|unfold slab; lra|unfold slab; lra].
        + apply (slab_joined _ 0 (1/5) 0 1 0 1); [apply K; lra|unfold slab; lra|unfold slab; lra].
      - apply (slab_joined _ 0 1 0 1 0 (1/5)); [apply K; lra|unfold slab; lra|unfold slab; lra].
      - apply joined3_trans with (1/10, 1/10, 9/10).
        + apply (slab_joined _ 0 1 0 1 (4/5) 1); [apply K; lra|unfold slab; lra|unfold slab; lra].
        + apply (slab_joined _ 0 (1/5) 0 1 0 1); [apply K; lra|unfold slab; lra|unfold slab; lra]. }
    intros p q Hp Hq. exact (joined3_trans _ _ _ _ (Z p Hp) (joined3_sym _ _ _ (Z q Hq))). }
  assert (C2 : connected3 (in_box (1/5) (4/5))).
  { intros p q Hp Hq. apply (slab_joined _ (1/5) (4/5) (1/5) (4/5) (1/5) (4/5)); [intros r H; exact H|exact Hp|exact Hq]. }
  split; [exact C1|]. split; [exact C2|].
  intros pat p q Hp Hq.
  assert (M : forall (S S' : pt -> Prop) u v, (forall r, S r -> S' r) -> joined3 S u v -> joined3 S' u v).
  { intros S S' u v HS J. induction J as [u v J|u v w _ I1 _ I2]; [apply joined3_segment; intros t Ht; apply HS, J, Ht|exact (joined3_trans _ _ _ _ I1 I2)]. }
  apply C104_volumes in Hp. apply C104_volumes in Hq.
  destruct Hp as [[-> Hp]|[-> Hp]], Hq as [[E Hq]|[E Hq]]; try discriminate E.
  - apply (M shell); [intros r Hr; apply C104_volumes; left; split; [reflexivity|exact Hr]|exact (C1 _ _ Hp Hq)].
  - apply (M (in_box (1/5) (4/5))); [intros r Hr; apply C104_volumes; right; split; [reflexivity|exact Hr]|exact (C2 _ _ Hp Hq)].
Qed.

(** ** the data domain of solve_3d.py *)
(** The indicator is 1 on the shell.  In the inner box it is 0 only in the smaller box
    with sides 1/4 and 3/4, so it is not constant there. *)
Lemma indicator_3d a b c : exists v, omega_ind_3d [[a; b; c]] = Ok [v] /\
  (a <= 1/4 \/ 3/4 <= a \/ b <= 1/4 \/ 3/4 <= b \/ c <= 1/4 \/ 3/4 <= c -> v = 1) /\ (in_box (1/4) (3/4) (a, b, c) -> v = 0).
Proof.
  destruct (C53_3d [[a; b; c]]) as [v [Hv [HL HC]]]. destruct v as [|v [|w l]]; try discriminate HL.
  exists v. split; [exact Hv|]. destruct (HC 0%nat ltac:(cbn; lia)) as [C1 C2]. cbn [nth] in C1, C2.
  unfold near_boundary in C1, C2. rewrite ex3 in C1, C2. cbn [nth] in C1, C2. split; intro H; [apply C1|apply C2; unfold in_box in H]; lra.
Qed.
Theorem C104_indicator : (forall a b c, volume cmds_3d [true; false] (a, b, c) -> omega_ind_3d [[a; b; c]] = Ok [1]) /\
  (forall a b c, volume cmds_3d [false; true] (a, b, c) ->
     (omega_ind_3d [[a; b; c]] = Ok [0] /\ in_box (1/4) (3/4) (a, b, c)) \/ (omega_ind_3d [[a; b; c]] = Ok [1] /\ ~ in_box (1/4) (3/4) (a, b, c))).
Proof.
  split; intros a b c H; apply C104_volumes in H; destruct H as [[E H]|[E H]]; try discriminate E; clear E;
    destruct (indicator_3d a b c) as [v [-> [V1 V0]]].
  - rewrite V1; [reflexivity|]. unfold shell, in_box, off_box in H. lra.
  - destruct (Rle_dec a (1/4)); [right; split; [rewrite V1 by lra; reflexivity|unfold in_box; lra]|].
    destruct (Rle_dec (3/4) a); [right; split; [rewrite V1 by lra; reflexivity|unfold in_box; lra]|].
    destruct (Rle_dec b (1/4)); [right; split; [rewrite V1 by lra; reflexivity|unfold in_box; lra]|].
    destruct (Rle_dec (3/4) b); [right; split; [rewrite V1 by lra; reflexivity|unfold in_box; lra]|].
    destruct (Rle_dec c (1/4)); [right; split; [rewrite V1 by lra; reflexivity|unfold in_box; lra]|].
    destruct (Rle_dec (3/4) c); [right; split; [rewrite V1 by lra; reflexivity|unfold in_box; lra]|].
    left. assert (B : in_box (1/4) (3/4) (a, b, c)) by (unfold in_box; lra). split; [rewrite V0 by exact B; reflexivity|exact B].
Qed.
Theorem C104_indicator_refuted : exists a b c a' b' c', volume cmds_3d [false; true] (a, b, c) /\ volume cmds_3d [false; true] (a', b', c') /\
  omega_ind_3d [[a; b; c]] = Ok [1] /\ omega_ind_3d [[a'; b'; c']] = Ok [0].
Proof.
  exists (6/25), (1/2), (1/2), (1/2), (1/2), (1/2).
  split; [apply C104_volumes; right; split; [reflexivity|unfold in_box; lra]|].
  split; [apply C104_volumes; right; split; [reflexivity|unfold in_box; lra]|].
  split; [destruct (indicator_3d (6/25) (1/2) (1/2)) as [v [-> [V _]]]; rewrite V by lra; reflexivity|].
  destruct (indicator_3d (1/2) (1/2) (1/2)) as [v [-> [_ V]]]. rewrite V by (unfold in_box; lra). reflexivity.
Qed.

(** ** cells *)
(** the open convex hull of the vertices of a cell; the assumptions on gmsh and dolfinx
    are those of C99 *)
Definition inside3 (m : mesh) (c : list nat) (p : pt) : Prop :=
  exists w, List.length w = List.length c /\ List.Forall (fun a => 0 < a) w /\ fold_right Rplus 0 w = 1 /\
  p = (blend 0 m c w, blend 1 m c w, blend 2 m c w).
Definition in_volumes (cs : list geo) (m : mesh) : Prop :=
  forall c, In c (m_cells m) -> exists pat, forall p, inside3 m c p -> volume cs pat p.
Definition subdivides3 (refine : mesh -> mesh) : Prop := forall m c', In c' (m_cells (refine m)) ->
  exists c, In c (m_cells m) /\ forall p, inside3 (refine m) c' p -> inside3 m c p.
Lemma iter_volumes refine cs m i : subdivides3 refine -> in_volumes cs m -> in_volumes cs (Nat.iter i refine m).
Proof.
  intros HS HM. induction i as [|i IH]; [exact HM|]. change (Nat.iter (S i) refine m) with (refine (Nat.iter i refine m)). intros c' Hc'.
  destruct (HS _ _ Hc') as [c [Hc Hin]]. destruct (IH c Hc) as [pat HP]. exists pat. intros p K. apply HP, Hin, K.
Qed.
(** From a closed session, every cell of every mesh returned lies in the shell, where the
    indicator of solve_3d.py is 1, or in the inner box; none crosses the interface. *)
Theorem C104_cells : forall entities com fragments model_mesh refine_uniform n h s ms s', g_open s = false ->
  (forall s1, g_geo s1 = cmds_3d -> g_meshed s1 = true -> in_volumes cmds_3d (model_mesh s1)) -> subdivides3 refine_uniform ->
  get_3d_mesh_data_all_around entities com fragments model_mesh refine_uniform n h s = (Ok ms, s') ->
  List.length ms = S n /\ forall m, In m ms -> forall c, In c (m_cells m) ->
    (forall p, inside3 m c p -> shell p /\ let '(x, y, z) := p in omega_ind_3d [[x; y; z]] = Ok [1]) \/
    (forall p, inside3 m c p -> in_box (1/5) (4/5) p).
Proof.
  intros entities com fragments model_mesh refine_uniform n h s ms s' HO HM HS E.
  destruct (C56_3d entities com fragments model_mesh refine_uniform n h s) as [s1 [E1 [_ [HD [_ HG]]]]]. rewrite E in E1.
  assert (EM : ms = map (fun i => Nat.iter i refine_uniform (model_mesh s1)) (seq 0 (S n))) by congruence. rewrite EM. clear E E1 EM.
  rewrite HO in HG. cbn [app] in HG. split; [rewrite map_length, seq_length; reflexivity|].
  intros m Hm c Hc. apply in_map_iff in Hm. destruct Hm as [i [<- _]].
  destruct (iter_volumes _ cmds_3d _ i HS (HM _ HG HD) c Hc) as [pat HP].
  destruct (list_eq_dec bool_dec pat [true; false]) as [->|NE].
  - left. intros [[x y] z] K. specialize (HP _ K). split; [|apply (proj1 C104_indicator), HP]. apply C104_volumes in HP. destruct HP as [[_ HP]|[EP _]]; [exact HP|discriminate EP].
  - right. intros p K. specialize (HP _ K). apply C104_volumes in HP. destruct HP as [[EP _]|[_ HP]]; [contradiction|exact HP].
Qed.
(** the indicator need not be constant on the cells of the inner box *)
Definition tet : mesh := mkMesh [[1/5; 1/5; 1/5]; [4/5; 1/5; 1/5]; [1/5; 4/5; 1/5]; [1/5; 1/5; 4/5]] [[0; 1; 2; 3]%nat].
Lemma tet_inside p : inside3 tet [0; 1; 2; 3]%nat p <-> exists a b c, 0 < a /\ 0 < b /\ 0 < c /\ a + b + c < 1 /\
  p = (1/5 + 3/5 * a, 1/5 + 3/5 * b, 1/5 + 3/5 * c).
Proof.
  split.
  - intros [w [HL [HF [HS ->]]]]. destruct w as [|w0 [|a [|b [|c [|]]]]]; try discriminate HL. cbn in HS.
    inversion HF as [|? ? F0 HF1]; subst. inversion HF1 as [|? ? F1 HF2]; subst. inversion HF2 as [|? ? F2 HF3]; subst. inversion HF3 as [|? ? F3 _]; subst.
    exists a, b, c. split; [exact F1|]. split; [exact F2|]. split; [exact F3|]. split; [lra|].
    unfold blend. cbn. f_equal; [f_equal|]; lra.
  - intros [a [b [c [A [B [C [D ->]]]]]]]. exists [1 - a - b - c; a; b; c]. split; [reflexivity|]. split; [repeat constructor; lra|]. split; [cbn; lra|].
    unfold blend. cbn. f_equal; [f_equal|]; lra.
Qed.
Theorem C104_cells_refuted : in_volumes cmds_3d tet /\ exists c p q, In c (m_cells tet) /\ inside3 tet c p /\ inside3 tet c q /\
  (let '(x, y, z) := p in omega_ind_3d [[x; y; z]] = Ok [1]) /\ (let '(x, y, z) := q in omega_ind_3d [[x; y; z]] = Ok [0]).
Proof.
  split.
  - intros c [<-|[]]. exists [false; true]. intros p H. apply tet_inside in H. destruct H as [a [b [c [A [B [C [D ->]]]]]]].
    apply C104_volumes. right. split; [reflexivity|]. unfold in_box. lra.
  - exists [0; 1; 2; 3]%nat, (1/5 + 3/5 * (1/20), 1/5 + 3/5 * (1/20), 1/5 + 3/5 * (1/20)), (1/5 + 3/5 * (1/4), 1/5 + 3/5 * (1/4), 1/5 + 3/5 * (1/4)).
    split; [left; reflexivity|].
    split; [apply tet_inside; exists (1/20), (1/20), (1/20); repeat split; lra|].
    split; [apply tet_inside; exists (1/4), (1/4), (1/4); repeat split; lra|].
    split.
    + destruct (indicator_3d (1/5 + 3/5 * (1/20)) (1/5 + 3/5 * (1/20)) (1/5 + 3/5 * (1/20))) as [v [-> [V _]]]. rewrite V by lra. reflexivity.
    + destruct (indicator_3d (1/5 + 3/5 * (1/4)) (1/5 + 3/5 * (1/4)) (1/5 + 3/5 * (1/4))) as [v [-> [_ V]]]. rewrite V by (unfold in_box; lra). reflexivity.
Qed.
(** non-vacuity: the assumptions hold for a mesh with this cell and a refinement that
    keeps it, and both volumes have points *)
Theorem C104_nonvacuous : (forall s1, g_geo s1 = cmds_3d -> g_meshed s1 = true -> in_volumes cmds_3d ((fun _ => tet) s1)) /\ subdivides3 (fun m => m) /\
  g_open (closed (mkG false 1 [] [] false 1 None None)) = false /\
  volume cmds_3d [true; false] (1/10, 1/2, 1/2) /\ volume cmds_3d [false; true] (1/2, 1/2, 1/2) /\ (exists p, inside3 tet [0; 1; 2; 3]%nat p).
Proof.
  split; [intros _ _ _; exact (proj1 C104_cells_refuted)|]. split; [intros m c H; exists c; split; [exact H|intros p K; exact K]|].
  split; [reflexivity|]. split; [apply C104_volumes; left; split; [reflexivity|unfold shell, in_box, off_box; lra]|].
  split; [apply C104_volumes; right; split; [reflexivity|unfold in_box; lra]|].
  eexists. apply tet_inside. exists (1/4), (1/4), (1/4). repeat split; lra.
Qed.
Print Assumptions C104_cells.
Print Assumptions C104_connected.
