(** Props_Geometry.v -- which point sets the geometry commands of meshes.py describe. *)
From Coq Require Import Reals List ZArith Lra Lia Bool String.
From Verif Require Import QuadProofs Base MeshModel DriverModel DriverConfig Props_Driver Props_Mesh.
Import ListNotations.
Open Scope R_scope.

(** * C65: the geometries cover their domain *)
(** The point sets described by the geometry commands: a closed set and its interior.
    cut removes the interiors of the tools and deletes objects and tools; fragment splits
    its arguments along their boundaries and does not change the union. *)
Definition pt : Type := (R * R * R)%type.
Record solid : Type := mkSolid { s_cl : pt -> Prop; s_in : pt -> Prop }.
Definition btw (a x dx : R) : Prop := x <= a <= x + dx \/ x + dx <= a <= x.
Definition sbtw (a x dx : R) : Prop := x < a < x + dx \/ x + dx < a < x.
Definition ent_eqb (a b : ent) : bool := Nat.eqb (fst a) (fst b) && Z.eqb (snd a) (snd b).
Definition denote1 (e : list (ent * solid)) (c : geo) : list (ent * solid) :=
  match c with
  | Rect x y z dx dy t => e ++ [((2%nat, t), mkSolid (fun '(a, b, c) => btw a x dx /\ btw b y dy /\ c = z) (fun '(a, b, c) => sbtw a x dx /\ sbtw b y dy /\ c = z))]
  | Disk x y z rx ry t => e ++ [((2%nat, t), mkSolid (fun '(a, b, c) => ((a - x) / rx) ^ 2 + ((b - y) / ry) ^ 2 <= 1 /\ c = z)
                                                     (fun '(a, b, c) => ((a - x) / rx) ^ 2 + ((b - y) / ry) ^ 2 < 1 /\ c = z))]
  | Box x y z dx dy dz t => e ++ [((3%nat, t), mkSolid (fun '(a, b, c) => btw a x dx /\ btw b y dy /\ btw c z dz) (fun '(a, b, c) => sbtw a x dx /\ sbtw b y dy /\ sbtw c z dz))]
  | Cut obj tool t =>
      let o := map snd (filter (fun p => existsb (ent_eqb (fst p)) obj) e) in
      let u := map snd (filter (fun p => existsb (ent_eqb (fst p)) tool) e) in
      filter (fun p => negb (existsb (ent_eqb (fst p)) (obj ++ tool))) e ++
      [((match obj with (d, _) :: _ => d | [] => 2%nat end, t),
        mkSolid (fun p => Exists (fun s => s_cl s p) o /\ ~ Exists (fun s => s_in s p) u)
                (fun p => Exists (fun s => s_in s p) o /\ ~ Exists (fun s => s_cl s p) u))]
  | Fragment _ _ => e
  end.
Definition denote (cs : list geo) : list (ent * solid) := fold_left denote1 cs [].
Definition domain (cs : list geo) (p : pt) : Prop := Exists (fun s => s_cl (snd s) p) (denote cs).
Definition box2 (x0 x1 y0 y1 : R) (p : pt) : Prop := let '(a, b, c) := p in x0 <= a <= x1 /\ y0 <= b <= y1 /\ c = 0.
Lemma ex_nil {A} (P : A -> Prop) : Exists P [] <-> False.
Proof. split; [intro H; inversion H|contradiction]. Qed.
Lemma ex_cons {A} (P : A -> Prop) a l : Exists P (a :: l) <-> P a \/ Exists P l.
Proof. apply List.Exists_cons. Qed.
Ltac opened := unfold domain, denote; cbn [fold_left denote1 app filter map existsb ent_eqb fst snd Nat.eqb Z.eqb Pos.eqb andb orb negb s_cl s_in];
  rewrite ?ex_cons, ?ex_nil; cbn [snd s_cl s_in]; rewrite ?ex_cons, ?ex_nil; cbn [snd s_cl s_in]; unfold btw, sbtw.

Theorem C65_convex : forall p, domain cmds_convex p <-> box2 0 1 0 1 p.
Proof.
  intros [[a b] c]. unfold cmds_convex, box2. opened. decimals. split.
  - intro H. intuition lra.
  - intros [H1 [H2 ->]]. destruct (Rle_dec a (1/10)), (Rle_dec (9/10) a), (Rle_dec b (1/4)), (Rle_dec b (95/100)); intuition lra.
Qed.
Theorem C65_nonconvex : forall p, domain cmds_nonconvex p <-> box2 0 1 0 1 p.
Proof.
  intros [[a b] c]. unfold cmds_nonconvex, box2. opened. decimals. split; [intro H; intuition lra|]. intuition lra.
Qed.
Theorem C65_around : forall p, domain cmds_around p <-> box2 0 1 0 1 p.
Proof.
  intros [[a b] c]. unfold cmds_around, box2. opened. decimals. split.
  - intro H. intuition lra.
  - intros [H1 [H2 ->]]. destruct (Rle_dec a (2/10)), (Rle_dec (8/10) a), (Rle_dec b (2/10)), (Rle_dec (8/10) b); intuition lra.
Qed.
Theorem C65_disc : forall eta, 1/4 <= eta <= 1 -> forall p, domain (cmds_disc eta) p <-> box2 0 1 0 1 p.
Proof.
  intros eta He [[a b] c]. unfold cmds_disc, box2. opened. decimals. split.
  - intro H. intuition lra.
  - intros [H1 [H2 ->]]. destruct (Rle_dec a (1/10)), (Rle_dec (9/10) a), (Rle_dec b (1/4)), (Rle_dec b eta); intuition lra.
Qed.
Theorem C65_bottom : forall eta, 1/4 <= eta <= 1 -> forall p, domain (cmds_bottom eta) p <-> box2 0 1 0 1 p.
Proof.
  intros eta He [[a b] c]. unfold cmds_bottom, box2. opened. decimals. split.
  - intro H. intuition lra.
  - intros [H1 [H2 ->]]. destruct (Rle_dec a (1/4)), (Rle_dec (3/4) a), (Rle_dec b (1/4)), (Rle_dec b eta); intuition lra.
Qed.
Theorem C65_3d : forall p, domain cmds_3d p <-> let '(a, b, c) := p in 0 <= a <= 1 /\ 0 <= b <= 1 /\ 0 <= c <= 1.
Proof.
  intros [[a b] c]. unfold cmds_3d. opened. decimals. split.
  - intro H. intuition lra.
  - intros [H1 [H2 H3]]. destruct (Rle_dec a (2/10)), (Rle_dec (8/10) a), (Rle_dec b (2/10)), (Rle_dec (8/10) b), (Rle_dec c (2/10)), (Rle_dec (8/10) c); intuition lra.
Qed.
(** the inclusion geometries live on [-1.5, 1.5]^2 *)
Theorem C65_inclusion : forall auto_tag p, domain (cmds_inclusion auto_tag) p <-> box2 (-1.5) 1.5 (-1.5) 1.5 p.
Proof.
  intros auto_tag [[a b] c]. unfold cmds_inclusion, box2. cbv zeta. cbn [app]. opened. decimals.
  assert (D : ((a - 0) / 1) ^ 2 + ((b - 0) / 1) ^ 2 <= 1 -> -1 <= a <= 1 /\ -1 <= b <= 1).
  { intro K. replace (((a - 0) / 1) ^ 2 + ((b - 0) / 1) ^ 2) with (a * a + b * b) in K by field.
    pose proof (Rle_0_sqr a). pose proof (Rle_0_sqr b). unfold Rsqr in *. split; split; nra. }
  split.
  - intro H. intuition lra.
  - clear D. intros [H1 [H2 ->]]. destruct (Rle_dec a (-5/4)), (Rle_dec (5/4) a), (Rle_dec b (-5/4)); intuition lra.
Qed.
(** get_mesh_inclusion_square with eta = 1.5, and with eta < 1.5 if the target
    rectangle fills the rectangle cut out ([-1.25, 1.25] x [-1.25, eta - 0.1]) *)
Theorem C65_square_full : forall auto_tag x_l x_r y_l y_r p, -1.5 <= x_l <= 1.5 -> -1.5 <= x_r <= 1.5 -> -1.5 <= y_l <= 1.5 -> -1.5 <= y_r <= 1.5 ->
  domain (cmds_square auto_tag x_l x_r y_l y_r 1.5) p <-> box2 (-1.5) 1.5 (-1.5) 1.5 p.
Proof.
  intros auto_tag x_l x_r y_l y_r [[a b] c] A1 A2 A3 A4. unfold cmds_square, box2. destruct (Rlt_dec 1.5 1.5) as [K|_]; [exfalso; lra|].
  cbv zeta. cbn [app]. opened. revert A1 A2 A3 A4. decimals. intros A1 A2 A3 A4. split.
  - intro H. intuition lra.
  - clear A1 A2 A3 A4. intros [H1 [H2 ->]]. destruct (Rle_dec a (-5/4)), (Rle_dec (5/4) a), (Rle_dec b (-5/4)); intuition lra.
Qed.
Theorem C65_square_fill : forall auto_tag x_l x_r y_l y_r eta p, -1.5 <= x_l <= -1.25 -> 1.25 <= x_r <= 1.5 -> -1.5 <= y_l <= -1.25 -> 0 <= y_r <= 1.5 ->
  0 <= eta < 1.5 -> domain (cmds_square auto_tag x_l x_r y_l y_r eta) p <-> box2 (-1.5) 1.5 (-1.5) 1.5 p.
Proof.
  intros auto_tag x_l x_r y_l y_r eta [[a b] c] A1 A2 A3 A4 A5. unfold cmds_square, box2. destruct (Rlt_dec eta 1.5) as [_|K]; [|exfalso; lra].
  cbv zeta. cbn [app]. opened. revert A1 A2 A3 A4 A5. decimals. intros A1 A2 A3 A4 A5. split.
  - intro H. intuition lra.
  - intros [H1 [H2 ->]]. destruct (Rle_dec b eta); [|intuition lra].
    destruct (Rle_dec a (-5/4)); [left; split; [left; lra|intuition lra]|]. destruct (Rle_dec (5/4) a); [left; split; [left; lra|intuition lra]|].
    destruct (Rle_dec b (-5/4)); [left; split; [left; lra|intuition lra]|]. right. left. lra.
Qed.
(** a narrower target leaves a hole *)
Theorem C65_refuted : forall auto_tag x_l x_r y_l y_r eta, -1.25 < x_l < 1.25 -> x_l <= x_r -> 0.85 < eta < 1.5 ->
  exists p, box2 (-1.5) 1.5 (-1.5) 1.5 p /\ ~ domain (cmds_square auto_tag x_l x_r y_l y_r eta) p.
Proof.
  intros auto_tag x_l x_r y_l y_r eta A1 A2 A3. exists ((x_l - 1.25) / 2, (0.65 + eta) / 2, 0). split.
  - unfold box2. revert A1 A2 A3. decimals. intros. lra.
  - unfold cmds_square. destruct (Rlt_dec eta 1.5) as [_|K]; [|exfalso; lra].
    cbv zeta. cbn [app]. opened. revert A1 A2 A3. decimals. intros A1 A2 A3 H. intuition lra.
Qed.
(** with the default arguments one of the rectangles has height zero *)
Theorem C65_square_degenerate : forall auto_tag, exists t,
  In (Rect (-1.25) 1.25 0 (1.25 - -1.25) (1.25 - 1.25) t) (cmds_square auto_tag (-1.25) 1.25 (-1.25) 1.25 1.25).
Proof.
  intro auto_tag. unfold cmds_square. destruct (Rlt_dec 1.25 1.5) as [_|K]; [|exfalso; apply K; decimals; lra].
  cbv zeta. cbn [app]. eexists. do 4 right. left. reflexivity.
Qed.

(** * C66: the mesh of the 2D driver *)
(** the point set of the entity with the given number *)
Definition piece (cs : list geo) (t : Z) (p : pt) : Prop := Exists (fun s => snd (fst s) = t /\ s_cl (snd s) p) (denote cs).
(** On the unit square the indicator is 1 exactly on the frame that stays after the inner
    square has been cut out, which the mesh resolves. *)
Theorem C66_frame : forall a b, 0 <= a <= 1 -> 0 <= b <= 1 -> exists v, omega_ind_convex_2d [[a; b]] = Ok [v] /\
  (piece cmds_around 3 (a, b, 0) <-> v = 1) /\ (~ piece cmds_around 3 (a, b, 0) <-> v = 0).
Proof.
  intros a b Ha Hb. destruct (C53_2d [[a; b]]) as [v [Hv [HL HC]]]. destruct v as [|v [|w l]]; try discriminate HL.
  exists v. split; [exact Hv|]. destruct (HC 0%nat ltac:(cbn; lia)) as [C1 C2]. cbn [nth] in C1, C2.
  assert (K : piece cmds_around 3 (a, b, 0) <-> a <= 1/5 \/ 4/5 <= a \/ b <= 1/5 \/ 4/5 <= b).
  { unfold piece, cmds_around. opened. decimals. split.
    - intro H. destruct H as [[_ [_ H]]|[[H _]|[]]]; [|discriminate H]. destruct (Rle_dec a (1/5)); [lra|]. destruct (Rle_dec (4/5) a); [lra|].
      destruct (Rle_dec b (1/5)); [lra|]. destruct (Rle_dec (4/5) b); [lra|]. exfalso. apply H. left. lra.
    - intro H. left. split; [reflexivity|]. split; [left; lra|]. intro N. intuition lra. }
  assert (D : (a <= 1/5 \/ 4/5 <= a \/ b <= 1/5 \/ 4/5 <= b) \/ ~ (a <= 1/5 \/ 4/5 <= a \/ b <= 1/5 \/ 4/5 <= b)) by lra.
  rewrite K. split; destruct D as [D|D]; (split; [intro; try (apply C1; exact D); try (apply C2; exact D); try contradiction|]).
  - intro. exact D.
  - intro E. rewrite (C2 D) in E. lra.
  - intro E. rewrite (C1 D) in E. lra.
  - intro. exact D.
Qed.
(** REF_LVL_TO_N (solve_2d.py:60) and the meshes get_mesh_data_all_around(5): for every
    refinement level both lists have an entry, with 2^level slabs and the mesh refined
    level times *)
Theorem C66_levels : forall entities com msh_file build refine v07 rank remote h s, g_open s = false ->
  (rank <> 0%nat -> remote = Some (prune_z (file_around entities com msh_file h))) ->
  exists ms s', get_mesh_data_all_around entities com msh_file build refine v07 rank remote 5 h s = (Ok ms, s') /\
  forall lvl, (lvl < 6)%nat -> nth_error REF_LVL_TO_N lvl = Some (2 ^ lvl)%nat /\
    nth_error ms lvl = Some (Nat.iter lvl (fun m => refine m (right_edges m)) (mesh_of build (file_around entities com msh_file h))).
Proof.
  intros entities com msh_file build refine v07 rank remote h s HO HR.
  destruct (C56_partial entities com msh_file build refine rank remote 5 h s HO) as [_ [_ [_ H]]].
  destruct (H v07 HR) as [ms [s' [E [EL [E0 EI]]]]]. exists ms, s'. split; [exact E|]. intros lvl Hl. split.
  - do 6 (destruct lvl as [|lvl]; [reflexivity|]). lia.
  - rewrite (nth_error_nth' ms d0) by lia. f_equal. clear E. induction lvl as [|lvl IH]; [exact E0|].
    rewrite EI by lia. rewrite IH by lia. reflexivity.
Qed.
Print Assumptions C65_convex. Print Assumptions C65_nonconvex. Print Assumptions C65_around. Print Assumptions C65_disc. Print Assumptions C65_bottom. Print Assumptions C65_3d.
Print Assumptions C65_inclusion. Print Assumptions C65_square_full. Print Assumptions C65_square_fill. Print Assumptions C65_refuted. Print Assumptions C65_square_degenerate.
Print Assumptions C66_frame. Print Assumptions C66_levels.
