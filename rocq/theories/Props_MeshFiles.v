(** Props_MeshFiles.v -- C105: the conversion of mesh.msh to mesh.xdmf and mt.xdmf. *)
From Coq Require Import Reals List ZArith Bool String Lia Lra.
From Verif Require Import Base MeshModel MeshFiles Props_Mesh.
Import ListNotations.
Open Scope string_scope.

(** a file as meshio returns it: one array per block, one entry per cell *)
Definition consistent (f : mshfile) (ds : list (list Z)) : Prop :=
  f_data f "gmsh:physical" = Some ds /\
  Forall2 (fun b d => List.length (snd b) = List.length d) (f_blocks f) ds.
Definition has_type (f : mshfile) (ct : string) : Prop := exists cells, In (ct, cells) (f_blocks f).
(** the cells of a type with their markers, in the order of the file *)
Definition tagged (f : mshfile) (ds : list (list Z)) (ct : string) : list (list nat * Z) :=
  flat_map (fun p => if String.eqb (fst (fst p)) ct then combine (snd (fst p)) (snd p) else []) (combine (f_blocks f) ds).

Lemma selected_none (bs : list (string * list (list nat))) (ds : list (list Z)) ct : List.length bs = List.length ds ->
  (filter (fun p => String.eqb (fst (fst p)) ct) (combine bs ds) = [] <-> ~ exists cells, In (ct, cells) bs).
Proof.
  revert ds. induction bs as [|[t c] bs IH]; intros [|d ds] L; try discriminate L.
  - split; [intros _ [x []]|reflexivity].
  - cbn [combine filter fst]. injection L as L. specialize (IH ds L). destruct (String.eqb_spec t ct) as [->|N].
    + split; [discriminate|]. intro H. exfalso. apply H. exists c. left. reflexivity.
    + rewrite IH. split; intros H [x Hx]; apply H.
      * destruct Hx as [E|Hx]; [injection E as -> _; contradiction|]. exists x. exact Hx.
      * exists x. right. exact Hx.
Qed.
Lemma selected_data (bs : list (string * list (list nat))) (ds : list (list Z)) ct :
  Forall2 (fun b d => List.length (snd b) = List.length d) bs ds ->
  let cells := flat_map (fun b => if String.eqb (fst b) ct then snd b else []) bs in
  let data := flat_map snd (filter (fun p => String.eqb (fst (fst p)) ct) (combine bs ds)) in
  List.length data = List.length cells /\
  combine cells data = flat_map (fun p => if String.eqb (fst (fst p)) ct then combine (snd (fst p)) (snd p) else []) (combine bs ds).
Proof.
  induction 1 as [|[t c] d bs ds E _ [IH1 IH2]]; [split; reflexivity|].
  cbn [snd] in E. cbn [combine flat_map filter fst snd]. destruct (String.eqb t ct); [|split; assumption].
  cbn [flat_map snd]. split; [rewrite !app_length, IH1, E; reflexivity|].
  rewrite <- IH2. clear IH1 IH2. revert d E. induction c as [|x c IH]; intros [|y d] E; try discriminate E; [reflexivity|].
  cbn [app combine]. f_equal. apply IH. injection E as E. exact E.
Qed.
Lemma consistent_length f ds : consistent f ds -> List.length (f_blocks f) = List.length ds.
Proof. intros [_ H]. induction H; cbn; congruence. Qed.

(** create_mesh succeeds exactly if the file has a block of the type; the result has the
    points of the file, all cells of the type in order, each with its own marker. *)
Theorem C105_create : forall f ds ct prune, consistent f ds ->
  (has_type f ct -> exists x, create_mesh_file f ct prune = Ok x /\ x_type x = ct /\
     x_points x = (if prune then map (firstn 2) (f_points f) else f_points f) /\
     List.length (x_data x) = List.length (x_cells x) /\ combine (x_cells x) (x_data x) = tagged f ds ct) /\
  (~ has_type f ct -> create_mesh_file f ct prune = Err ValueError).
Proof.
  intros f ds ct prune HC. pose proof HC as [HD HF]. unfold create_mesh_file, get_cell_data. cbv zeta. rewrite HD.
  pose proof (selected_none (f_blocks f) ds ct (consistent_length f ds HC)) as HN.
  pose proof (selected_data (f_blocks f) ds ct HF) as HS. cbv zeta in HS. destruct HS as [HL HCo].
  split; intro HT.
  - destruct (filter (fun p => fst (fst p) =? ct) (combine (f_blocks f) ds)) as [|p l] eqn:E; [exfalso; apply (proj1 HN eq_refl); exact HT|].
    cbn [rbind]. unfold meshio_mesh, get_cells_type. rewrite HL, Nat.eqb_refl. eexists. split; [reflexivity|]. cbn.
    split; [reflexivity|]. split; [reflexivity|]. split; [exact HL|exact HCo].
  - apply HN in HT. rewrite HT. reflexivity.
Qed.
(** without physical groups there is no such data *)
Theorem C105_no_groups : forall f ct prune, f_data f "gmsh:physical" = None -> create_mesh_file f ct prune = Err KeyError.
Proof. intros f ct prune H. unfold create_mesh_file, get_cell_data. rewrite H. reflexivity. Qed.

Lemma cells_kept f ct prune x : create_mesh_file f ct prune = Ok x -> x_cells x = get_cells_type f ct.
Proof.
  intro E. unfold create_mesh_file in E. destruct (get_cell_data f "gmsh:physical" ct); [|discriminate E]. cbn [rbind] in E.
  unfold meshio_mesh in E. destruct (Nat.eqb _ _) in E; [|discriminate E]. injection E as <-. reflexivity.
Qed.

Lemma convert_run f a b : convert (mkFiles (Some f) a b) =
  match create_mesh_file f "triangle" true with
  | Err e => (Err e, mkFiles (Some f) a b)
  | Ok x => match create_mesh_file f "line" true with Err e => (Err e, mkFiles (Some f) a b) | Ok y => (Ok tt, mkFiles (Some f) (Some x) (Some y)) end
  end.
Proof.
  unfold convert, bind, get, need, lift, modify, ret. cbn. destruct (create_mesh_file f "triangle" true); [|reflexivity].
  destruct (create_mesh_file f "line" true); reflexivity.
Qed.
Lemma bind_done {S A B} (m : M S A) (f : A -> M S B) s a s' : m s = (Ok a, s') -> bind m f s = f a s'.
Proof. intro E. unfold bind. rewrite E. reflexivity. Qed.
(** Both files or none are written: they have the same points, so a line and a triangle
    name a vertex by the same number; if there are no triangles or no lines, the files of
    an earlier run stay. *)
Theorem C105_files : forall f ds a b, consistent f ds ->
  (has_type f "triangle" /\ has_type f "line" ->
     exists x y, convert (mkFiles (Some f) a b) = (Ok tt, mkFiles (Some f) (Some x) (Some y)) /\
       x_points x = map (firstn 2) (f_points f) /\ x_points y = x_points x /\
       x_type x = "triangle" /\ x_type y = "line" /\
       x_cells x = get_cells_type f "triangle" /\
       combine (x_cells x) (x_data x) = tagged f ds "triangle" /\ combine (x_cells y) (x_data y) = tagged f ds "line" /\
       List.length (x_data x) = List.length (x_cells x) /\ List.length (x_data y) = List.length (x_cells y)) /\
  (~ (has_type f "triangle" /\ has_type f "line") -> convert (mkFiles (Some f) a b) = (Err ValueError, mkFiles (Some f) a b)).
Proof.
  intros f ds a b HC. destruct (C105_create f ds "triangle" true HC) as [T1 T0]. destruct (C105_create f ds "line" true HC) as [L1 L0].
  assert (DT : forall ct, has_type f ct \/ ~ has_type f ct).
  { intro ct. destruct (in_dec string_dec ct (map fst (f_blocks f))) as [H|H]; [left|right].
    - apply in_map_iff in H. destruct H as [[t c] [E H]]. cbn in E. subst t. exists c. exact H.
    - intros [c Hc]. apply H. apply in_map_iff. exists (ct, c). split; [reflexivity|exact Hc]. }
  rewrite convert_run. split.
  - intros [HT HL]. destruct (T1 HT) as [x [EX [X1 [X2 [X3 X4]]]]]. destruct (L1 HL) as [y [EY [Y1 [Y2 [Y3 Y4]]]]].
    rewrite EX, EY. exists x, y. cbn. split; [reflexivity|]. split; [exact X2|]. split; [congruence|]. split; [exact X1|]. split; [exact Y1|].
    split; [exact (cells_kept _ _ _ _ EX)|]. split; [exact X4|]. split; [exact Y4|]. split; [exact X3|exact Y3].
  - intro HN. destruct (DT "triangle") as [HT|HT].
    + destruct (T1 HT) as [x [-> _]]. cbn. rewrite L0; [reflexivity|]. intro K. apply HN. split; assumption.
    + rewrite T0 by exact HT. reflexivity.
Qed.

(** The whole step: with triangles and lines it does what through_xdmf of MeshModel.v does
    with the same file, on every rank that sees the files of rank 0; without lines rank 0
    fails although the mesh itself could be read. *)
Definition summary (f : mshfile) (ds : list (list Z)) : mio :=
  mkMio (f_points f) (get_cells_type f) (fun ct => map snd (tagged f ds ct)).
Definition final (r : res mesh * files) : res mesh * (option xfile * option xfile) := (fst r, (w_mesh (snd r), w_mt (snd r))).
Theorem C105_through : forall build f ds a b s, consistent f ds -> g_msh s = Some (summary f ds) ->
  has_type f "triangle" -> has_type f "line" ->
  exists x y, final (through_files build 0 (None, None) (mkFiles (Some f) a b)) = (Ok (mesh_of build (summary f ds)), (Some x, Some y)) /\
    fst (through_xdmf build 0 None s) = Ok (mesh_of build (summary f ds)) /\
    (forall rank s0, rank <> 0%nat -> through_files build rank (Some x, Some y) s0 = (Ok (mesh_of build (summary f ds)), s0)) /\
    combine (x_cells x) (x_data x) = tagged f ds "triangle" /\ combine (x_cells y) (x_data y) = tagged f ds "line" /\ x_points y = x_points x.
Proof.
  intros build f ds a b s HC HS HT HL. destruct (proj1 (C105_files f ds a b HC) (conj HT HL)) as [x [y [E [X1 [X2 [_ [_ [X3 [X4 [Y4 _]]]]]]]]]].
  exists x, y. split; [|split; [|split; [|split; [exact X4|split; [exact Y4|exact X2]]]]].
  - unfold through_files, final. cbn [Nat.eqb]. erewrite bind_done by exact E. unfold read_files, bind, get, need, ret. cbn.
    unfold mesh_of, summary. cbn. rewrite X1, X3. reflexivity.
  - unfold through_xdmf, bind, get, need, modify, ret. cbn. rewrite HS. reflexivity.
  - intros [|r] s0 HR; [contradiction|]. unfold through_files, read_files, bind, get, need, ret. cbn. unfold mesh_of, summary. cbn. rewrite X1, X3. reflexivity.
Qed.
Theorem C105_no_lines : forall build f ds a b far s, consistent f ds -> ~ has_type f "line" -> g_msh s = Some (summary f ds) ->
  through_files build 0 far (mkFiles (Some f) a b) = (Err ValueError, mkFiles (Some f) a b) /\
  fst (through_xdmf build 0 None s) = Ok (mesh_of build (summary f ds)).
Proof.
  intros build f ds a b far s HC HL HS. split.
  - unfold through_files. cbn [Nat.eqb]. unfold bind. rewrite (proj2 (C105_files f ds a b HC)) by (intros [_ K]; contradiction). reflexivity.
  - unfold through_xdmf, bind, get, need, modify, ret. cbn. rewrite HS. reflexivity.
Qed.

(** For any file at all, what create_mesh returns has one marker per cell. *)
Theorem C105_lengths : forall f ct prune x, create_mesh_file f ct prune = Ok x -> List.length (x_data x) = List.length (x_cells x).
Proof.
  intros f ct prune x E. unfold create_mesh_file in E. destruct (get_cell_data f "gmsh:physical" ct); [|discriminate E]. cbn [rbind] in E.
  unfold meshio_mesh in E. destruct (Nat.eqb _ _) eqn:L in E; [|discriminate E]. injection E as <-. apply Nat.eqb_eq, L.
Qed.
(** a file with two lines and one marker is refused *)
Theorem C105_lengths_nonvacuous : create_mesh_file (mkMsh [] [("line", [[0; 1]; [1; 2]]%nat)] (fun _ => Some [[1%Z]])) "line" true = Err ValueError.
Proof. reflexivity. Qed.
(** A rank that finds only one of the two files fails. *)
Theorem C105_both_needed : forall build rank s x y, rank <> 0%nat ->
  through_files build rank (Some x, None) s = (Err RuntimeError, s) /\ through_files build rank (None, Some y) s = (Err RuntimeError, s) /\
  fst (through_files build 0 (Some x, Some y) (mkFiles None (Some x) (Some y))) = Err RuntimeError.
Proof. intros build [|r] s x y H; [contradiction|]. repeat split; reflexivity. Qed.

(** ** markers *)
(** gmsh saves the elements of the entities of the physical groups, with the group's tag
    (one block per entity): what is assumed about the file *)
Definition dim_of (ct : string) : nat := if ct =? "triangle" then 2 else if ct =? "line" then 1 else 0.
Definition saved (f : mshfile) (ds : list (list Z)) (grs : list group) : Prop :=
  consistent f ds /\ forall ct cells d, In ((ct, cells), d) (combine (f_blocks f) ds) ->
    exists g m, In g grs /\ gr_dim g = dim_of ct /\ gr_marker g = Some m /\ List.Forall (eq m) d.
Lemma tagged_marker f ds grs ct c m : saved f ds grs -> In (c, m) (tagged f ds ct) ->
  exists g, In g grs /\ gr_dim g = dim_of ct /\ gr_marker g = Some m.
Proof.
  intros [_ H] K. unfold tagged in K. apply in_flat_map in K. destruct K as [[[t cells] d] [K1 K2]]. cbn [fst snd] in K2.
  destruct (String.eqb_spec t ct) as [->|N]; [|destruct K2].
  destruct (H _ _ _ K1) as [g [m' [H1 [H2 [H3 H4]]]]]. exists g. split; [exact H1|]. split; [exact H2|].
  apply in_combine_r in K2. rewrite Forall_forall in H4. rewrite (H4 _ K2) in H3. exact H3.
Qed.
Lemma in_numbered l : forall k g, In g (numbered k l) -> gr_dim g = 2%nat /\ exists m, gr_marker g = Some m /\ (k <= m < k + Z.of_nat (List.length l))%Z.
Proof.
  induction l as [|t l IH]; intros k g H; [destruct H|]. cbn [numbered] in H. destruct H as [<-|H].
  - split; [reflexivity|]. exists k. split; [reflexivity|]. cbn [List.length]. lia.
  - destruct (IH _ _ H) as [H1 [m [H2 H3]]]. split; [exact H1|]. exists m. split; [exact H2|]. cbn [List.length]. lia.
Qed.
(** In mt.xdmf every line has the marker 1 of the boundary; in mesh.xdmf the markers of the
    triangles are those of the three regions, or the numbers of the surfaces. *)
Theorem C105_markers : forall entities com f ds c m eta,
  ((saved f ds (groups_convex entities com) \/ saved f ds (groups_nonconvex entities com) \/
    saved f ds (groups_plain entities com (cmds_disc eta)) \/ saved f ds (groups_plain entities com cmds_around)) ->
   In (c, m) (tagged f ds "line") -> m = 1%Z) /\
  ((saved f ds (groups_convex entities com) \/ saved f ds (groups_nonconvex entities com)) ->
   In (c, m) (tagged f ds "triangle") -> m = 1%Z \/ m = 2%Z \/ m = 3%Z) /\
  (forall g, saved f ds (groups_plain entities com g) -> In (c, m) (tagged f ds "triangle") ->
   (1 <= m <= Z.of_nat (List.length (entities g 2%nat)))%Z).
Proof.
  intros entities com f ds c m eta.
  assert (C : forall g c1 c2 m1 m2 m3 gr, In gr (centred entities com g c1 c2 m1 m2 m3) ->
    gr_dim gr = 2%nat /\ (gr_marker gr = Some m1 \/ gr_marker gr = Some m2 \/ gr_marker gr = Some m3)).
  { intros g c1 c2 m1 m2 m3 gr H. unfold centred in H. apply in_map_iff in H. destruct H as [t [<- _]]. split; [reflexivity|]. cbn.
    destruct (allclose _ c1); [tauto|]. destruct (allclose _ c2); tauto. }
  assert (P : forall g gr, In gr (groups_plain entities com g) -> gr_dim gr = 1%nat -> gr_marker gr = Some 1%Z).
  { intros g gr H D. unfold groups_plain in H. apply in_app_or in H. destruct H as [H|[<-|[]]]; [|reflexivity].
    apply in_numbered in H. destruct H as [H _]. congruence. }
  split; [|split].
  - intros HS HI. change (dim_of "line") with 1%nat in *.
    destruct HS as [HS|[HS|[HS|HS]]]; destruct (tagged_marker _ _ _ _ _ _ HS HI) as [gr [H1 [H2 H3]]]; cbn in H2.
    + unfold groups_convex in H1. apply in_app_or in H1. destruct H1 as [H1|[<-|[]]]; [apply C in H1; destruct H1; congruence|cbn in H3; congruence].
    + unfold groups_nonconvex in H1. apply in_app_or in H1. destruct H1 as [H1|[<-|[]]]; [apply C in H1; destruct H1; congruence|cbn in H3; congruence].
    + rewrite (P _ _ H1 H2) in H3. congruence.
    + rewrite (P _ _ H1 H2) in H3. congruence.
  - intros HS HI. destruct HS as [HS|HS]; destruct (tagged_marker _ _ _ _ _ _ HS HI) as [gr [H1 [H2 H3]]]; cbn in H2.
    + unfold groups_convex in H1. apply in_app_or in H1. destruct H1 as [H1|[<-|[]]]; [|discriminate H2].
      apply C in H1. destruct H1 as [_ H1]. intuition congruence.
    + unfold groups_nonconvex in H1. apply in_app_or in H1. destruct H1 as [H1|[<-|[]]]; [|discriminate H2].
      apply C in H1. destruct H1 as [_ H1]. intuition congruence.
  - intros g HS HI. destruct (tagged_marker _ _ _ _ _ _ HS HI) as [gr [H1 [H2 H3]]]. cbn in H2.
    unfold groups_plain in H1. apply in_app_or in H1. destruct H1 as [H1|[<-|[]]]; [|discriminate H2].
    apply in_numbered in H1. destruct H1 as [_ [k [Ek Hk]]]. rewrite H3 in Ek. injection Ek as <-. lia.
Qed.

(** ** a file with two triangles on two surfaces and a boundary line *)
Definition ex_f : mshfile := mkMsh [[0; 0; 0]; [1; 0; 0]; [0; 1; 0]; [1; 1; 0]]%R
  [("line", [[0; 1]]%nat); ("triangle", [[0; 1; 2]]%nat); ("triangle", [[1; 3; 2]]%nat)]
  (fun n => if n =? "gmsh:physical" then Some [[1]; [1]; [2]]%Z else None).
Definition ex_e : list geo -> nat -> list Z := fun _ d => if Nat.eqb d 2 then [1; 2]%Z else [5]%Z.
Theorem C105_nonvacuous : saved ex_f [[1]; [1]; [2]]%Z (groups_plain ex_e (fun _ _ => [1/2; 0; 0]%R) cmds_around) /\
  has_type ex_f "triangle" /\ has_type ex_f "line" /\ ~ has_type ex_f "tetra" /\
  tagged ex_f [[1]; [1]; [2]]%Z "triangle" = [([0; 1; 2]%nat, 1%Z); ([1; 3; 2]%nat, 2%Z)].
Proof.
  split; [|split; [|split; [|split; [|reflexivity]]]].
  - split; [split; [reflexivity|repeat constructor]|]. intros ct cells d H. cbn in H.
    destruct H as [E|[E|[E|[]]]]; injection E as <- <- <-.
    + exists (outline ex_e (fun _ _ => [1/2; 0; 0]%R) cmds_around), 1%Z. split; [right; right; left; reflexivity|]. repeat constructor.
    + exists (mkGroup 2 [1%Z] (Some 1%Z)), 1%Z. split; [left; reflexivity|]. repeat constructor.
    + exists (mkGroup 2 [2%Z] (Some 2%Z)), 2%Z. split; [right; left; reflexivity|]. repeat constructor.
  - exists [[0; 1; 2]]%nat. right. left. reflexivity.
  - exists [[0; 1]]%nat. left. reflexivity.
  - intros [c H]. cbn in H. destruct H as [E|[E|[E|[]]]]; discriminate E.
Qed.
Print Assumptions C105_through.
Print Assumptions C105_markers.
