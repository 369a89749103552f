(** Props_Regions.v -- the surfaces, lines and cells of the plane geometries of meshes.py. *)
From Coq Require Import Reals List ZArith Lra Lia Bool String Sorting.Sorted.
From Coquelicot Require Import Coquelicot.
From Verif Require Import QuadProofs Base MeshModel DriverModel Props_Driver Props_Mesh Props_Geometry.
Import ListNotations.
Open Scope R_scope.

(** * Surfaces *)
(** A fragment splits its faces along their boundaries.  The points of the plane that lie
    inside some faces and off the others, the same for all of them, make one surface. *)
Fixpoint fits_pattern (fs : list solid) (pat : list bool) (p : pt) : Prop :=
  match fs, pat with
  | [], [] => True
  | f :: fs, b :: pat => (if b then s_in f p else ~ s_cl f p) /\ fits_pattern fs pat p
  | _, _ => False
  end.
Definition surface (cs : list geo) (pat : list bool) (x y : R) : Prop :=
  In true pat /\ fits_pattern (map snd (denote cs)) pat (x, y, 0).

Ltac shown := unfold surface, denote;
  cbn [fold_left denote1 app filter map existsb ent_eqb fst snd Nat.eqb Z.eqb Pos.eqb andb orb negb fits_pattern s_cl s_in];
  repeat setoid_rewrite ex_cons; repeat setoid_rewrite ex_nil; cbn [s_cl s_in]; unfold btw, sbtw.

(** the surfaces of the convex geometry: omega, B without omega, the rest *)
Definition in_rect (x0 x1 y0 y1 x y : R) : Prop := x0 < x < x1 /\ y0 < y < y1.
Definition off_rect (x0 x1 y0 y1 x y : R) : Prop := x < x0 \/ x1 < x \/ y < y0 \/ y1 < y.
Definition convex_surfaces : list (list bool) := [[true; false; false]; [false; true; false]; [false; false; true]].
Definition nonconvex_surfaces : list (list bool) := [[true; true; true]; [false; true; true]; [false; false; true]].
Definition around_surfaces : list (list bool) := [[true; false]; [false; true]].

Lemma pat3 (pat : list bool) : List.length pat = 3%nat -> exists a b c, pat = [a; b; c].
Proof. destruct pat as [|a [|b [|c [|]]]]; try discriminate. intros _. exists a, b, c. reflexivity. Qed.
Lemma fits_length fs : forall pat p, fits_pattern fs pat p -> List.length pat = List.length fs.
Proof. induction fs as [|f fs IH]; intros [|b pat] p H; cbn in *; try contradiction; [reflexivity|]. f_equal. exact (IH pat p (proj2 H)). Qed.

Theorem C99_convex : forall pat x y, surface cmds_convex pat x y <->
  (pat = [true; false; false] /\ in_rect 0 1 0 1 x y /\ off_rect (1/10) (9/10) (1/4) 1 x y) \/
  (pat = [false; true; false] /\ in_rect (1/10) (9/10) (1/4) (19/20) x y) \/
  (pat = [false; false; true] /\ in_rect (1/10) (9/10) (19/20) 1 x y).
Proof.
  intros pat x y. unfold in_rect, off_rect. split.
  - intro H. destruct (pat3 pat) as [a [b [c ->]]]; [rewrite (fits_length _ _ _ (proj2 H)); reflexivity|].
    revert H. unfold cmds_convex. destruct a, b, c; shown; decimals; intros [HT H].
    + exfalso. intuition lra.
    + exfalso. destruct H as [[_ H2] [H3 _]]. apply H2. left. lra.
    + exfalso. destruct H as [[_ H2] [_ [H3 _]]]. apply H2. left. lra.
    + left. split; [reflexivity|]. destruct H as [[[H1|[]] H2] [H3 [H4 _]]]. split; [lra|].
      destruct (Rlt_dec x (1/10)); [lra|]. destruct (Rlt_dec (9/10) x); [lra|]. destruct (Rlt_dec y (1/4)); [lra|]. destruct (Rlt_dec 1 y); [lra|].
      exfalso. apply H2. left. lra.
    + exfalso. intuition lra.
    + right. left. split; [reflexivity|]. intuition lra.
    + right. right. split; [reflexivity|]. intuition lra.
    + cbn in HT. intuition discriminate.
  - unfold cmds_convex. intros [[-> H]|[[-> H]|[-> H]]]; (split; [cbn; tauto|]); revert H; shown; decimals; intro H; intuition lra.
Qed.
Theorem C99_nonconvex : forall pat x y, surface cmds_nonconvex pat x y <->
  (pat = [true; true; true] /\ in_rect (1/4) (3/4) (1/20) (1/2) x y) \/
  (pat = [false; true; true] /\ in_rect (1/8) (7/8) (1/20) (19/20) x y /\ off_rect (1/4) (3/4) (1/20) (1/2) x y) \/
  (pat = [false; false; true] /\ in_rect 0 1 0 1 x y /\ off_rect (1/8) (7/8) (1/20) (19/20) x y).
Proof.
  intros pat x y. unfold in_rect, off_rect. split.
  - intro H. destruct (pat3 pat) as [a [b [c ->]]]; [rewrite (fits_length _ _ _ (proj2 H)); reflexivity|].
    revert H. unfold cmds_nonconvex. destruct a, b, c; shown; decimals; intros [HT H].
    + left. split; [reflexivity|]. intuition lra.
    + exfalso. destruct H as [_ [H1 [H2 _]]]. apply H2. lra.
    + exfalso. destruct H as [H1 [H2 _]]. apply H2. lra.
    + exfalso. destruct H as [H1 [H2 _]]. apply H2. lra.
    + right. left. split; [reflexivity|]. destruct H as [H1 [H2 [H3 _]]]. split; [lra|].
      destruct (Rlt_dec x (1/4)); [lra|]. destruct (Rlt_dec (3/4) x); [lra|]. destruct (Rlt_dec y (1/20)); [lra|]. destruct (Rlt_dec (1/2) y); [lra|].
      exfalso. apply H1. lra.
    + exfalso. destruct H as [_ [H1 [H2 _]]]. apply H2. lra.
    + right. right. split; [reflexivity|]. destruct H as [_ [H1 [H3 _]]]. split; [lra|].
      destruct (Rlt_dec x (1/8)); [lra|]. destruct (Rlt_dec (7/8) x); [lra|]. destruct (Rlt_dec y (1/20)); [lra|]. destruct (Rlt_dec (19/20) y); [lra|].
      exfalso. apply H1. lra.
    + cbn in HT. intuition discriminate.
  - unfold cmds_nonconvex. intros [[-> H]|[[-> H]|[-> H]]]; (split; [cbn; tauto|]); revert H; shown; decimals; intro H; intuition lra.
Qed.
Theorem C99_around : forall pat x y, surface cmds_around pat x y <->
  (pat = [true; false] /\ in_rect 0 1 0 1 x y /\ off_rect (1/5) (4/5) (1/5) (4/5) x y) \/
  (pat = [false; true] /\ in_rect (1/5) (4/5) (1/5) (4/5) x y).
Proof.
  intros pat x y. unfold in_rect, off_rect. split.
  - intro H. pose proof (fits_length _ _ _ (proj2 H)) as L. destruct pat as [|a [|b [|]]]; try discriminate L.
    revert H. unfold cmds_around. destruct a, b; shown; decimals; intros [HT H].
    + exfalso. destruct H as [[_ H2] [H3 _]]. apply H2. left. lra.
    + left. split; [reflexivity|]. destruct H as [[[H1|[]] H2] _]. split; [lra|].
      destruct (Rlt_dec x (1/5)); [lra|]. destruct (Rlt_dec (4/5) x); [lra|]. destruct (Rlt_dec y (1/5)); [lra|]. destruct (Rlt_dec (4/5) y); [lra|].
      exfalso. apply H2. left. lra.
    + right. split; [reflexivity|]. intuition lra.
    + cbn in HT. intuition discriminate.
  - unfold cmds_around. intros [[-> H]|[-> H]]; (split; [cbn; tauto|]); revert H; shown; decimals; intro H; intuition lra.
Qed.

(** every surface is connected: two of its points are joined by segments inside it *)
Inductive joined (S : R -> R -> Prop) : R -> R -> R -> R -> Prop :=
| joined_segment x y x' y' : (forall t, 0 <= t <= 1 -> S (x + t * (x' - x)) (y + t * (y' - y))) -> joined S x y x' y'
| joined_trans x y x' y' x'' y'' : joined S x y x' y' -> joined S x' y' x'' y'' -> joined S x y x'' y''.
Definition connected (S : R -> R -> Prop) : Prop := forall x y x' y', S x y -> S x' y' -> joined S x y x' y'.
Lemma joined_sym S x y x' y' : joined S x y x' y' -> joined S x' y' x y.
Proof.
  induction 1 as [x y x' y' H|x y x' y' x'' y'' _ IH1 _ IH2]; [|exact (joined_trans _ _ _ _ _ _ _ IH2 IH1)].
  apply joined_segment. intros t Ht. replace (x' + t * (x - x')) with (x + (1 - t) * (x' - x)) by ring. replace (y' + t * (y - y')) with (y + (1 - t) * (y' - y)) by ring.
  apply H. lra.
Qed.
Lemma between a b x x' t : a < x < b -> a < x' < b -> 0 <= t <= 1 -> a < x + t * (x' - x) < b.
Proof. intros. split; [apply Rlt_le_trans with (Rmin x x')|apply Rle_lt_trans with (Rmax x x')]; unfold Rmin, Rmax; destruct (Rle_dec x x'); nra. Qed.
Lemma rect_joined (S : R -> R -> Prop) a b c d x y x' y' : (forall x y, in_rect a b c d x y -> S x y) ->
  in_rect a b c d x y -> in_rect a b c d x' y' -> joined S x y x' y'.
Proof. intros HS [H1 H2] [H3 H4]. apply joined_segment. intros t Ht. apply HS. split; apply between; assumption. Qed.
Definition framed (x0 x1 y0 y1 a b c d x y : R) : Prop := in_rect x0 x1 y0 y1 x y /\ off_rect a b c d x y.
Lemma framed_connected x0 x1 y0 y1 a b c d : x0 < a < b -> b < x1 -> y0 <= c < d -> d <= y1 -> (y0 < c \/ d < y1) ->
  connected (framed x0 x1 y0 y1 a b c d).
Proof.
  intros Hx Hx1 Hy Hy1 HE.
  assert (L : forall x y, in_rect x0 a y0 y1 x y -> framed x0 x1 y0 y1 a b c d x y) by (unfold framed, in_rect, off_rect; intros; lra).
  assert (Rr : forall x y, in_rect b x1 y0 y1 x y -> framed x0 x1 y0 y1 a b c d x y) by (unfold framed, in_rect, off_rect; intros; lra).
  assert (B : forall x y, in_rect x0 x1 y0 c x y -> framed x0 x1 y0 y1 a b c d x y) by (unfold framed, in_rect, off_rect; intros; lra).
  assert (T : forall x y, in_rect x0 x1 d y1 x y -> framed x0 x1 y0 y1 a b c d x y) by (unfold framed, in_rect, off_rect; intros; lra).
  assert (H : exists h k, forall x y, framed x0 x1 y0 y1 a b c d x y -> joined (framed x0 x1 y0 y1 a b c d) x y h k).
  { destruct HE as [HE|HE].
    - exists ((x0 + a) / 2), ((y0 + c) / 2). intros x y [HI HO]. unfold in_rect, off_rect in HI, HO. destruct HO as [K|[K|[K|K]]].
      + apply (rect_joined _ _ _ _ _ _ _ _ _ L); unfold in_rect; lra.
      + apply joined_trans with ((b + x1) / 2) ((y0 + c) / 2); [apply (rect_joined _ _ _ _ _ _ _ _ _ Rr)|apply (rect_joined _ _ _ _ _ _ _ _ _ B)]; unfold in_rect; lra.
      + apply (rect_joined _ _ _ _ _ _ _ _ _ B); unfold in_rect; lra.
      + apply joined_trans with ((x0 + a) / 2) ((d + y1) / 2); [apply (rect_joined _ _ _ _ _ _ _ _ _ T)|apply (rect_joined _ _ _ _ _ _ _ _ _ L)]; unfold in_rect; lra.
    - exists ((x0 + a) / 2), ((d + y1) / 2). intros x y [HI HO]. unfold in_rect, off_rect in HI, HO. destruct HO as [K|[K|[K|K]]].
      + apply (rect_joined _ _ _ _ _ _ _ _ _ L); unfold in_rect; lra.
      + apply joined_trans with ((b + x1) / 2) ((d + y1) / 2); [apply (rect_joined _ _ _ _ _ _ _ _ _ Rr)|apply (rect_joined _ _ _ _ _ _ _ _ _ T)]; unfold in_rect; lra.
      + apply joined_trans with ((x0 + a) / 2) ((y0 + c) / 2); [apply (rect_joined _ _ _ _ _ _ _ _ _ B)|apply (rect_joined _ _ _ _ _ _ _ _ _ L)]; unfold in_rect; lra.
      + apply (rect_joined _ _ _ _ _ _ _ _ _ T); unfold in_rect; lra. }
  destruct H as [h [k H]]. intros x y x' y' P P'. apply joined_trans with h k; [exact (H x y P)|apply joined_sym, H, P'].
Qed.
Lemma rect_connected a b c d : connected (in_rect a b c d).
Proof. intros x y x' y' H H'. apply (rect_joined _ a b c d); auto. Qed.
Lemma joined_incl (S S' : R -> R -> Prop) x y x' y' : (forall x y, S x y -> S' x y) -> joined S x y x' y' -> joined S' x y x' y'.
Proof. intros H. induction 1 as [x y x' y' K|]; [apply joined_segment; intros t Ht; apply H, K, Ht|eapply joined_trans; eassumption]. Qed.
Lemma connected_iff (S S' : R -> R -> Prop) : (forall x y, S x y <-> S' x y) -> connected S -> connected S'.
Proof. intros H K x y x' y' P P'. apply (joined_incl S); [apply H|]. apply K; apply H; assumption. Qed.
Theorem C99_connected :
  (forall pat, In pat convex_surfaces -> connected (surface cmds_convex pat)) /\
  (forall pat, In pat nonconvex_surfaces -> connected (surface cmds_nonconvex pat)) /\
  (forall pat, In pat around_surfaces -> connected (surface cmds_around pat)).
Proof.
  split; [|split]; intros pat HP; cbn in HP.
  - destruct HP as [<-|[<-|[<-|[]]]].
    + apply (connected_iff (framed 0 1 0 1 (1/10) (9/10) (1/4) 1)); [|apply framed_connected; lra].
      intros x y. rewrite C99_convex. unfold framed. split; [intro; left; tauto|intros [[_ H]|[[H _]|[H _]]]; [exact H|discriminate|discriminate]].
    + apply (connected_iff (in_rect (1/10) (9/10) (1/4) (19/20))); [|apply rect_connected].
      intros x y. rewrite C99_convex. split; [intro; right; left; tauto|intros [[H _]|[[_ H]|[H _]]]; [discriminate|exact H|discriminate]].
    + apply (connected_iff (in_rect (1/10) (9/10) (19/20) 1)); [|apply rect_connected].
      intros x y. rewrite C99_convex. split; [intro; right; right; tauto|intros [[H _]|[[H _]|[_ H]]]; [discriminate|discriminate|exact H]].
  - destruct HP as [<-|[<-|[<-|[]]]].
    + apply (connected_iff (in_rect (1/4) (3/4) (1/20) (1/2))); [|apply rect_connected].
      intros x y. rewrite C99_nonconvex. split; [intro; left; tauto|intros [[_ H]|[[H _]|[H _]]]; [exact H|discriminate|discriminate]].
    + apply (connected_iff (framed (1/8) (7/8) (1/20) (19/20) (1/4) (3/4) (1/20) (1/2))); [|apply framed_connected; lra].
      intros x y. rewrite C99_nonconvex. unfold framed. split; [intro; right; left; tauto|intros [[H _]|[[_ H]|[H _]]]; [discriminate|exact H|discriminate]].
    + apply (connected_iff (framed 0 1 0 1 (1/8) (7/8) (1/20) (19/20))); [|apply framed_connected; lra].
      intros x y. rewrite C99_nonconvex. unfold framed. split; [intro; right; right; tauto|intros [[H _]|[[H _]|[_ H]]]; [discriminate|discriminate|exact H]].
  - destruct HP as [<-|[<-|[]]].
    + apply (connected_iff (framed 0 1 0 1 (1/5) (4/5) (1/5) (4/5))); [|apply framed_connected; lra].
      intros x y. rewrite C99_around. unfold framed. split; [intro; left; tauto|intros [[_ H]|[H _]]; [exact H|discriminate]].
    + apply (connected_iff (in_rect (1/5) (4/5) (1/5) (4/5))); [|apply rect_connected].
      intros x y. rewrite C99_around. split; [intro; right; tauto|intros [[H _]|[_ H]]; [discriminate|exact H]].
Qed.

(** * Centres of mass *)
(** the integral of f over the part of the unit square in S is I: first along x, then
    along y; finitely many lines may be left out *)
Definition mass (S : R -> R -> Prop) (f : R -> R -> R) (I : R) : Prop :=
  exists g, (forall x y, S x y -> g x y = f x y) /\ (forall x y, ~ S x y -> g x y = 0) /\
    (exists ys, forall y, 0 <= y <= 1 -> ~ In y ys -> ex_RInt (fun x => g x y) 0 1) /\
    is_RInt (fun y => RInt (fun x => g x y) 0 1) 0 1 I.
Definition balanced (S : R -> R -> Prop) (cx cy : R) : Prop :=
  exists A, 0 < A /\ mass S (fun _ _ => 1) A /\ mass S (fun x _ => x) (A * cx) /\ mass S (fun _ y => y) (A * cy).

Fixpoint pairs (a : R) (l : list R) : list (R * R) := match l with [] => [] | b :: l' => (a, b) :: pairs b l' end.
Fixpoint end_of (a : R) (l : list R) : R := match l with [] => a | b :: l' => end_of b l' end.
Definition total_of (v : R * R -> R) (l : list (R * R)) : R := fold_right (fun p acc => v p + acc) 0 l.
Lemma pairs_int (h : R -> R) (v : R * R -> R) l : forall a, (forall p, In p (pairs a l) -> is_RInt h (fst p) (snd p) (v p)) ->
  is_RInt h a (end_of a l) (total_of v (pairs a l)).
Proof.
  induction l as [|b l IH]; intros a H; cbn [pairs end_of total_of fold_right].
  - apply (is_RInt_point (V := R_NormedModule)).
  - apply (is_RInt_Chasles (V := R_NormedModule) h a b _ (v (a, b)) (total_of v (pairs b l))).
    + apply (H (a, b)). left. reflexivity.
    + apply IH. intros p Hp. apply H. right. exact Hp.
Qed.
Lemma pairs_le a l p : StronglySorted Rlt (a :: l) -> In p (pairs a l) -> fst p < snd p.
Proof.
  revert a. induction l as [|b l IH]; intros a HS Hp; [contradiction|]. inversion HS as [|? ? HS' HF]; subst. destruct Hp as [<-|Hp].
  - inversion HF; assumption.
  - exact (IH b HS' Hp).
Qed.
Lemma pairs_find a l y : a <= y <= end_of a l -> ~ In y (a :: l) -> exists p, In p (pairs a l) /\ fst p < y < snd p.
Proof.
  revert a. induction l as [|b l IH]; intros a Hy HN; cbn [end_of] in Hy.
  - exfalso. apply HN. left. lra.
  - destruct (Rlt_dec y b) as [K|K].
    + exists (a, b). split; [left; reflexivity|]. cbn. split; [|exact K]. destruct (Req_dec a y) as [->|N]; [exfalso; apply HN; left; reflexivity|lra].
    + destruct (IH b) as [p [Hp Hq]]; [lra|intro J; apply HN; right; exact J|]. exists p. split; [right; exact Hp|exact Hq].
Qed.
Definition affine (c0 c1 c2 x y : R) : R := c0 + c1 * x + c2 * y.
Lemma affine_row c0 c1 c2 y a b : is_RInt (fun x => affine c0 c1 c2 x y) a b ((b - a) * affine c0 c1 c2 ((a + b) / 2) y).
Proof.
  replace ((b - a) * affine c0 c1 c2 ((a + b) / 2) y) with (((c0 + c2 * y) * b + c1 * b ^ 2 / 2) - ((c0 + c2 * y) * a + c1 * a ^ 2 / 2)) by (unfold affine; field).
  apply (is_RInt_derive (V := R_CompleteNormedModule) (fun x => (c0 + c2 * y) * x + c1 * x ^ 2 / 2) (fun x => affine c0 c1 c2 x y)).
  - intros x _. unfold affine. auto_derive; [exact Logic.I|field].
  - intros x _. unfold affine. assert (E : forall t : R, (c0 + c2 * y) + c1 * t = c0 + c1 * t + c2 * y) by (intro; ring).
    apply (continuous_ext (T := R_UniformSpace) (U := R_UniformSpace) _ _ x E).
    apply (continuous_plus (V := R_NormedModule)); [apply continuous_const|]. apply (continuous_mult (K := R_AbsRing)); [apply continuous_const|apply continuous_id].
Qed.
Lemma total_ext v w l : (forall p, In p l -> v p = w p) -> total_of v l = total_of w l.
Proof. induction l as [|p l IH]; intro H; [reflexivity|]. cbn. rewrite H by (left; reflexivity). f_equal. apply IH. intros. apply H. right. assumption. Qed.
Lemma int_zero a b : is_RInt (fun _ : R => 0) a b 0.
Proof. pose proof (is_RInt_const (V := R_NormedModule) a b 0) as H. change (scal (b - a) 0) with ((b - a) * 0) in H. rewrite Rmult_0_r in H. exact H. Qed.
Lemma total_int (h : R -> R * R -> R) (v : R * R -> R) c d l : (forall p, In p l -> is_RInt (fun y => h y p) c d (v p)) ->
  is_RInt (fun y => total_of (h y) l) c d (total_of v l).
Proof.
  induction l as [|p l IH]; intro H; cbn.
  - apply int_zero.
  - apply (is_RInt_plus (V := R_NormedModule)); [apply H; left; reflexivity|]. apply IH. intros. apply H. right. assumption.
Qed.
(** a set that is constant on the open cells of a grid *)
Definition mids (p : R * R) : R := (fst p + snd p) / 2.
Lemma grid_mass (S : R -> R -> Prop) (dec : forall x y, {S x y} + {~ S x y}) xs ys c0 c1 c2 :
  StronglySorted Rlt (0 :: xs) -> StronglySorted Rlt (0 :: ys) -> end_of 0 xs = 1 -> end_of 0 ys = 1 ->
  (forall p q, In p (pairs 0 xs) -> In q (pairs 0 ys) -> forall x y, fst p < x < snd p -> fst q < y < snd q -> S x y <-> S (mids p) (mids q)) ->
  mass S (affine c0 c1 c2) (total_of (fun q => total_of (fun p =>
    if dec (mids p) (mids q) then (snd p - fst p) * ((snd q - fst q) * affine c0 c1 c2 (mids p) (mids q)) else 0) (pairs 0 xs)) (pairs 0 ys)).
Proof.
  intros Hx Hy Ex Ey HS. set (g := fun x y => if dec x y then affine c0 c1 c2 x y else 0).
  assert (Row : forall q, In q (pairs 0 ys) -> forall y, fst q < y < snd q ->
    is_RInt (fun x => g x y) 0 1 (total_of (fun p => if dec (mids p) (mids q) then (snd p - fst p) * affine c0 c1 c2 (mids p) y else 0) (pairs 0 xs))).
  { intros q Hq y Hyq. rewrite <- Ex at 1. apply pairs_int. intros p Hp. pose proof (pairs_le _ _ _ Hx Hp) as L.
    destruct (dec (mids p) (mids q)) as [D|D].
    - apply (is_RInt_ext (V := R_NormedModule) (fun x => affine c0 c1 c2 x y)); [|apply affine_row].
      rewrite Rmin_left, Rmax_right by lra. intros x Hxp. unfold g. destruct (dec x y) as [_|K]; [reflexivity|]. exfalso. apply K. apply (HS p q Hp Hq); assumption.
    - apply (is_RInt_ext (V := R_NormedModule) (fun _ => 0)); [|apply int_zero].
      rewrite Rmin_left, Rmax_right by lra. intros x Hxp. unfold g. destruct (dec x y) as [K|_]; [|reflexivity]. exfalso. apply D. apply (HS p q Hp Hq x y); assumption. }
  exists g. split; [|split; [|split]].
  - intros x y H. unfold g. destruct (dec x y); [reflexivity|contradiction].
  - intros x y H. unfold g. destruct (dec x y); [contradiction|reflexivity].
  - exists (0 :: ys). intros y Hy1 HN. destruct (pairs_find 0 ys y) as [q [Hq Hyq]]; [rewrite Ey; exact Hy1|exact HN|]. eexists. exact (Row q Hq y Hyq).
  - rewrite <- Ey at 1. apply pairs_int. intros q Hq. pose proof (pairs_le _ _ _ Hy Hq) as L.
    apply (is_RInt_ext (V := R_NormedModule) (fun y => total_of (fun p => if dec (mids p) (mids q) then (snd p - fst p) * affine c0 c1 c2 (mids p) y else 0) (pairs 0 xs))).
    + rewrite Rmin_left, Rmax_right by lra. intros y Hyq. symmetry. apply is_RInt_unique, Row; assumption.
    + apply (total_int (fun y p => if dec (mids p) (mids q) then (snd p - fst p) * affine c0 c1 c2 (mids p) y else 0)). intros p Hp.
      destruct (dec (mids p) (mids q)).
      * apply (is_RInt_scal (V := R_NormedModule)).
        apply (is_RInt_ext (V := R_NormedModule) (fun y => affine c0 c2 c1 y (mids p))).
        { intros t _. assert (E : affine c0 c2 c1 t (mids p) = affine c0 c1 c2 (mids p) t) by (unfold affine; ring). exact E. }
        replace ((snd q - fst q) * affine c0 c1 c2 (mids p) (mids q)) with ((snd q - fst q) * affine c0 c2 c1 ((fst q + snd q) / 2) (mids p)) by (unfold affine, mids; ring).
        apply affine_row.
      * apply int_zero.
Qed.
Lemma mass_ext (S S' : R -> R -> Prop) f f' I I' : (forall x y, S x y <-> S' x y) -> (forall x y, f x y = f' x y) -> I = I' -> mass S f I -> mass S' f' I'.
Proof.
  intros HS Hf <- [g [H1 [H2 [H3 H4]]]]. exists g. split; [|split; [|split; assumption]].
  - intros x y H. rewrite H1 by (apply HS; exact H). apply Hf.
  - intros x y H. apply H2. intro K. apply H, HS, K.
Qed.
Definition in_rect_dec a b c d x y : {in_rect a b c d x y} + {~ in_rect a b c d x y}.
Proof.
  unfold in_rect. destruct (Rlt_dec a x); [|right; lra]. destruct (Rlt_dec x b); [|right; lra]. destruct (Rlt_dec c y); [|right; lra].
  destruct (Rlt_dec y d); [left|right]; lra.
Defined.
Definition framed_dec x0 x1 y0 y1 a b c d x y : {framed x0 x1 y0 y1 a b c d x y} + {~ framed x0 x1 y0 y1 a b c d x y}.
Proof.
  unfold framed. destruct (in_rect_dec x0 x1 y0 y1 x y); [|right; tauto]. unfold off_rect.
  destruct (Rlt_dec x a); [left; tauto|]. destruct (Rlt_dec b x); [left; tauto|]. destruct (Rlt_dec y c); [left; tauto|]. destruct (Rlt_dec d y); [left|right]; tauto.
Defined.
Definition weighed (S : R -> R -> Prop) (dec : forall x y, {S x y} + {~ S x y}) xs ys (f : R -> R -> R) : R :=
  total_of (fun q => total_of (fun p => if dec (mids p) (mids q) then (snd p - fst p) * ((snd q - fst q) * f (mids p) (mids q)) else 0) (pairs 0 xs)) (pairs 0 ys).
Lemma balance (S' S : R -> R -> Prop) dec xs ys A cx cy : (forall x y, S x y <-> S' x y) ->
  StronglySorted Rlt (0 :: xs) -> StronglySorted Rlt (0 :: ys) -> end_of 0 xs = 1 -> end_of 0 ys = 1 ->
  (forall p q, In p (pairs 0 xs) -> In q (pairs 0 ys) -> forall x y, fst p < x < snd p -> fst q < y < snd q -> S x y <-> S (mids p) (mids q)) ->
  0 < A -> weighed S dec xs ys (affine 1 0 0) = A -> weighed S dec xs ys (affine 0 1 0) = A * cx -> weighed S dec xs ys (affine 0 0 1) = A * cy ->
  balanced S' cx cy.
Proof.
  intros HI Hx Hy Ex Ey HS HA E0 E1 E2. exists A. split; [exact HA|]. split; [|split].
  - apply (mass_ext S S' (affine 1 0 0) _ (weighed S dec xs ys (affine 1 0 0)) A HI); [intros; unfold affine; ring|exact E0|apply grid_mass; assumption].
  - apply (mass_ext S S' (affine 0 1 0) _ (weighed S dec xs ys (affine 0 1 0)) (A * cx) HI); [intros; unfold affine; ring|exact E1|apply grid_mass; assumption].
  - apply (mass_ext S S' (affine 0 0 1) _ (weighed S dec xs ys (affine 0 0 1)) (A * cy) HI); [intros; unfold affine; ring|exact E2|apply grid_mass; assumption].
Qed.
Ltac sorted_tac := repeat (apply SSorted_cons; [|repeat (apply List.Forall_cons; [lra|]); apply List.Forall_nil]); apply SSorted_nil.
Ltac cells_tac := let p := fresh in let q := fresh in intros p q Hp Hq; cbn [pairs In] in Hp, Hq;
  repeat (destruct Hp as [<-|Hp]; [repeat (destruct Hq as [<-|Hq]; [unfold framed, in_rect, off_rect, mids; cbn [fst snd]; intros; lra|]); contradiction|]); contradiction.
Ltac weigh_tac := unfold weighed; cbn [pairs total_of fold_right];
  repeat match goal with |- context [if ?d then _ else _] =>
    let K := fresh in destruct d as [K|K]; [try (exfalso; revert K; unfold framed, in_rect, off_rect, mids; cbn [fst snd]; lra)|
      try (exfalso; apply K; unfold framed, in_rect, off_rect, mids; cbn [fst snd]; lra)]; clear K end;
  unfold affine, mids; cbn [fst snd]; lra.
Ltac balance_tac S dec xs ys A := apply (balance _ S dec xs ys A); [|sorted_tac|sorted_tac|cbn; lra|cbn; lra|cells_tac|lra|weigh_tac|weigh_tac|weigh_tac].
Lemma convex_omega_balanced : balanced (surface cmds_convex [true; false; false]) (1/2) (5/16).
Proof.
  balance_tac (framed 0 1 0 1 (1/10) (9/10) (1/4) 1) (framed_dec 0 1 0 1 (1/10) (9/10) (1/4) 1) [1/10; 9/10; 1] [1/4; 1] (2/5).
  intros x y. rewrite C99_convex. unfold framed. split; [intro; left; tauto|intros [[_ H]|[[H _]|[H _]]]; [exact H|discriminate|discriminate]].
Qed.
Lemma convex_b_balanced : balanced (surface cmds_convex [false; true; false]) (1/2) (3/5).
Proof.
  balance_tac (in_rect (1/10) (9/10) (1/4) (19/20)) (in_rect_dec (1/10) (9/10) (1/4) (19/20)) [1/10; 9/10; 1] [1/4; 19/20; 1] (14/25).
  intros x y. rewrite C99_convex. split; [intro; right; left; tauto|intros [[H _]|[[_ H]|[H _]]]; [discriminate|exact H|discriminate]].
Qed.
Lemma convex_rest_balanced : balanced (surface cmds_convex [false; false; true]) (1/2) (39/40).
Proof.
  balance_tac (in_rect (1/10) (9/10) (19/20) 1) (in_rect_dec (1/10) (9/10) (19/20) 1) [1/10; 9/10; 1] [19/20; 1] (1/25).
  intros x y. rewrite C99_convex. split; [intro; right; right; tauto|intros [[H _]|[[H _]|[_ H]]]; [discriminate|discriminate|exact H]].
Qed.
Lemma nonconvex_omega_balanced : balanced (surface cmds_nonconvex [true; true; true]) (1/2) (11/40).
Proof.
  balance_tac (in_rect (1/4) (3/4) (1/20) (1/2)) (in_rect_dec (1/4) (3/4) (1/20) (1/2)) [1/4; 3/4; 1] [1/20; 1/2; 1] (9/40).
  intros x y. rewrite C99_nonconvex. split; [intro; left; tauto|intros [[_ H]|[[H _]|[H _]]]; [exact H|discriminate|discriminate]].
Qed.
Lemma nonconvex_b_balanced : balanced (surface cmds_nonconvex [false; true; true]) (1/2) (49/80).
Proof.
  balance_tac (framed (1/8) (7/8) (1/20) (19/20) (1/4) (3/4) (1/20) (1/2)) (framed_dec (1/8) (7/8) (1/20) (19/20) (1/4) (3/4) (1/20) (1/2))
    [1/8; 1/4; 3/4; 7/8; 1] [1/20; 1/2; 19/20; 1] (9/20).
  intros x y. rewrite C99_nonconvex. unfold framed. split; [intro; right; left; tauto|intros [[H _]|[[_ H]|[H _]]]; [discriminate|exact H|discriminate]].
Qed.
Lemma nonconvex_rest_balanced : balanced (surface cmds_nonconvex [false; false; true]) (1/2) (1/2).
Proof.
  balance_tac (framed 0 1 0 1 (1/8) (7/8) (1/20) (19/20)) (framed_dec 0 1 0 1 (1/8) (7/8) (1/20) (19/20)) [1/8; 7/8; 1] [1/20; 19/20; 1] (13/40).
  intros x y. rewrite C99_nonconvex. unfold framed. split; [intro; right; right; tauto|intros [[H _]|[[H _]|[_ H]]]; [discriminate|discriminate|exact H]].
Qed.
Lemma around_frame_balanced : balanced (surface cmds_around [true; false]) (1/2) (1/2).
Proof.
  balance_tac (framed 0 1 0 1 (1/5) (4/5) (1/5) (4/5)) (framed_dec 0 1 0 1 (1/5) (4/5) (1/5) (4/5)) [1/5; 4/5; 1] [1/5; 4/5; 1] (16/25).
  intros x y. rewrite C99_around. unfold framed. split; [intro; left; tauto|intros [[_ H]|[H _]]; [exact H|discriminate]].
Qed.
Lemma around_inner_balanced : balanced (surface cmds_around [false; true]) (1/2) (1/2).
Proof.
  balance_tac (in_rect (1/5) (4/5) (1/5) (4/5)) (in_rect_dec (1/5) (4/5) (1/5) (4/5)) [1/5; 4/5; 1] [1/5; 4/5; 1] (9/25).
  intros x y. rewrite C99_around. split; [intro; right; tauto|intros [[H _]|[_ H]]; [discriminate|exact H]].
Qed.
Theorem C99_centres :
  balanced (surface cmds_convex [true; false; false]) (1/2) (5/16) /\ balanced (surface cmds_convex [false; true; false]) (1/2) (3/5) /\
  balanced (surface cmds_convex [false; false; true]) (1/2) (39/40) /\
  balanced (surface cmds_nonconvex [true; true; true]) (1/2) (11/40) /\ balanced (surface cmds_nonconvex [false; true; true]) (1/2) (49/80) /\
  balanced (surface cmds_nonconvex [false; false; true]) (1/2) (1/2) /\
  balanced (surface cmds_around [true; false]) (1/2) (1/2) /\ balanced (surface cmds_around [false; true]) (1/2) (1/2).
Proof.
  exact (conj convex_omega_balanced (conj convex_b_balanced (conj convex_rest_balanced (conj nonconvex_omega_balanced
    (conj nonconvex_b_balanced (conj nonconvex_rest_balanced (conj around_frame_balanced around_inner_balanced))))))).
Qed.
(** a set that is decided at every point has at most one centre *)
Theorem C99_one_centre : forall S cx cy cx' cy', (forall x y, S x y \/ ~ S x y) -> balanced S cx cy -> balanced S cx' cy' -> cx = cx' /\ cy = cy'.
Proof.
  intros S cx cy cx' cy' HD.
  assert (U : forall f I I', mass S f I -> mass S f I' -> I = I').
  { intros f I I' [g [G1 [G2 [_ GI]]]] [g' [G1' [G2' [_ GI']]]].
    assert (E : forall x y, g x y = g' x y) by (intros x y; destruct (HD x y) as [K|K]; [rewrite G1, G1' by exact K|rewrite G2, G2' by exact K]; reflexivity).
    rewrite <- (is_RInt_unique (V := R_CompleteNormedModule) _ _ _ _ GI). rewrite <- (is_RInt_unique (V := R_CompleteNormedModule) _ _ _ _ GI').
    apply RInt_ext. intros y _. apply RInt_ext. intros x _. apply E. }
  intros [A [HA [M [Mx My]]]] [A' [HA' [M' [Mx' My']]]]. pose proof (U _ _ _ M M') as <-.
  split; [apply (Rmult_eq_reg_l A)|apply (Rmult_eq_reg_l A)]; try lra; [exact (U _ _ _ Mx Mx')|exact (U _ _ _ My My')].
Qed.

From Verif Require Import MeshTags Props_Tags.
(** * Markers *)
(** What is assumed about gmsh: it reports every surface of the geometry once, and its
    centre of mass up to 1e-9. *)
Definition reported (entities : list geo -> nat -> list Z) (com : list geo -> ent -> list R) (cs : list geo) (surfs : list (list bool)) (pat : Z -> list bool) : Prop :=
  NoDup (entities cs 2%nat) /\ (forall t, In t (entities cs 2%nat) -> In (pat t) surfs) /\
  (forall t t', In t (entities cs 2%nat) -> In t' (entities cs 2%nat) -> pat t = pat t' -> t = t') /\
  (forall t, In t (entities cs 2%nat) -> exists x y z, com cs (2%nat, t) = [x; y; z] /\ Rabs z <= 1e-9 /\
     forall cx cy, balanced (surface cs (pat t)) cx cy -> Rabs (x - cx) <= 1e-9 /\ Rabs (y - cy) <= 1e-9).
Lemma near_by a c : Rabs (a - c) <= 1e-9 -> near a c.
Proof. unfold near. intro H. pose proof (Rabs_pos c). revert H. decimals. lra. Qed.
Lemma at_centre x y z a b : Rabs (x - a) <= 1e-9 -> Rabs (y - b) <= 1e-9 -> Rabs z <= 1e-9 -> all_near [x; y; z] [a; b; 0].
Proof.
  intros Hx Hy Hz. unfold all_near. cbn [combine]. apply List.Forall_cons; [apply near_by, Hx|]. apply List.Forall_cons; [apply near_by, Hy|].
  apply List.Forall_cons; [|apply List.Forall_nil]. apply near_by. rewrite Rminus_0_r. exact Hz.
Qed.
Lemma off_centre x y z a b c : Rabs (y - c) <= 1e-9 -> 0 <= b <= 1 -> c + 1e-4 <= b \/ b + 1e-4 <= c -> ~ all_near [x; y; z] [a; b; 0].
Proof.
  intros Hy Hb Hc. eapply not_near_second; [reflexivity|reflexivity|]. unfold near. rewrite (Rabs_right b) by lra. intro K.
  apply Rabs_split in K. apply Rabs_split in Hy. revert Hy Hb Hc K. decimals. intros. lra.
Qed.
Section Markers.
  Variable entities : list geo -> nat -> list Z.
  Variable com : list geo -> ent -> list R.
  Variable msh_file : R -> list geo -> list group -> mio.
  Variable build : list (list R) -> list (list nat) -> mesh.
  Variable refine : mesh -> list (nat * nat) -> mesh.
  Definition convex_marker (p : list bool) : Z := match p with [true; _; _] => 1 | [_; true; _] => 2 | _ => 3 end%Z.
  Lemma convex_class pat t m : reported entities com cmds_convex convex_surfaces pat -> In t (entities cmds_convex 2%nat) ->
    marked_by (com cmds_convex (2%nat, t)) [0.5; 0.6; 0] [0.5; 0.975; 0] 2 3 1 m -> m = convex_marker (pat t).
  Proof.
    intros [_ [HP [_ HC]]] Ht [M1 [M2 M3]]. destruct (HC t Ht) as [x [y [z [Ec [Hz HB]]]]]. rewrite Ec in M1, M2, M3.
    replace 0.5 with (1/2) in * by (decimals; lra). replace 0.6 with (3/5) in * by (decimals; lra). replace 0.975 with (39/40) in * by (decimals; lra).
    destruct (HP t Ht) as [E|[E|[E|[]]]]; rewrite <- E in *; cbn [convex_marker].
    - destruct (HB _ _ convex_omega_balanced) as [Hx Hy]. apply M3; apply (off_centre _ _ _ _ _ _ Hy); decimals; lra.
    - destruct (HB _ _ convex_b_balanced) as [Hx Hy]. apply M1, at_centre; assumption.
    - destruct (HB _ _ convex_rest_balanced) as [Hx Hy]. apply M2; [apply (off_centre _ _ _ _ _ _ Hy); decimals; lra|apply at_centre; assumption].
  Qed.
  (** The convex geometry: mesh.msh has marker 1 on omega, 2 on B without omega and 3 on the rest. *)
  Theorem C99_convex_marked : forall pat remote v07 n h s, g_open s = false -> reported entities com cmds_convex convex_surfaces pat ->
    exists gs, g_msh (snd (get_mesh_hierarchy entities com msh_file build refine v07 0 remote n h s)) = Some (msh_file h cmds_convex gs) /\
      g_msh (snd (create_initial_mesh_convex entities com msh_file build 0 remote h s)) = Some (msh_file h cmds_convex gs) /\
      forall t, In t (entities cmds_convex 2%nat) -> markers 2 gs t = [Some (convex_marker (pat t))].
  Proof.
    intros pat remote v07 n h s HO HR. destruct (proj1 (C61_partial entities com msh_file build refine remote v07 n h s HO) (proj1 HR)) as [gs [E1 [E2 [W _]]]].
    exists gs. split; [exact E1|]. split; [exact E2|]. intros t Ht. destruct (W t Ht) as [m [-> M]]. rewrite (convex_class _ _ _ HR Ht M). reflexivity.
  Qed.
  (** The non-convex geometry: omega has marker 1, but B without omega has 3 and the rest 2. *)
  Definition nonconvex_marker (p : list bool) : Z := match p with [true; _; _] => 1 | [_; true; _] => 3 | _ => 2 end%Z.
  Lemma nonconvex_class pat t m : reported entities com cmds_nonconvex nonconvex_surfaces pat -> In t (entities cmds_nonconvex 2%nat) ->
    marked_by (com cmds_nonconvex (2%nat, t)) [0.5; 0.275; 0] [0.5; 0.5; 0] 1 2 3 m -> m = nonconvex_marker (pat t).
  Proof.
    intros [_ [HP [_ HC]]] Ht [M1 [M2 M3]]. destruct (HC t Ht) as [x [y [z [Ec [Hz HB]]]]]. rewrite Ec in M1, M2, M3.
    replace 0.5 with (1/2) in * by (decimals; lra). replace 0.275 with (11/40) in * by (decimals; lra).
    destruct (HP t Ht) as [E|[E|[E|[]]]]; rewrite <- E in *; cbn [nonconvex_marker].
    - destruct (HB _ _ nonconvex_omega_balanced) as [Hx Hy]. apply M1, at_centre; assumption.
    - destruct (HB _ _ nonconvex_b_balanced) as [Hx Hy]. apply M3; apply (off_centre _ _ _ _ _ _ Hy); decimals; lra.
    - destruct (HB _ _ nonconvex_rest_balanced) as [Hx Hy]. apply M2; [apply (off_centre _ _ _ _ _ _ Hy); decimals; lra|apply at_centre; assumption].
  Qed.
  Theorem C99_nonconvex_marked_refuted : forall pat remote v07 n h s, g_open s = false -> reported entities com cmds_nonconvex nonconvex_surfaces pat ->
    exists gs, g_msh (snd (get_mesh_hierarchy_nonconvex entities com msh_file build refine v07 0 remote n h s)) = Some (msh_file h cmds_nonconvex gs) /\
      forall t, In t (entities cmds_nonconvex 2%nat) -> markers 2 gs t = [Some (nonconvex_marker (pat t))].
  Proof.
    intros pat remote v07 n h s HO HR. destruct (proj2 (C61_partial entities com msh_file build refine remote v07 n h s HO) (proj1 HR)) as [gs [E1 [W _]]].
    exists gs. split; [exact E1|]. intros t Ht. destruct (W t Ht) as [m [-> M]]. rewrite (nonconvex_class _ _ _ HR Ht M). reflexivity.
  Qed.

  (** gmsh gives no two surfaces of these geometries the same marker, so it accepts the
      groups; for the convex geometry the pieces of the first fragment must be numbered as expected. *)
  Lemma classes_distinct {A} (f : Z -> Z) (g : A -> Z) (pat : Z -> A) (good : A -> Prop) l : NoDup l -> (forall t, In t l -> f t = g (pat t) /\ good (pat t)) ->
    (forall a b, good a -> good b -> g a = g b -> a = b) -> (forall t t', In t l -> In t' l -> pat t = pat t' -> t = t') -> NoDup (map f l).
  Proof.
    intros HN HF HG HI. induction l as [|t l IH]; cbn [map]; [constructor|]. inversion HN as [|? ? Ht HN']; subst. constructor.
    - intro K. apply in_map_iff in K. destruct K as [t' [E Ht']]. apply Ht. replace t with t'; [exact Ht'|].
      destruct (HF t (or_introl eq_refl)) as [F1 G1]. destruct (HF t' (or_intror Ht')) as [F2 G2]. rewrite F1, F2 in E.
      apply HI; [right; exact Ht'|left; reflexivity|]. apply HG; assumption.
    - apply IH; [exact HN'|intros a Ha; apply HF; right; exact Ha|intros a b Ha Hb; apply HI; right; assumption].
  Qed.
  Theorem C99_accepted : forall faces pieces pat remote v07 n h s, g_open s = false ->
    (reported entities com cmds_nonconvex nonconvex_surfaces pat ->
       k_get_mesh_hierarchy_nonconvex entities com msh_file build refine v07 0 remote faces pieces n h s =
       get_mesh_hierarchy_nonconvex entities com msh_file build refine v07 0 remote n h s) /\
    (reported entities com cmds_convex convex_surfaces pat -> convex_tags pieces ->
       k_get_mesh_hierarchy entities com msh_file build refine v07 0 remote faces pieces n h s =
       get_mesh_hierarchy entities com msh_file build refine v07 0 remote n h s /\
       k_create_initial_mesh_convex entities com msh_file build 0 remote faces pieces h s =
       create_initial_mesh_convex entities com msh_file build 0 remote h s).
  Proof.
    intros faces pieces pat remote v07 n h s HO.
    destruct (C95_classes entities com msh_file (fun _ => ([], [])) (fun _ => []) (fun _ => 0%nat) (fun _ => []) build (fun _ => d0) refine (fun m => m) faces pieces remote v07 n h s HO) as [N [_ [K _]]].
    split; intro HR.
    - apply N. apply (classes_distinct _ nonconvex_marker pat (fun p => In p nonconvex_surfaces)); [exact (proj1 HR)| | |exact (proj1 (proj2 (proj2 HR)))].
      + intros t Ht. split; [|exact (proj1 (proj2 HR) t Ht)]. apply (nonconvex_class pat t _ HR Ht). unfold class. apply marked_choice.
      + intros a b Ha Hb. cbn in Ha, Hb. destruct Ha as [<-|[<-|[<-|[]]]]; destruct Hb as [<-|[<-|[<-|[]]]]; cbn; intro E; try reflexivity; discriminate E.
    - intro HT. apply K; [exact HT|]. apply (classes_distinct _ convex_marker pat (fun p => In p convex_surfaces)); [exact (proj1 HR)| | |exact (proj1 (proj2 (proj2 HR)))].
      + intros t Ht. split; [|exact (proj1 (proj2 HR) t Ht)]. apply (convex_class pat t _ HR Ht). unfold class. apply marked_choice.
      + intros a b Ha Hb. cbn in Ha, Hb. destruct Ha as [<-|[<-|[<-|[]]]]; destruct Hb as [<-|[<-|[<-|[]]]]; cbn; intro E; try reflexivity; discriminate E.
  Qed.

  (** * Cells *)
  (** the open convex hull of the vertices of a cell *)
  Definition blend (i : nat) (m : mesh) (c : list nat) (w : list R) : R :=
    fold_right (fun '(v, a) acc => a * nth i (nth v (m_pts m) []) 0 + acc) 0 (combine c w).
  Definition inside (m : mesh) (c : list nat) (x y : R) : Prop :=
    exists w, List.length w = List.length c /\ List.Forall (fun a => 0 < a) w /\ fold_right Rplus 0 w = 1 /\ x = blend 0 m c w /\ y = blend 1 m c w.
  (** What is assumed about gmsh and dolfinx: a cell of the generated mesh lies in one
      surface, a cell of a refined mesh in a cell of the mesh before. *)
  Definition in_surfaces (cs : list geo) (surfs : list (list bool)) (m : mesh) : Prop :=
    forall c, In c (m_cells m) -> exists pat, In pat surfs /\ forall x y, inside m c x y -> surface cs pat x y.
  Definition subdivides : Prop := forall m e c', In c' (m_cells (refine m e)) ->
    exists c, In c (m_cells m) /\ forall x y, inside (refine m e) c' x y -> inside m c x y.
  Lemma refined_surfaces cs surfs n m ms : subdivides -> refined refine n m ms -> in_surfaces cs surfs m ->
    forall i, (i <= n)%nat -> in_surfaces cs surfs (nth i ms d0).
  Proof.
    intros HS [_ [E0 EI]] H. induction i as [|i IH]; intro Hi; [rewrite E0; exact H|].
    rewrite (EI i) by lia. intros c' Hc'. destruct (HS _ _ _ Hc') as [c [Hc Hin]]. destruct (IH ltac:(lia) c Hc) as [pat [HP HQ]].
    exists pat. split; [exact HP|]. intros x y K. apply HQ, Hin, K.
  Qed.
  (** On every mesh of get_mesh_data_all_around the indicator of the 2D driver is constant
      inside each cell: 1 in the cells of the frame, 0 in those of the inner square. *)
  Theorem C99_fitted : forall v07 rank remote n h s ms s', g_open s = false ->
    (rank <> 0%nat -> remote = Some (prune_z (file_around entities com msh_file h))) ->
    in_surfaces cmds_around around_surfaces (mesh_of build (file_around entities com msh_file h)) -> subdivides ->
    get_mesh_data_all_around entities com msh_file build refine v07 rank remote n h s = (Ok ms, s') ->
    forall m, In m ms -> forall c, In c (m_cells m) ->
      (forall x y, inside m c x y -> surface cmds_around [true; false] x y /\ omega_ind_convex_2d [[x; y]] = Ok [1]) \/
      (forall x y, inside m c x y -> surface cmds_around [false; true] x y /\ omega_ind_convex_2d [[x; y]] = Ok [0]).
  Proof.
    intros v07 rank remote n h s ms s' HO HR HF HS E m Hm c Hc.
    destruct (C56_partial entities com msh_file build refine rank remote n h s HO) as [_ [_ [_ H]]]. destruct (H v07 HR) as [ms' [s'' [E' HRef]]].
    rewrite E in E'. injection E' as -> ->. pose proof HRef as [EL _]. destruct (In_nth _ _ d0 Hm) as [i [Hi <-]].
    destruct (refined_surfaces _ _ _ _ _ HS HRef HF i ltac:(lia) c Hc) as [pat [HP HQ]].
    assert (P : forall x y, surface cmds_around pat x y -> exists v, omega_ind_convex_2d [[x; y]] = Ok [v] /\
      ((pat = [true; false] -> v = 1) /\ (pat = [false; true] -> v = 0))).
    { intros x y K. apply C99_around in K. unfold in_rect, off_rect in K. destruct (C66_frame x y) as [v [Ev [F1 F0]]]; [destruct K as [[_ K]|[_ K]]; lra|destruct K as [[_ K]|[_ K]]; lra|].
      exists v. split; [exact Ev|]. split; intros ->.
      - apply F1. destruct K as [[_ K]|[K _]]; [|discriminate]. unfold piece, cmds_around. opened. decimals. left. split; [reflexivity|]. split; [left; lra|]. intro N. intuition lra.
      - apply F0. destruct K as [[K _]|[_ K]]; [discriminate|]. unfold piece, cmds_around. opened. decimals. intro N.
        destruct N as [[_ [_ N]]|[[N _]|[]]]; [|discriminate]. apply N. left. lra. }
    destruct HP as [<-|[<-|[]]]; [left|right]; intros x y K; (split; [apply HQ, K|]); destruct (P x y (HQ _ _ K)) as [v [-> [V1 V0]]].
    - rewrite V1; reflexivity.
    - rewrite V0; reflexivity.
  Qed.
End Markers.

(** * Non-vacuity *)
Definition ex_pat (l : list (list bool)) (t : Z) : list bool := nth (Z.to_nat (t - 1)) l [].
Definition ex_ents99 : list geo -> nat -> list Z := fun _ d => match d with 2%nat => [1; 2; 3]%Z | _ => [] end.
Definition ex_com_convex : list geo -> ent -> list R := fun _ e => match snd e with 1%Z => [1/2; 5/16; 0] | 2%Z => [1/2; 3/5; 0] | _ => [1/2; 39/40; 0] end.
Definition ex_com_nonconvex : list geo -> ent -> list R := fun _ e => match snd e with 1%Z => [1/2; 11/40; 0] | 2%Z => [1/2; 49/80; 0] | _ => [1/2; 1/2; 0] end.
Lemma exact_by a : Rabs (a - a) <= 1e-9.
Proof. rewrite Rminus_diag_eq, Rabs_R0 by reflexivity. decimals. lra. Qed.
Lemma one_by S cx cy : (forall x y, S x y \/ ~ S x y) -> balanced S cx cy ->
  exists x y z, [cx; cy; 0] = [x; y; z] /\ Rabs z <= 1e-9 /\ forall cx' cy', balanced S cx' cy' -> Rabs (x - cx') <= 1e-9 /\ Rabs (y - cy') <= 1e-9.
Proof.
  intros HD HB. exists cx, cy, 0. split; [reflexivity|]. split; [rewrite Rabs_R0; decimals; lra|].
  intros cx' cy' HB'. destruct (C99_one_centre S _ _ _ _ HD HB HB') as [<- <-]. split; apply exact_by.
Qed.
Lemma convex_known pat x y : surface cmds_convex pat x y \/ ~ surface cmds_convex pat x y.
Proof.
  rewrite C99_convex.
  destruct (framed_dec 0 1 0 1 (1/10) (9/10) (1/4) 1 x y) as [A|A], (in_rect_dec (1/10) (9/10) (1/4) (19/20) x y) as [B|B], (in_rect_dec (1/10) (9/10) (19/20) 1 x y) as [C|C];
    unfold framed in A; destruct (list_eq_dec bool_dec pat [true; false; false]), (list_eq_dec bool_dec pat [false; true; false]), (list_eq_dec bool_dec pat [false; false; true]); tauto.
Qed.
Lemma nonconvex_known pat x y : surface cmds_nonconvex pat x y \/ ~ surface cmds_nonconvex pat x y.
Proof.
  rewrite C99_nonconvex.
  destruct (in_rect_dec (1/4) (3/4) (1/20) (1/2) x y) as [A|A], (framed_dec (1/8) (7/8) (1/20) (19/20) (1/4) (3/4) (1/20) (1/2) x y) as [B|B], (framed_dec 0 1 0 1 (1/8) (7/8) (1/20) (19/20) x y) as [C|C];
    unfold framed in B, C; destruct (list_eq_dec bool_dec pat [true; true; true]), (list_eq_dec bool_dec pat [false; true; true]), (list_eq_dec bool_dec pat [false; false; true]); tauto.
Qed.
(** one triangle in a corner of the frame, bisected *)
Definition ex_file99 : R -> list geo -> list group -> mio := fun _ _ _ => mkMio [[0; 0; 0]; [1/10; 0; 0]; [0; 1/10; 0]] (fun _ => [[0; 1; 2]%nat]) (fun _ => []).
Definition bisect : mesh -> list (nat * nat) -> mesh := fun m _ =>
  match m with
  | mkMesh [p; q; r] [[0%nat; 1%nat; 2%nat]] => mkMesh [p; q; r; halfway p q] [[0; 3; 2]%nat; [3; 1; 2]%nat]
  | _ => m
  end.
Lemma bisect_same m e c' : bisect m e = m -> In c' (m_cells (bisect m e)) -> exists c, In c (m_cells m) /\ forall x y, inside (bisect m e) c' x y -> inside m c x y.
Proof. intros -> H. exists c'. split; [exact H|auto]. Qed.
Lemma three_weights (w : list R) : List.length w = 3%nat -> exists a b c, w = [a; b; c].
Proof. destruct w as [|a [|b [|c [|]]]]; try discriminate. intros _. exists a, b, c. reflexivity. Qed.
Lemma bisect_inside p q r c' x y : In c' [[0; 3; 2]%nat; [3; 1; 2]%nat] -> inside (mkMesh [p; q; r; halfway p q] [[0; 3; 2]%nat; [3; 1; 2]%nat]) c' x y ->
  inside (mkMesh [p; q; r] [[0; 1; 2]%nat]) [0; 1; 2]%nat x y.
Proof.
  intros Hc [w [HL [HP [HS [-> ->]]]]].
  destruct Hc as [<-|[<-|[]]]; destruct (three_weights w HL) as [a [b [c ->]]];
    inversion HP as [|? ? Pa HP1]; subst; inversion HP1 as [|? ? Pb HP2]; subst; inversion HP2 as [|? ? Pc _]; subst; cbn [fold_right] in HS.
  - exists [a + b / 2; b / 2; c]. split; [reflexivity|]. split; [repeat apply List.Forall_cons; try apply List.Forall_nil; lra|].
    split; [cbn [fold_right]; lra|]. split; unfold blend, halfway; cbn [fold_right combine m_pts nth]; lra.
  - exists [a / 2; a / 2 + b; c]. split; [reflexivity|]. split; [repeat apply List.Forall_cons; try apply List.Forall_nil; lra|].
    split; [cbn [fold_right]; lra|]. split; unfold blend, halfway; cbn [fold_right combine m_pts nth]; lra.
Qed.
Lemma bisect_subdivides : subdivides bisect.
Proof.
  intros m e c'. destruct m as [[|p [|q [|r [|]]]] cells]; try (apply bisect_same; reflexivity).
  destruct cells as [|[|[|] [|[|[|]] [|[|[|[|]]] [|]]]] [|]]; try (apply bisect_same; reflexivity).
  cbn [bisect m_cells]. intro Hc. exists [0; 1; 2]%nat. split; [left; reflexivity|]. intros x y. apply bisect_inside. exact Hc.
Qed.
Theorem C99_nonvacuous : reported ex_ents99 ex_com_convex cmds_convex convex_surfaces (ex_pat convex_surfaces) /\
  reported ex_ents99 ex_com_nonconvex cmds_nonconvex nonconvex_surfaces (ex_pat nonconvex_surfaces) /\
  subdivides bisect /\ in_surfaces cmds_around around_surfaces (mesh_of mkMesh (file_around ex_ents99 ex_com_convex ex_file99 5)) /\
  (exists ms s', get_mesh_data_all_around ex_ents99 ex_com_convex ex_file99 mkMesh bisect false 0 None 1 5 ex_closed = (Ok ms, s') /\
     map m_cells ms = [[[0; 1; 2]%nat]; [[0; 3; 2]%nat; [3; 1; 2]%nat]]) /\
  inside (mkMesh [[0; 0]; [1/10; 0]; [0; 1/10]] [[0; 1; 2]%nat]) [0; 1; 2]%nat (1/40) (1/20).
Proof.
  split; [|split; [|split; [|split; [|split]]]].
  - split; [cbn; repeat constructor; cbn; intuition discriminate|]. split; [intros t Ht; cbn in Ht; destruct Ht as [<-|[<-|[<-|[]]]]; cbn; auto|].
    split.
    + intros t t' Ht Ht'. cbn in Ht, Ht'. destruct Ht as [<-|[<-|[<-|[]]]]; destruct Ht' as [<-|[<-|[<-|[]]]]; cbn; intro E; try reflexivity; discriminate E.
    + intros t Ht. cbn in Ht. destruct Ht as [<-|[<-|[<-|[]]]]; (apply one_by; [apply convex_known|]); [exact convex_omega_balanced|exact convex_b_balanced|exact convex_rest_balanced].
  - split; [cbn; repeat constructor; cbn; intuition discriminate|]. split; [intros t Ht; cbn in Ht; destruct Ht as [<-|[<-|[<-|[]]]]; cbn; auto|].
    split.
    + intros t t' Ht Ht'. cbn in Ht, Ht'. destruct Ht as [<-|[<-|[<-|[]]]]; destruct Ht' as [<-|[<-|[<-|[]]]]; cbn; intro E; try reflexivity; discriminate E.
    + intros t Ht. cbn in Ht. destruct Ht as [<-|[<-|[<-|[]]]]; (apply one_by; [apply nonconvex_known|]); [exact nonconvex_omega_balanced|exact nonconvex_b_balanced|exact nonconvex_rest_balanced].
  - exact bisect_subdivides.
  - intros c Hc. cbn in Hc. destruct Hc as [<-|[]]. exists [true; false]. split; [left; reflexivity|]. intros x y [w [HL [HP [HS [-> ->]]]]]. rewrite C99_around. left. split; [reflexivity|].
    destruct (three_weights w HL) as [a [b [c ->]]]. inversion HP as [|? ? Pa HP1]; subst. inversion HP1 as [|? ? Pb HP2]; subst. inversion HP2 as [|? ? Pc _]; subst.
    cbn [fold_right] in HS. unfold blend, in_rect, off_rect. cbn. lra.
  - destruct (C56_partial ex_ents99 ex_com_convex ex_file99 mkMesh bisect 0 None 1 5 ex_closed eq_refl) as [_ [_ [_ H]]].
    destruct (H false ltac:(intro K; contradiction)) as [ms [s' [E [HL [H0 HI]]]]]. exists ms, s'. split; [exact E|]. specialize (HI 0%nat ltac:(lia)).
    destruct ms as [|a [|b [|c ms]]]; try discriminate HL. cbn [nth] in H0, HI. subst a. rewrite HI. reflexivity.
  - exists [1/4; 1/4; 1/2]. split; [reflexivity|]. split; [repeat apply List.Forall_cons; try apply List.Forall_nil; lra|]. cbn [fold_right].
    split; [lra|]. unfold blend. cbn [fold_right combine m_pts nth]. split; lra.
Qed.
Print Assumptions C99_convex.
Print Assumptions C99_nonconvex.
Print Assumptions C99_around.
Print Assumptions C99_connected.
Print Assumptions C99_centres.
Print Assumptions C99_one_centre.
Print Assumptions C99_convex_marked.
Print Assumptions C99_nonconvex_marked_refuted.
Print Assumptions C99_accepted.
Print Assumptions C99_fitted.
Print Assumptions C99_nonvacuous.
