(** BoxCell.v -- functions on the reference cube and reference cells in general.

    The 3D driver uses hexahedra (src/dxss/solve_3d.py:91-97, CellType.hexahedron), the
    2D driver triangles (Simplex.v), the 1D driver intervals.  On hexahedra the "CG" elements of
    space_time.py:252-262 are tensor products: degree k in each variable, and a rule of degree m
    is exact for polynomials of degree m in each variable.  Simplified as in SimplexRule.v. *)
From Coq Require Import Reals List Lra Lia.
From Coquelicot Require Import Coquelicot.
From Verif Require Import Base FormSym Simplex SimplexRule.
Import ListNotations.
Open Scope R_scope.

(** * Reference cells *)
(** the points, the polynomials of degree m that belong to the cell, and the integral *)
Record refcell := RefCell { rc_in : list R -> Prop; rc_pol : nat -> (list R -> R) -> Prop; rc_int : (list R -> R) -> R }.
Definition simplex_cell (d : nat) : refcell := RefCell (simplex d) (pol d) (SI d).
(** exact for degree m *)
Definition rule_exact (C : refcell) (m : nat) (r : srule) : Prop :=
  forall f, rc_pol C m f -> Rsum r (fun xw => snd xw * f (fst xw)) = rc_int C f.
(** products of polynomials, and a nonnegative polynomial with integral zero vanishes *)
Record cell_ok (C : refcell) : Prop := {
  co_le : forall m m' f, (m <= m')%nat -> rc_pol C m f -> rc_pol C m' f;
  co_mul : forall m n f g, rc_pol C m f -> rc_pol C n g -> rc_pol C (m + n) (fun x => f x * g x);
  co_def : forall m f, rc_pol C m f -> (forall x, rc_in C x -> 0 <= f x) -> rc_int C f = 0 -> forall x, rc_in C x -> f x = 0 }.
Lemma simplex_ok d : cell_ok (simplex_cell d).
Proof. split; cbn; [apply pol_le|apply pol_mul|apply SI_definite]. Qed.

(** * The cube *)
Definition box (d : nat) (x : list R) : Prop := length x = d /\ List.Forall (fun t => 0 <= t <= 1) x.
Fixpoint BI (d : nat) (f : list R -> R) : R :=
  match d with O => f [] | S d' => BI d' (fun x => RInt (fun t => f (t :: x)) 0 1) end.
(** degree at most m in each of the d variables *)
Fixpoint qpol (d m : nat) (f : list R -> R) : Prop :=
  match d with
  | O => True
  | S d' => exists c : nat -> list R -> R, (forall b, (b <= m)%nat -> qpol d' m (c b))
      /\ forall t x, length x = d' -> f (t :: x) = sumn (S m) (fun b => c b x * t ^ b)
  end.
Definition box_cell (d : nat) : refcell := RefCell (box d) (qpol d) (BI d).

Lemma qpol_ext d m f g : qpol d m f -> (forall x, length x = d -> f x = g x) -> qpol d m g.
Proof.
  destruct d as [|d]; intros H E; [exact I|]. destruct H as [c [Hc Hf]]. exists c. split; [exact Hc|].
  intros t x Hx. rewrite <- E by (cbn; congruence). apply Hf, Hx.
Qed.
Lemma qpol_const d : forall m r, qpol d m (fun _ => r).
Proof.
  induction d as [|d IH]; intros m r; [exact I|]. exists (fun b _ => if Nat.eqb b 0 then r else 0). split.
  - intros b _. destruct (Nat.eqb b 0); apply IH.
  - intros t x _. rewrite sumn_S_l. cbn [Nat.eqb pow]. rewrite Rsum_zero by (intros; ring). ring.
Qed.
Lemma qpol_le d : forall m m' f, (m <= m')%nat -> qpol d m f -> qpol d m' f.
Proof.
  induction d as [|d IH]; intros m m' f H Hp; [exact I|]. destruct Hp as [c [Hc Hf]].
  exists (fun b x => if Nat.ltb b (S m) then c b x else 0). split.
  - intros b Hb. destruct (Nat.ltb b (S m)) eqn:E; [|apply qpol_const]. apply Nat.ltb_lt in E. apply (IH m); [lia|]. apply Hc. lia.
  - intros t x Hx. rewrite (Hf t x Hx), <- (sumn_pad (S m) (S m')) by lia. apply Rsum_ext. intro b. destruct (Nat.ltb b (S m)); ring.
Qed.
Lemma qpol_add d : forall m f g, qpol d m f -> qpol d m g -> qpol d m (fun x => f x + g x).
Proof.
  induction d as [|d IH]; intros m f g Hf Hg; [exact I|]. destruct Hf as [c [Hc Ef]], Hg as [e [He Eg]].
  exists (fun b x => c b x + e b x). split; [intros b Hb; apply IH; auto|].
  intros t x Hx. rewrite Ef, Eg, <- Rsum_plus by exact Hx. apply Rsum_ext. intro b. ring.
Qed.
Lemma qpol_scal d : forall m r f, qpol d m f -> qpol d m (fun x => r * f x).
Proof.
  induction d as [|d IH]; intros m r f Hf; [exact I|]. destruct Hf as [c [Hc Ef]].
  exists (fun b x => r * c b x). split; [intros b Hb; apply IH; auto|].
  intros t x Hx. rewrite Ef, <- Rsum_scal by exact Hx. apply Rsum_ext. intro b. ring.
Qed.
Lemma qpol_sum {A} d m (l : list A) f : (forall i, In i l -> qpol d m (f i)) -> qpol d m (fun x => Rsum l (fun i => f i x)).
Proof.
  induction l as [|a l IH]; intro H; [exact (qpol_const d m 0)|].
  apply (qpol_ext d m (fun x => f a x + Rsum l (fun i => f i x))); [|reflexivity].
  apply qpol_add; [apply H; left; reflexivity|apply IH; intros; apply H; right; assumption].
Qed.
Lemma qpol_sumn d m n f : (forall i, (i < n)%nat -> qpol d m (f i)) -> qpol d m (fun x => sumn n (fun i => f i x)).
Proof. intro H. apply qpol_sum. intros i Hi. apply H. apply in_seq in Hi. lia. Qed.
(** a polynomial of the tail times one of the head *)
Lemma qpol_term d m i c : (i <= m)%nat -> qpol d m c -> qpol (S d) m (fun y => c (tl y) * hd 0 y ^ i).
Proof.
  intros Hi H. exists (fun b x => if Nat.eqb b i then c x else 0). split.
  - intros b Hb. destruct (Nat.eqb b i); [exact H|apply qpol_const].
  - intros t x _. cbn [tl hd]. rewrite (sumn_ext _ _ (fun b => delta i b * (c x * t ^ b))).
    + rewrite sumn_delta by lia. reflexivity.
    + intros b _. unfold delta. rewrite Nat.eqb_sym. destruct (Nat.eqb i b); ring.
Qed.
Lemma qpol_mul d : forall m n f g, qpol d m f -> qpol d n g -> qpol d (m + n) (fun x => f x * g x).
Proof.
  induction d as [|d IH]; intros m n f g Hf Hg; [exact I|]. destruct Hf as [c [Hc Ef]], Hg as [e [He Eg]].
  apply (qpol_ext (S d) _ (fun y => sumn (S m) (fun a => sumn (S n) (fun b => (c a (tl y) * e b (tl y)) * hd 0 y ^ (a + b))))).
  - apply qpol_sumn. intros a Ha. apply qpol_sumn. intros b Hb.
    apply (qpol_term d _ (a + b) (fun x => c a x * e b x)); [lia|]. apply IH; [apply Hc|apply He]; lia.
  - intros [|t x] Hx; [discriminate|]. injection Hx as Hx. rewrite Ef, Eg by exact Hx. cbn [tl hd].
    rewrite Rsum_mult. apply Rsum_ext. intro a. apply Rsum_ext. intro b. rewrite pow_add. ring.
Qed.
Lemma qpol_slice_cont d m f x u : qpol (S d) m f -> length x = d -> continuous (fun t => f (t :: x)) u.
Proof.
  intros [c [Hc Ef]] Hx. apply (continuous_ext (fun t => sumn (S m) (fun b => c b x * t ^ b))); [intro; symmetry; apply Ef, Hx|].
  apply cont_R_sumn. intro b. apply cont_R_mul; [apply continuous_const|apply cont_R_pow].
Qed.
Lemma qpol_slice_int d m f x a b : qpol (S d) m f -> length x = d -> ex_RInt (fun t => f (t :: x)) a b.
Proof.
  intros H Hx. apply (ex_RInt_continuous (V := R_CompleteNormedModule)). intros u _. apply (qpol_slice_cont d m); assumption.
Qed.
Lemma BI_slice d m f c : (forall t x, length x = d -> f (t :: x) = sumn (S m) (fun b => c b x * t ^ b)) ->
  forall x, length x = d -> RInt (fun t => f (t :: x)) 0 1 = sumn (S m) (fun b => / INR (S b) * c b x).
Proof.
  intros Ef x Hx. apply (is_RInt_unique (V := R_CompleteNormedModule)).
  apply (is_RInt_ext (V := R_NormedModule) (fun t => sumn (S m) (fun b => c b x * t ^ b))); [intros t _; symmetry; apply Ef, Hx|].
  rewrite (Rsum_ext _ _ (fun b => c b x * 1 ^ S b / INR (S b))) by (intro b; rewrite pow1; unfold Rdiv; ring).
  apply (is_RInt_prim m (fun b => c b x) 1).
Qed.
Lemma qpol_RInt d m f : qpol (S d) m f -> qpol d m (fun x => RInt (fun t => f (t :: x)) 0 1).
Proof.
  intros [c [Hc Ef]]. apply (qpol_ext d _ (fun x => sumn (S m) (fun b => / INR (S b) * c b x))).
  - apply qpol_sumn. intros b Hb. apply qpol_scal, Hc. lia.
  - intros x Hx. symmetry. apply (BI_slice d m f c Ef x Hx).
Qed.
Lemma box_cons d t x : box (S d) (t :: x) <-> 0 <= t <= 1 /\ box d x.
Proof.
  unfold box. cbn [length]. split.
  - intros [L F]. inversion F as [|? ? Ht Fx]; subst. injection L as L. split; [exact Ht|]. split; assumption.
  - intros [Ht [L F]]. split; [congruence|]. apply List.Forall_cons; assumption.
Qed.
Theorem BI_definite d : forall m f, qpol d m f -> (forall x, box d x -> 0 <= f x) -> BI d f = 0 -> forall x, box d x -> f x = 0.
Proof.
  induction d as [|d IH]; intros m f Hf Hp H0 x Hx.
  - destruct x; [exact H0|]. destruct Hx; discriminate.
  - destruct x as [|t x]; [destruct Hx; discriminate|]. apply box_cons in Hx. destruct Hx as [Ht Hx]. destruct (Hx) as [L F].
    assert (G : RInt (fun t => f (t :: x)) 0 1 = 0).
    { apply (IH m (fun x => RInt (fun t => f (t :: x)) 0 1)); [apply qpol_RInt, Hf| |exact H0|exact Hx].
      intros y Hy. destruct (Hy) as [L' F']. apply RInt_ge_0; [lra|apply (qpol_slice_int d m); assumption|].
      intros s Hs. apply Hp, box_cons. split; [lra|exact Hy]. }
    apply (RInt_zero_cont (fun t => f (t :: x)) 0 1); [lra| | |exact G|exact Ht].
    + intro s. apply (qpol_slice_cont d m); assumption.
    + intros s Hs. apply Hp, box_cons. split; [exact Hs|exact Hx].
Qed.
Lemma box_ok d : cell_ok (box_cell d).
Proof. split; cbn; [apply qpol_le|apply qpol_mul|apply BI_definite]. Qed.

(** * Tensor rules *)
Fixpoint brule_of (d : nat) (r : list (R * R)) : srule :=
  match d with
  | O => [([], 1)]
  | S d' => flat_map (fun xw => map (fun uv => (fst uv :: fst xw, snd xw * snd uv)) r) (brule_of d' r)
  end.
Lemma brule_len d r xw : In xw (brule_of d r) -> length (fst xw) = d.
Proof.
  revert xw. induction d as [|d IH]; intros xw H; [destruct H as [<-|[]]; reflexivity|].
  apply in_flat_map in H. destruct H as [yw [Hy H]]. apply in_map_iff in H. destruct H as [uv [<- Hu]]. cbn. rewrite IH by exact Hy. reflexivity.
Qed.
Lemma brule_in r : (forall uw, In uw r -> 0 <= fst uw <= 1 /\ 0 < snd uw) -> forall d xw, In xw (brule_of d r) -> box d (fst xw) /\ 0 < snd xw.
Proof.
  intros Hr d. induction d as [|d IH]; intros xw H.
  - destruct H as [<-|[]]. split; [split; [reflexivity|apply List.Forall_nil]|cbn; lra].
  - apply in_flat_map in H. destruct H as [yw [Hy H]]. apply in_map_iff in H. destruct H as [uv [<- Hu]].
    destruct (IH yw Hy) as [B W]. destruct (Hr uv Hu) as [Hu1 Hu2]. cbn [fst snd].
    split; [apply box_cons; split; assumption|apply Rmult_lt_0_compat; assumption].
Qed.
Lemma brule_exact r m : moments r m -> forall d, rule_exact (box_cell d) m (brule_of d r).
Proof.
  intros HM d. induction d as [|d IH]; intros f Hf; cbn [box_cell rc_pol rc_int] in *.
  - cbn [brule_of BI]. rewrite Rsum_cons, Rsum_nil. cbn [fst snd]. ring.
  - cbn [brule_of]. rewrite Rsum_flat_map. cbn [BI].
    pose proof (IH (fun x => RInt (fun t => f (t :: x)) 0 1) (qpol_RInt d m f Hf)) as Q. cbn [box_cell rc_int] in Q. rewrite <- Q. clear Q.
    apply Rsum_ext_in. intros xw Hx. pose proof (brule_len _ _ _ Hx) as L. rewrite Rsum_map. cbn [fst snd].
    destruct Hf as [c [_ Ef]]. rewrite (BI_slice d m f c Ef) by exact L.
    set (x := fst xw) in *. set (w := snd xw).
    rewrite (Rsum_ext _ _ (fun uv => sumn (S m) (fun b => (w * c b x) * (snd uv * fst uv ^ b)))).
    2: { intro uv. rewrite Ef by exact L. rewrite <- Rsum_scal. apply Rsum_ext. intro b. ring. }
    rewrite Rsum_swap, <- Rsum_scal. apply sumn_ext. intros b Hb. rewrite Rsum_scal, HM by lia. ring.
Qed.

(** * Tensor product Lagrange elements with equidistant nodes *)
(** the indices with d entries at most k *)
Fixpoint grid (d k : nat) : list (list nat) :=
  match d with O => [[]] | S d' => flat_map (fun a => map (cons a) (grid d' k)) (seq 0 (S k)) end.
(** basis function i on the interval, and products *)
Definition lag1 (k i : nat) (t : R) : R := fac k i t * fac k (k - i) (1 - t).
Fixpoint qphi (k : nat) (al : list nat) (x : list R) : R :=
  match al, x with a :: al', t :: x' => lag1 k a t * qphi k al' x' | _, _ => 1 end.
Definition qnode (k : nat) (al : list nat) : list R := map (fun i => INR i / INR k) al.
Lemma in_grid d k : forall al, In al (grid d k) <-> length al = d /\ List.Forall (fun i => (i <= k)%nat) al.
Proof.
  induction d as [|d IH]; intro al.
  - cbn. split; [intros [<-|[]]; split; [reflexivity|apply List.Forall_nil]|]. intros [L _]. left. destruct al; [reflexivity|discriminate].
  - cbn [grid]. rewrite in_flat_map. split.
    + intros [a [Ha H]]. apply in_map_iff in H. destruct H as [be [<- Hb]]. apply IH in Hb. apply in_seq in Ha. destruct Hb as [L F].
      split; [cbn; congruence|]. apply List.Forall_cons; [lia|exact F].
    + intros [L F]. destruct al as [|a be]; [discriminate|]. injection L as L. inversion F; subst. exists a. split; [apply in_seq; lia|].
      apply in_map. apply IH. split; [reflexivity|assumption].
Qed.
Lemma grid_nodup d k : NoDup (grid d k).
Proof.
  induction d as [|d IH]; [cbn; repeat constructor; intros []|].
  cbn [grid]. apply NoDup_flat; [apply seq_NoDup| |].
  - intros a _. apply FinFun.Injective_map_NoDup; [|apply IH]. intros x y E. congruence.
  - intros a a' b Hb Hb'. apply in_map_iff in Hb. apply in_map_iff in Hb'. destruct Hb as [x [<- _]], Hb' as [y [E _]]. congruence.
Qed.
Lemma lag1_node k i j : (1 <= k)%nat -> (i <= k)%nat -> (j <= k)%nat -> lag1 k i (INR j / INR k) = if Nat.eqb i j then 1 else 0.
Proof.
  intros Hk Hi Hj. assert (K : INR k <> 0) by (apply not_0_INR; lia). unfold lag1.
  replace (1 - INR j / INR k) with (INR (k - j) / INR k) by (rewrite minus_INR by lia; field; exact K).
  destruct (Nat.eqb i j) eqn:E.
  - apply Nat.eqb_eq in E. subst j. rewrite !fac_one by exact Hk. ring.
  - apply Nat.eqb_neq in E. destruct (lt_dec j i) as [h|h].
    + rewrite (fac_zero k i j) by assumption. ring.
    + rewrite (fac_zero k (k - i) (k - j)) by (try assumption; lia). ring.
Qed.
Lemma qphi_node k d : forall al be, (1 <= k)%nat -> In al (grid d k) -> In be (grid d k) ->
  qphi k al (qnode k be) = if list_eq_dec Nat.eq_dec al be then 1 else 0.
Proof.
  induction d as [|d IH]; intros al be Hk Ha Hb.
  - destruct Ha as [<-|[]]. destruct Hb as [<-|[]]. reflexivity.
  - apply in_grid in Ha. apply in_grid in Hb. destruct Ha as [La Fa], Hb as [Lb Fb].
    destruct al as [|a al]; [discriminate|]. destruct be as [|b be]; [discriminate|]. injection La as La. injection Lb as Lb.
    inversion Fa; subst. inversion Fb; subst. cbn [qnode map qphi]. rewrite lag1_node by assumption.
    fold (qnode k be). rewrite (IH al be Hk) by (apply in_grid; split; congruence || assumption).
    destruct (Nat.eqb a b) eqn:E.
    + apply Nat.eqb_eq in E. subst b. destruct (list_eq_dec Nat.eq_dec al be) as [->|Hne].
      * destruct (list_eq_dec Nat.eq_dec (a :: be) (a :: be)); [ring|congruence].
      * destruct (list_eq_dec Nat.eq_dec (a :: al) (a :: be)); [congruence|ring].
    + apply Nat.eqb_neq in E. destruct (list_eq_dec Nat.eq_dec (a :: al) (b :: be)); [congruence|ring].
Qed.
(** one variable: degree k *)
Lemma qpol_hd d m (p : R -> R) : (exists c, forall t, p t = sumn (S m) (fun b => c b * t ^ b)) -> qpol (S d) m (fun y => p (hd 0 y)).
Proof.
  intros [c Hc]. exists (fun b _ => c b). split; [intros; apply qpol_const|]. intros t x _. cbn [hd]. apply Hc.
Qed.
Lemma pol_one m f : pol 1 m f -> exists c, forall t, f [t] = sumn (S m) (fun b => c b * t ^ b).
Proof.
  intros [c [_ Ef]]. exists (fun b => c b []). intro t. apply (Ef t []). reflexivity.
Qed.
Lemma lag1_poly k i : (i <= k)%nat -> exists c, forall t, lag1 k i t = sumn (S k) (fun b => c b * t ^ b).
Proof.
  intro Hi. destruct (pol_one k (fun x => fac k i (nth 0 x 0) * fac k (k - i) (1 - nth 0 x 0))) as [c Hc].
  - replace k with (i + (k - i))%nat at 1 by lia. apply pol_mul; apply pol_fac.
    + apply (pol_nth 1 1 0). lia.
    + apply (pol_ext 1 1 (fun x => 1 + (-1) * nth 0 x 0)); [|intros; ring]. apply pol_add; [apply pol_const|apply pol_scal, pol_nth; lia].
  - exists c. intro t. exact (Hc t).
Qed.
Lemma qpol_tail d m c : qpol d m c -> qpol (S d) m (fun y => c (tl y)).
Proof. intro H. apply (qpol_ext (S d) m (fun y => c (tl y) * hd 0 y ^ 0)); [apply qpol_term; [lia|exact H]|]. intros. cbn. ring. Qed.
(** the product of a polynomial of the head and one of the tail has the same degree *)
Lemma qpol_hd_tail d m (p : R -> R) g : (exists c, forall t, p t = sumn (S m) (fun b => c b * t ^ b)) -> qpol d m g ->
  qpol (S d) m (fun y => p (hd 0 y) * g (tl y)).
Proof.
  intros [c Hc] Hg. exists (fun b x => c b * g x). split; [intros; apply qpol_scal, Hg|].
  intros t x _. cbn [hd tl]. rewrite Hc, <- Rsum_scal_r. apply Rsum_ext. intro b. ring.
Qed.
Lemma qpol_qphi k d : forall al, In al (grid d k) -> qpol d k (qphi k al).
Proof.
  induction d as [|d IH]; intros al Ha; [exact I|]. apply in_grid in Ha. destruct Ha as [L F].
  destruct al as [|a al]; [discriminate|]. injection L as L. inversion F; subst.
  apply (qpol_ext (S (length al)) k (fun y => lag1 k a (hd 0 y) * qphi k al (tl y))).
  - apply qpol_hd_tail; [apply lag1_poly; assumption|]. apply IH, in_grid. split; [reflexivity|assumption].
  - intros [|t x] Hx; [discriminate|reflexivity].
Qed.
Lemma qnode_in k d al : (1 <= k)%nat -> In al (grid d k) -> box d (qnode k al).
Proof.
  intros Hk Ha. apply in_grid in Ha. destruct Ha as [L F]. assert (K : 0 < INR k) by (apply lt_0_INR; lia).
  split; [unfold qnode; rewrite map_length; exact L|]. apply List.Forall_forall. intros y Hy. apply in_map_iff in Hy.
  destruct Hy as [i [<- Hi]]. rewrite List.Forall_forall in F. pose proof (le_INR _ _ (F i Hi)). pose proof (pos_INR i). split.
  - apply Rmult_le_pos; [assumption|apply Rlt_le, Rinv_0_lt_compat, K].
  - apply (Rmult_le_reg_r (INR k)); [exact K|]. unfold Rdiv. rewrite Rmult_assoc, Rinv_l, Rmult_1_r, Rmult_1_l by lra. assumption.
Qed.
