(** Simplex.v -- functions on the reference simplex, for the meshes of the 2D and 3D drivers.

    SpaceTime.__init__ (src/dxss/space_time.py:118-140) builds its spaces from Lagrange elements
    of orders k and kstar on the simplicial meshes of src/dxss/meshes.py and integrates over the
    cells with a rule of degree 2k+3 (lines 127-128).  The model takes the tables of the elements
    at the points of the rule as given (FormModel.v, record disc).  Here: polynomials of d
    variables, their integral over the reference simplex and the fact that a nonnegative
    polynomial with integral zero vanishes.

    Points are lists of d reals.  The integral is the iterated Riemann integral. *)
From Coq Require Import Reals List Lra Lia.
From Coquelicot Require Import Coquelicot.
From Verif Require Import Base FormSym.
Import ListNotations.
Open Scope R_scope.

(** the sum of the coordinates *)
Definition total (x : list R) : R := fold_right Rplus 0 x.
(** the closed reference simplex *)
Definition simplex (d : nat) (x : list R) : Prop := length x = d /\ List.Forall (fun t => 0 <= t) x /\ total x <= 1.
(** the integral over the reference simplex of dimension d, innermost variable first in the list *)
Fixpoint SI (d : nat) (f : list R -> R) : R :=
  match d with
  | O => f []
  | S d' => SI d' (fun x => RInt (fun t => f (t :: x)) 0 (1 - total x))
  end.
(** polynomials of d variables and total degree at most m *)
Fixpoint pol (d m : nat) (f : list R -> R) : Prop :=
  match d with
  | O => True
  | S d' => exists c : nat -> list R -> R, (forall b, (b <= m)%nat -> pol d' (m - b) (c b))
      /\ forall t x, length x = d' -> f (t :: x) = sumn (S m) (fun b => c b x * t ^ b)
  end.

Lemma pol_ext d : forall m f g, pol d m f -> (forall x, length x = d -> f x = g x) -> pol d m g.
Proof.
  destruct d as [|d]; intros m f g H E; [exact I|]. destruct H as [c [Hc Hf]]. exists c. split; [exact Hc|].
  intros t x Hx. rewrite <- E by (cbn; congruence). apply Hf, Hx.
Qed.
Lemma pol_zero d : forall m, pol d m (fun _ => 0).
Proof.
  induction d as [|d IH]; intro m; [exact I|]. exists (fun _ _ => 0). split; [intros; apply IH|].
  intros. symmetry. apply Rsum_zero. intros; ring.
Qed.
Lemma pol_const d : forall m r, pol d m (fun _ => r).
Proof.
  induction d as [|d IH]; intros m r; [exact I|]. exists (fun b _ => if Nat.eqb b 0 then r else 0). split.
  - intros b _. destruct (Nat.eqb b 0); [apply IH|apply pol_zero].
  - intros t x _. rewrite sumn_S_l. cbn [Nat.eqb pow]. rewrite Rsum_zero by (intros; ring). ring.
Qed.
Lemma sumn_pad m m' (f : nat -> R) : (m <= m')%nat -> sumn m' (fun b => if Nat.ltb b m then f b else 0) = sumn m f.
Proof.
  intro H. induction H as [|m' H IH].
  - apply sumn_ext. intros i Hi. rewrite (proj2 (Nat.ltb_lt _ _)) by lia. reflexivity.
  - rewrite sumn_S, IH, (proj2 (Nat.ltb_ge _ _)) by lia. ring.
Qed.
Lemma pol_le d : forall m m' f, (m <= m')%nat -> pol d m f -> pol d m' f.
Proof.
  induction d as [|d IH]; intros m m' f H Hp; [exact I|]. destruct Hp as [c [Hc Hf]].
  exists (fun b x => if Nat.ltb b (S m) then c b x else 0). split.
  - intros b Hb. destruct (Nat.ltb b (S m)) eqn:E; [|apply pol_zero]. apply Nat.ltb_lt in E.
    apply (IH (m - b)%nat); [lia|]. apply Hc. lia.
  - intros t x Hx. rewrite (Hf t x Hx), <- (sumn_pad (S m) (S m')) by lia. apply Rsum_ext. intro b.
    destruct (Nat.ltb b (S m)); ring.
Qed.
Lemma pol_add d : forall m f g, pol d m f -> pol d m g -> pol d m (fun x => f x + g x).
Proof.
  induction d as [|d IH]; intros m f g Hf Hg; [exact I|]. destruct Hf as [c [Hc Ef]], Hg as [e [He Eg]].
  exists (fun b x => c b x + e b x). split; [intros b Hb; apply IH; auto|].
  intros t x Hx. rewrite Ef, Eg, <- Rsum_plus by exact Hx. apply Rsum_ext. intro b. ring.
Qed.
Lemma pol_scal d : forall m r f, pol d m f -> pol d m (fun x => r * f x).
Proof.
  induction d as [|d IH]; intros m r f Hf; [exact I|]. destruct Hf as [c [Hc Ef]].
  exists (fun b x => r * c b x). split; [intros b Hb; apply IH; auto|].
  intros t x Hx. rewrite Ef, <- Rsum_scal by exact Hx. apply Rsum_ext. intro b. ring.
Qed.
Lemma pol_sum {A} d m (l : list A) f : (forall i, In i l -> pol d m (f i)) -> pol d m (fun x => Rsum l (fun i => f i x)).
Proof.
  induction l as [|a l IH]; intro H; [apply pol_zero|]. 
  apply (pol_ext d m (fun x => f a x + Rsum l (fun i => f i x))); [|reflexivity].
  apply pol_add; [apply H; left; reflexivity|apply IH; intros; apply H; right; assumption].
Qed.
Lemma pol_sumn d m n f : (forall i, (i < n)%nat -> pol d m (f i)) -> pol d m (fun x => sumn n (fun i => f i x)).
Proof. intro H. apply pol_sum. intros i Hi. apply H. apply in_seq in Hi. lia. Qed.
(** a polynomial of the tail times a power of the first variable *)
Lemma pol_term d j i c : pol d j c -> pol (S d) (j + i) (fun y => c (tl y) * hd 0 y ^ i).
Proof.
  intro H. exists (fun b x => if Nat.eqb b i then c x else 0). split.
  - intros b Hb. destruct (Nat.eqb b i) eqn:E; [|apply pol_zero]. apply Nat.eqb_eq in E. subst b.
    replace (j + i - i)%nat with j by lia. exact H.
  - intros t x _. cbn [tl hd]. rewrite (sumn_ext _ _ (fun b => delta i b * (c x * t ^ b))).
    + rewrite sumn_delta by lia. reflexivity.
    + intros b _. unfold delta. rewrite Nat.eqb_sym. destruct (Nat.eqb i b); ring.
Qed.
Lemma pol_mul d : forall m n f g, pol d m f -> pol d n g -> pol d (m + n) (fun x => f x * g x).
Proof.
  induction d as [|d IH]; intros m n f g Hf Hg; [exact I|]. destruct Hf as [c [Hc Ef]], Hg as [e [He Eg]].
  apply (pol_ext (S d) _ (fun y => sumn (S m) (fun a => sumn (S n) (fun b => (c a (tl y) * e b (tl y)) * hd 0 y ^ (a + b))))).
  - apply pol_sumn. intros a Ha. apply pol_sumn. intros b Hb.
    apply (pol_le (S d) (((m - a) + (n - b)) + (a + b))); [lia|].
    apply (pol_term d _ (a + b) (fun x => c a x * e b x)). apply IH; [apply Hc|apply He]; lia.
  - intros [|t x] Hx; [discriminate|]. injection Hx as Hx. rewrite Ef, Eg by exact Hx. cbn [tl hd].
    rewrite Rsum_mult. apply Rsum_ext. intro a. apply Rsum_ext. intro b. rewrite pow_add. ring.
Qed.
Lemma pol_pow d m f : pol d m f -> forall n, pol d (n * m) (fun x => f x ^ n).
Proof.
  intros H n. induction n as [|n IH]; [exact (pol_const d _ 1)|]. cbn [pow Nat.mul]. apply pol_mul; assumption.
Qed.
(** a function of the tail only *)
Lemma pol_tail d m c : pol d m c -> pol (S d) m (fun y => c (tl y)).
Proof.
  intro H. apply (pol_ext (S d) m (fun y => c (tl y) * hd 0 y ^ 0)); [|intros; cbn; ring].
  apply (pol_le _ (m + 0)); [lia|]. apply pol_term, H.
Qed.
Lemma pol_hd d m : (1 <= m)%nat -> pol (S d) m (fun y => hd 0 y).
Proof.
  intro H. apply (pol_le _ (0 + 1)); [lia|]. apply (pol_ext (S d) _ (fun y => 1 * hd 0 y ^ 1)); [|intros; cbn; ring].
  apply (pol_term d 0 1 (fun _ => 1)), pol_const.
Qed.
(** coordinates *)
Lemma pol_nth d : forall m i, (1 <= m)%nat -> pol d m (fun y => nth i y 0).
Proof.
  induction d as [|d IH]; intros m i H; [exact I|]. destruct i as [|i].
  - apply (pol_ext _ _ (fun y => hd 0 y)); [apply pol_hd, H|]. intros [|t x] Hx; reflexivity.
  - apply (pol_ext _ _ (fun y => nth i (tl y) 0)); [apply (pol_tail d m (fun x => nth i x 0)), IH, H|].
    intros [|t x] Hx; [discriminate|reflexivity].
Qed.
Lemma pol_total d : forall m, (1 <= m)%nat -> pol d m total.
Proof.
  induction d as [|d IH]; intros m H; [exact I|].
  apply (pol_ext _ _ (fun y => hd 0 y + total (tl y))).
  - apply pol_add; [apply pol_hd, H|apply pol_tail, IH, H].
  - intros [|t x] Hx; [discriminate|reflexivity].
Qed.
Lemma pol_rest d m : (1 <= m)%nat -> pol d m (fun x => 1 - total x).
Proof.
  intro H. apply (pol_ext _ _ (fun x => 1 + (-1) * total x)); [|intros; ring].
  apply pol_add; [apply pol_const|apply pol_scal, pol_total, H].
Qed.

(** * Continuity and integrals *)
Lemma cont_R_sumn n (f : nat -> R -> R) u : (forall b, continuous (f b) u) -> continuous (fun t => sumn n (fun b => f b t)) u.
Proof.
  intro H. induction n as [|n IH].
  - apply (continuous_ext (fun _ => 0)); [reflexivity|apply continuous_const].
  - apply (continuous_ext (fun t => sumn n (fun b => f b t) + f n t)); [intro; rewrite sumn_S; reflexivity|].
    apply (continuous_plus (V := R_NormedModule)); [exact IH|apply H].
Qed.
Lemma cont_R_pow n u : continuous (fun t : R => t ^ n) u.
Proof.
  apply continuity_pt_filterlim. apply derivable_continuous_pt, derivable_pt_pow.
Qed.
Lemma cont_R_mul (f g : R -> R) u : continuous f u -> continuous g u -> continuous (fun t => f t * g t) u.
Proof. intros. apply (continuous_mult (K := R_AbsRing)); assumption. Qed.

(** the inner integral, explicitly *)
Definition prim (m : nat) (c : nat -> R) (r : R) : R := sumn (S m) (fun b => c b * r ^ S b / INR (S b)).
Lemma derivable_pt_lim_ext f g x l : (forall t, f t = g t) -> derivable_pt_lim f x l -> derivable_pt_lim g x l.
Proof. intros E H eps He. destruct (H eps He) as [de Hd]. exists de. intros h Hh Hl. rewrite <- !E. apply Hd; assumption. Qed.
Lemma is_RInt_pow (a : R) b r : is_RInt (fun t => a * t ^ b) 0 r (a * r ^ S b / INR (S b)).
Proof.
  assert (Hb : INR (S b) <> 0) by (apply not_0_INR; lia).
  replace (a * r ^ S b / INR (S b)) with (minus (a * r ^ S b / INR (S b)) (a * 0 ^ S b / INR (S b))).
  2: { unfold minus, plus, opp; cbn [AbelianGroup.opp AbelianGroup.plus]. change (a * r ^ S b / INR (S b) + - (a * 0 ^ S b / INR (S b)) = a * r ^ S b / INR (S b)).
       cbn [pow]. field. exact Hb. }
  apply (is_RInt_derive (V := R_CompleteNormedModule) (fun t => a * t ^ S b / INR (S b)) (fun t => a * t ^ b)).
  - intros x _. apply is_derive_Reals.
    replace (a * x ^ b) with (a * / INR (S b) * (INR (S b) * x ^ pred (S b))) by (cbn [pred]; field; exact Hb).
    apply (derivable_pt_lim_ext (fun t => a * / INR (S b) * t ^ S b)); [intro; unfold Rdiv; ring|].
    apply (derivable_pt_lim_scal (fun t => t ^ S b)), derivable_pt_lim_pow.
  - intros x _. apply cont_R_mul; [apply continuous_const|apply cont_R_pow].
Qed.
Lemma is_RInt_prim m c r : is_RInt (fun t => sumn (S m) (fun b => c b * t ^ b)) 0 r (prim m c r).
Proof.
  unfold prim. induction (S m) as [|n IH].
  - apply (is_RInt_ext (V := R_NormedModule) (fun _ => 0)); [reflexivity|]. 
    assert (K : scal (r - 0) (0 : R_NormedModule) = 0) by (apply (scal_zero_r (V := R_NormedModule))).
    change (is_RInt (fun _ => 0) 0 r 0). rewrite <- K at 2.
    apply (is_RInt_const (V := R_NormedModule)).
  - apply (is_RInt_ext (V := R_NormedModule) (fun t => plus (sumn n (fun b => c b * t ^ b)) (c n * t ^ n))).
    + intros t _. rewrite sumn_S. reflexivity.
    + rewrite sumn_S. apply (is_RInt_plus (V := R_NormedModule)); [exact IH|apply is_RInt_pow].
Qed.
Lemma pol_RInt d m f : pol (S d) m f -> pol d (m + 1) (fun x => RInt (fun t => f (t :: x)) 0 (1 - total x)).
Proof.
  intros [c [Hc Ef]]. apply (pol_ext d _ (fun x => prim m (fun b => c b x) (1 - total x))).
  - unfold prim. apply pol_sumn. intros b Hb.
    apply (pol_ext d _ (fun x => / INR (S b) * (c b x * (1 - total x) ^ S b))); [|intros; unfold Rdiv; ring].
    apply pol_scal. apply (pol_le d ((m - b) + S b * 1)); [lia|]. apply pol_mul; [apply Hc; lia|].
    apply (pol_pow d 1 (fun x => 1 - total x)). apply pol_rest. lia.
  - intros x Hx. symmetry. apply (is_RInt_unique (V := R_CompleteNormedModule)).
    apply (is_RInt_ext (V := R_NormedModule) (fun t => sumn (S m) (fun b => c b x * t ^ b))); [intros t _; symmetry; apply Ef, Hx|].
    apply (is_RInt_prim m (fun b => c b x)).
Qed.
Lemma pol_slice_cont d m f x u : pol (S d) m f -> length x = d -> continuous (fun t => f (t :: x)) u.
Proof.
  intros [c [Hc Ef]] Hx. apply (continuous_ext (fun t => sumn (S m) (fun b => c b x * t ^ b))); [intro; symmetry; apply Ef, Hx|].
  apply cont_R_sumn. intro b. apply cont_R_mul; [apply continuous_const|apply cont_R_pow].
Qed.
Lemma pol_slice_int d m f x a b : pol (S d) m f -> length x = d -> ex_RInt (fun t => f (t :: x)) a b.
Proof.
  intros H Hx. apply (ex_RInt_continuous (V := R_CompleteNormedModule)). intros u _. apply (pol_slice_cont d m); assumption.
Qed.
(** the integral is monotone and linear on polynomials *)
Lemma SI_ext d : forall f g, (forall x, length x = d -> f x = g x) -> SI d f = SI d g.
Proof.
  induction d as [|d IH]; intros f g H; [apply H; reflexivity|]. cbn [SI]. apply IH. intros x Hx.
  apply (RInt_ext (V := R_CompleteNormedModule)). intros t _. apply H. cbn. congruence.
Qed.
Lemma SI_add d : forall m f g, pol d m f -> pol d m g -> SI d (fun x => f x + g x) = SI d f + SI d g.
Proof.
  induction d as [|d IH]; intros m f g Hf Hg; [reflexivity|]. cbn [SI].
  rewrite <- (IH (m + 1)%nat) by (apply pol_RInt; assumption). apply SI_ext. intros x Hx.
  apply (RInt_plus (V := R_CompleteNormedModule)); apply (pol_slice_int d m); assumption.
Qed.
Lemma SI_scal d : forall m r f, pol d m f -> SI d (fun x => r * f x) = r * SI d f.
Proof.
  induction d as [|d IH]; intros m r f Hf; [reflexivity|]. cbn [SI].
  rewrite <- (IH (m + 1)%nat) by (apply pol_RInt; assumption). apply SI_ext. intros x Hx.
  apply (RInt_scal (V := R_CompleteNormedModule)); apply (pol_slice_int d m); assumption.
Qed.
Lemma SI_zero d : SI d (fun _ => 0) = 0.
Proof. rewrite (SI_ext d _ (fun x => 0 * 0)) by (intros; ring). rewrite (SI_scal d 0 0 (fun _ => 0)) by apply pol_zero. ring. Qed.
Lemma SI_sum {A} d m (l : list A) f : (forall i, In i l -> pol d m (f i)) ->
  SI d (fun x => Rsum l (fun i => f i x)) = Rsum l (fun i => SI d (f i)).
Proof.
  induction l as [|a l IH]; intro H; [apply SI_zero|]. rewrite Rsum_cons, <- IH by (intros; apply H; right; assumption).
  rewrite <- (SI_add d m); [reflexivity|apply H; left; reflexivity|apply pol_sum; intros; apply H; right; assumption].
Qed.
Lemma total_cons t x : total (t :: x) = t + total x.
Proof. reflexivity. Qed.
Lemma total_nonneg x : List.Forall (fun t => 0 <= t) x -> 0 <= total x.
Proof. intro H. induction H as [|t x Ht _ IH]; [cbn; lra|]. rewrite total_cons. lra. Qed.
Lemma simplex_cons d t x : simplex (S d) (t :: x) <-> 0 <= t <= 1 - total x /\ simplex d x.
Proof.
  unfold simplex. rewrite total_cons. cbn [length]. split.
  - intros [L [F T]]. inversion F as [|? ? Ht Fx]; subst. injection L as L. split; [lra|]. split; [exact L|]. split; [exact Fx|lra].
  - intros [Ht [L [F T]]]. split; [congruence|]. split; [apply List.Forall_cons; [lra|exact F]|lra].
Qed.
Lemma SI_nonneg d : forall m f, pol d m f -> (forall x, simplex d x -> 0 <= f x) -> 0 <= SI d f.
Proof.
  induction d as [|d IH]; intros m f Hf Hp; [apply Hp; repeat split; [apply List.Forall_nil|cbn; lra]|]. cbn [SI].
  apply (IH (m + 1)%nat); [apply pol_RInt, Hf|]. intros x Hx.
  destruct (Hx) as [L [F T]]. apply RInt_ge_0; [lra|apply (pol_slice_int d m); assumption|].
  intros t Ht. apply Hp, simplex_cons. split; [lra|exact Hx].
Qed.
(** a nonnegative polynomial with integral zero *)
Lemma SI_vanish d : forall m f, pol d m f -> (forall x, simplex d x -> 0 <= f x) -> SI d f = 0 ->
  forall x, simplex d x -> total x < 1 -> f x = 0.
Proof.
  induction d as [|d IH]; intros m f Hf Hp H0 x Hx Ht.
  - destruct x; [exact H0|]. destruct Hx; discriminate.
  - destruct x as [|t x]; [destruct Hx; discriminate|]. apply simplex_cons in Hx. destruct Hx as [Htx Hx].
    rewrite total_cons in Ht. destruct (Hx) as [L [F T]].
    assert (G : RInt (fun t => f (t :: x)) 0 (1 - total x) = 0).
    { apply (IH (m + 1)%nat (fun x => RInt (fun t => f (t :: x)) 0 (1 - total x))); [apply pol_RInt, Hf| |exact H0|exact Hx|lra].
      intros y Hy. destruct (Hy) as [L' [F' T']]. apply RInt_ge_0; [lra|apply (pol_slice_int d m); assumption|].
      intros s Hs. apply Hp, simplex_cons. split; [lra|exact Hy]. }
    apply (RInt_zero_cont (fun t => f (t :: x)) 0 (1 - total x)); [lra| | |exact G|exact Htx].
    + intro s. apply (pol_slice_cont d m); assumption.
    + intros s Hs. apply Hp, simplex_cons. split; [exact Hs|exact Hx].
Qed.
(** along the segment to the origin a polynomial is continuous *)
Lemma pol_ray d : forall m f x u, pol d m f -> length x = d -> continuous (fun s => f (map (Rmult s) x)) u.
Proof.
  induction d as [|d IH]; intros m f x u Hf Hx.
  - destruct x; [|discriminate]. apply continuous_const.
  - destruct x as [|t x]; [discriminate|]. injection Hx as Hx. destruct Hf as [c [Hc Ef]].
    apply (continuous_ext (fun s => sumn (S m) (fun b => (if Nat.leb b m then c b (map (Rmult s) x) else 0) * (s * t) ^ b))).
    + intro s. cbn [map]. rewrite Ef by (rewrite map_length; exact Hx). apply sumn_ext. intros b Hb.
      rewrite (proj2 (Nat.leb_le _ _)) by lia. reflexivity.
    + apply cont_R_sumn. intro b. apply cont_R_mul.
      * destruct (Nat.leb b m) eqn:E; [|apply continuous_const]. apply Nat.leb_le in E. apply (IH (m - b)%nat); [apply Hc, E|exact Hx].
      * apply (continuous_comp (fun s => s * t) (fun s => s ^ b)); [|apply cont_R_pow].
        apply cont_R_mul; [apply continuous_id|apply continuous_const].
Qed.
Lemma total_scale s x : total (map (Rmult s) x) = s * total x.
Proof. induction x as [|t x IH]; [cbn; ring|]. cbn [map]. rewrite !total_cons, IH. ring. Qed.
Lemma cont_limit_zero (g : R -> R) : continuous g 1 -> (forall s, 0 <= s < 1 -> g s = 0) -> g 1 = 0.
Proof.
  intros Hc Hz. destruct (Req_dec (g 1) 0) as [|Hne]; [assumption|exfalso].
  apply continuity_pt_filterlim in Hc. destruct (Hc (Rabs (g 1)) ltac:(apply Rabs_pos_lt, Hne)) as [e [He Hn]].
  set (s := Rmax 0 (1 - e / 2)).
  assert (Hs : 0 <= s < 1) by (unfold s; split; [apply Rmax_l|apply Rmax_lub_lt; lra]).
  assert (Hd : Rabs (s - 1) < e) by (rewrite Rabs_left by lra; unfold s, Rmax; destruct (Rle_dec 0 (1 - e / 2)); lra).
  specialize (Hn s). assert (D : D_x no_cond 1 s /\ dist R_met s 1 < e).
  { split; [split; [exact I|lra]|]. exact Hd. }
  specialize (Hn D). simpl in Hn. unfold R_dist in Hn. rewrite (Hz s Hs) in Hn. 
  replace (0 - g 1) with (- g 1) in Hn by ring. rewrite Rabs_Ropp in Hn. lra.
Qed.
Theorem SI_definite d m f : pol d m f -> (forall x, simplex d x -> 0 <= f x) -> SI d f = 0 ->
  forall x, simplex d x -> f x = 0.
Proof.
  intros Hf Hp H0 x Hx. destruct (Hx) as [L [F T]].
  replace x with (map (Rmult 1) x) by (rewrite (map_ext _ (fun t => t)) by (intro; ring); apply map_id).
  apply (cont_limit_zero (fun s => f (map (Rmult s) x))); [apply (pol_ray d m); assumption|].
  intros s Hs. pose proof (total_nonneg x F).
  apply (SI_vanish d m f Hf Hp H0); [|rewrite total_scale; nra].
  split; [rewrite map_length; exact L|]. split; [|rewrite total_scale; nra].
  apply List.Forall_forall. intros y Hy. apply in_map_iff in Hy. destruct Hy as [z [<- Hz]]. rewrite List.Forall_forall in F.
  apply Rmult_le_pos; [lra|apply F, Hz].
Qed.
