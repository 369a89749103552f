(** SimplexRule.v -- rules and elements on the reference simplex.

    The dx measure of SpaceTime has the metadata quadrature_degree = 2k+3
    (src/dxss/space_time.py:127-128).  A rule of degree m integrates the polynomials of total
    degree m exactly.  The spaces are Lagrange elements (ufl "CG", space_time.py:252-262 and
    308-318).  Simplified: the rule is any rule with that degree and positive weights (the
    shipped one is chosen inside basix); for the elements only what the argument uses is asked
    for, and the equidistant Lagrange elements of every order are shown to have it. *)
From Coq Require Import Reals List Lra Lia.
From Coquelicot Require Import Coquelicot.
From Verif Require Import Base Simplex.
Import ListNotations.
Open Scope R_scope.

(** points with weights *)
Definition srule := list (list R * R).
(** exact for polynomials of degree m on the d-dimensional reference simplex *)
Definition exact_on (d m : nat) (r : srule) : Prop := forall f, pol d m f -> Rsum r (fun xw => snd xw * f (fst xw)) = SI d f.

(** * Rules from rules on the interval *)
(** a rule on [0,1] exact for degree M *)
Definition moments (r : list (R * R)) (M : nat) : Prop := forall b, (b <= M)%nat -> Rsum r (fun uw => snd uw * fst uw ^ b) = / INR (S b).
(** one more dimension: t = (1 - total x) u *)
Definition collapse (r : list (R * R)) (rd : srule) : srule :=
  flat_map (fun xw => map (fun uv => ((1 - total (fst xw)) * fst uv :: fst xw, snd xw * (1 - total (fst xw)) * snd uv)) r) rd.
Fixpoint srule_of (d : nat) (r : list (R * R)) : srule :=
  match d with O => [([], 1)] | S d' => collapse r (srule_of d' r) end.
Definition inner (d : nat) (xw : list R * R) : Prop := length (fst xw) = d /\ List.Forall (fun t => 0 <= t) (fst xw) /\ total (fst xw) < 1 /\ 0 < snd xw.

Lemma srule_inner r : (forall uw, In uw r -> 0 <= fst uw < 1 /\ 0 < snd uw) -> forall d xw, In xw (srule_of d r) -> inner d xw.
Proof.
  intros Hr d. induction d as [|d IH]; intros xw H.
  - destruct H as [<-|[]]. split; [reflexivity|]. split; [apply List.Forall_nil|]. cbn. lra.
  - apply in_flat_map in H. destruct H as [yw [Hy H]]. apply in_map_iff in H. destruct H as [uv [<- Hu]].
    destruct (IH yw Hy) as [L [F [T W]]]. destruct (Hr uv Hu) as [Hu1 Hu2]. cbn [fst snd]. unfold inner. cbn [fst snd].
    split; [cbn; congruence|]. split; [apply List.Forall_cons; [apply Rmult_le_pos; lra|exact F]|].
    split; [rewrite total_cons; nra|]. apply Rmult_lt_0_compat; [apply Rmult_lt_0_compat; lra|lra].
Qed.
Lemma srule_len d r xw : In xw (srule_of d r) -> length (fst xw) = d.
Proof.
  revert xw. induction d as [|d IH]; intros xw H; [destruct H as [<-|[]]; reflexivity|].
  apply in_flat_map in H. destruct H as [yw [Hy H]]. apply in_map_iff in H. destruct H as [uv [<- Hu]]. cbn. rewrite IH by exact Hy. reflexivity.
Qed.
Lemma SI_prim d m f c : (forall t x, length x = d -> f (t :: x) = sumn (S m) (fun b => c b x * t ^ b)) ->
  forall x, length x = d -> RInt (fun t => f (t :: x)) 0 (1 - total x) = prim m (fun b => c b x) (1 - total x).
Proof.
  intros Ef x Hx. apply (is_RInt_unique (V := R_CompleteNormedModule)).
  apply (is_RInt_ext (V := R_NormedModule) (fun t => sumn (S m) (fun b => c b x * t ^ b))); [intros t _; symmetry; apply Ef, Hx|].
  apply (is_RInt_prim m (fun b => c b x)).
Qed.
Lemma srule_exact r M : moments r M -> forall d m, (m + d <= S M)%nat -> exact_on d m (srule_of d r).
Proof.
  intros HM d. induction d as [|d IH]; intros m Hm f Hf.
  - cbn [srule_of SI]. rewrite Rsum_cons, Rsum_nil. cbn [fst snd]. ring.
  - cbn [srule_of]. unfold collapse. rewrite Rsum_flat_map. cbn [SI].
    rewrite <- (IH (m + 1)%nat ltac:(lia) (fun x => RInt (fun t => f (t :: x)) 0 (1 - total x)) (pol_RInt d m f Hf)).
    apply Rsum_ext_in. intros xw Hx. pose proof (srule_len _ _ _ Hx) as L. rewrite Rsum_map. cbn [fst snd].
    destruct Hf as [c [_ Ef]]. rewrite (SI_prim d m f c Ef) by exact L. unfold prim.
    set (x := fst xw) in *. set (w := snd xw). set (q := 1 - total x).
    rewrite (Rsum_ext _ _ (fun uv => sumn (S m) (fun b => (w * q * (c b x * q ^ b)) * (snd uv * fst uv ^ b)))).
    2: { intro uv. rewrite Ef by exact L. rewrite <- Rsum_scal. apply Rsum_ext. intro b. rewrite Rpow_mult_distr. ring. }
    rewrite Rsum_swap, <- Rsum_scal. apply sumn_ext. intros b Hb. rewrite Rsum_scal, HM by lia. cbn [pow]. unfold Rdiv. ring.
Qed.

(** the five-point Gauss rule on [0,1], degree 9 *)
Definition g5s : R := sqrt (10 / 7).
Definition g5a : R := sqrt ((5 - 2 * g5s) / 9).
Definition g5b : R := sqrt ((5 + 2 * g5s) / 9).
Definition gauss5 : list (R * R) :=
  [((1 - g5b) / 2, (322 - 91 * g5s) / 1800); ((1 - g5a) / 2, (322 + 91 * g5s) / 1800); (1 / 2, 64 / 225);
   ((1 + g5a) / 2, (322 + 91 * g5s) / 1800); ((1 + g5b) / 2, (322 - 91 * g5s) / 1800)].
Lemma g5s_sq : g5s * g5s = 10 / 7. Proof. apply sqrt_def. lra. Qed.
Lemma g5s_bd : 1 < g5s < 6 / 5.
Proof.
  pose proof g5s_sq. assert (0 <= g5s) by apply sqrt_pos. split.
  - destruct (Rlt_dec 1 g5s); [assumption|nra].
  - destruct (Rlt_dec g5s (6 / 5)); [assumption|nra].
Qed.
Lemma g5a_sq : g5a * g5a = (5 - 2 * g5s) / 9. Proof. apply sqrt_def. pose proof g5s_bd. lra. Qed.
Lemma g5b_sq : g5b * g5b = (5 + 2 * g5s) / 9. Proof. apply sqrt_def. pose proof g5s_bd. lra. Qed.
Lemma gauss5_in : forall uw, In uw gauss5 -> 0 <= fst uw < 1 /\ 0 < snd uw.
Proof.
  pose proof g5s_bd. assert (0 <= g5a) by apply sqrt_pos. assert (0 <= g5b) by apply sqrt_pos.
  pose proof g5a_sq. pose proof g5b_sq. assert (g5a < 1) by nra. assert (g5b < 1) by nra.
  intros uw H'. cbn in H'. destruct H' as [<-|[<-|[<-|[<-|[<-|[]]]]]]; cbn [fst snd]; lra.
Qed.
Lemma gauss5_moments : moments gauss5 9.
Proof.
  unfold moments, gauss5. pose proof g5s_sq as Hs. pose proof g5a_sq as Ha. pose proof g5b_sq as Hb.
  assert (Is : exists s, g5s = s / 7 /\ s * s = 70) by (exists (7 * g5s); split; [field|nra]). destruct Is as [s [Es Hs']].
  assert (Ia : exists a, g5a = a / 63 /\ a * a = 2205 - 126 * s) by (exists (63 * g5a); split; [field|rewrite Es in Ha; nra]). destruct Ia as [a [Ea Ha']].
  assert (Ib : exists b, g5b = b / 63 /\ b * b = 2205 + 126 * s) by (exists (63 * g5b); split; [field|rewrite Es in Hb; nra]). destruct Ib as [b [Eb Hb']].
  rewrite Es, Ea, Eb. clear Es Ea Eb Hs Ha Hb.
  intros j Hj. rewrite !Rsum_cons, Rsum_nil. cbn [fst snd].
  do 10 (destruct j as [|j]; [cbn [pow]; rewrite !INR_IZR_INZ; cbn [Z.of_nat Pos.of_succ_nat Pos.succ]; field [Ha' Hb' Hs']|]). lia.
Qed.

(** * Lagrange elements with equidistant nodes *)
(** the multi-indices with n entries and sum k *)
Fixpoint multi (n k : nat) : list (list nat) :=
  match n with
  | O => match k with O => [[]] | S _ => [] end
  | S n' => flat_map (fun a => map (cons a) (multi n' (k - a))) (seq 0 (S k))
  end.
Definition lsum (al : list nat) : nat := fold_right Nat.add 0%nat al.
(** the factor k r (k r - 1) ... (k r - n + 1) / n! *)
Fixpoint fac (k n : nat) (r : R) : R :=
  match n with O => 1 | S n' => fac k n' r * ((INR k * r - INR n') / INR (S n')) end.
Fixpoint shape (k : nat) (al : list nat) (la : list R) : R :=
  match al, la with a :: al', l :: la' => fac k a l * shape k al' la' | _, _ => 1 end.
(** barycentric coordinates, nodes and basis functions *)
Definition bary (x : list R) : list R := (1 - total x) :: x.
Definition node (k : nat) (al : list nat) : list R := map (fun i => INR i / INR k) (tl al).
Definition phi (k : nat) (al : list nat) (x : list R) : R := shape k al (bary x).

Lemma in_multi n : forall k al, In al (multi n k) <-> length al = n /\ lsum al = k.
Proof.
  induction n as [|n IH]; intros k al.
  - destruct k; cbn; split.
    + intros [<-|[]]. split; reflexivity.
    + intros [L _]. left. destruct al; [reflexivity|discriminate].
    + intros [].
    + intros [L E]. destruct al; discriminate.
  - cbn [multi]. rewrite in_flat_map. split.
    + intros [a [Ha H]]. apply in_map_iff in H. destruct H as [be [<- Hb]]. apply IH in Hb. apply in_seq in Ha.
      destruct Hb as [L E]. cbn. rewrite L. split; [reflexivity|]. fold (lsum be). lia.
    + intros [L E]. destruct al as [|a be]; [discriminate|]. cbn in L, E. fold (lsum be) in E. exists a. split; [apply in_seq; lia|].
      apply in_map. apply IH. split; [congruence|lia].
Qed.
Lemma NoDup_app {A} (l1 l2 : list A) : NoDup l1 -> NoDup l2 -> (forall a, In a l1 -> ~ In a l2) -> NoDup (l1 ++ l2).
Proof.
  intros H1 H2 H. induction H1 as [|a l1 Ha H1 IH]; [exact H2|]. cbn. constructor.
  - intro C. apply in_app_or in C. destruct C as [C|C]; [exact (Ha C)|exact (H a (or_introl eq_refl) C)].
  - apply IH. intros b Hb. apply H. right; exact Hb.
Qed.
Lemma NoDup_flat {A B} (g : A -> list B) l : NoDup l -> (forall a, In a l -> NoDup (g a)) ->
  (forall a a' b, In b (g a) -> In b (g a') -> a = a') -> NoDup (flat_map g l).
Proof.
  intros Hl Hg Hi. induction Hl as [|a l Ha Hl IH]; [constructor|]. cbn. apply NoDup_app; [apply Hg; left; reflexivity|apply IH; intros; apply Hg; right; assumption|].
  intros b Hb C. apply in_flat_map in C. destruct C as [a' [Ha' Hb']]. rewrite (Hi a a' b Hb Hb') in Ha. exact (Ha Ha').
Qed.
Lemma multi_nodup n : forall k, NoDup (multi n k).
Proof.
  induction n as [|n IH]; intro k.
  - destruct k; cbn; [repeat constructor; intros []|constructor].
  - cbn [multi]. apply NoDup_flat; [apply seq_NoDup| |].
    + intros a _. apply FinFun.Injective_map_NoDup; [|apply IH]. intros x y E. congruence.
    + intros a a' b Hb Hb'. apply in_map_iff in Hb. apply in_map_iff in Hb'. destruct Hb as [x [<- _]], Hb' as [y [E _]]. congruence.
Qed.

Lemma fac_fact k n b : (1 <= k)%nat -> (n <= b)%nat -> fac k n (INR b / INR k) * INR (fact n) * INR (fact (b - n)) = INR (fact b).
Proof.
  intros Hk. assert (K : INR k <> 0) by (apply not_0_INR; lia). induction n as [|n IH]; intro Hn.
  - cbn [fac fact]. rewrite Nat.sub_0_r. simpl INR. ring.
  - rewrite <- IH by lia. replace (b - n)%nat with (S (b - S n)) by lia.
    change (fact (S n)) with (S n * fact n)%nat. change (fact (S (b - S n))) with (S (b - S n) * fact (b - S n))%nat.
    rewrite !mult_INR. cbn [fac]. replace (INR k * (INR b / INR k) - INR n) with (INR (S (b - S n))).
    + field. apply not_0_INR. lia.
    + replace (S (b - S n)) with (b - n)%nat by lia. rewrite minus_INR by lia. field. exact K.
Qed.
Lemma fac_one k n : (1 <= k)%nat -> fac k n (INR n / INR k) = 1.
Proof.
  intro Hk. pose proof (fac_fact k n n Hk (le_n n)) as E. rewrite Nat.sub_diag in E. cbn [fact] in E. simpl (INR 1) in E.
  pose proof (INR_fact_neq_0 n). apply (Rmult_eq_reg_r (INR (fact n))); [lra|assumption].
Qed.
Lemma fac_zero k n b : (1 <= k)%nat -> (b < n)%nat -> fac k n (INR b / INR k) = 0.
Proof.
  intros Hk. assert (K : INR k <> 0) by (apply not_0_INR; lia). induction n as [|n IH]; intro H; [lia|]. cbn [fac].
  destruct (Nat.eq_dec b n) as [->|Hne]; [|rewrite IH by lia; ring].
  replace (INR k * (INR n / INR k) - INR n) with 0 by (field; exact K). unfold Rdiv. ring.
Qed.
Lemma shape_one k al : (1 <= k)%nat -> shape k al (map (fun i => INR i / INR k) al) = 1.
Proof. intro Hk. induction al as [|a al IH]; [reflexivity|]. cbn. rewrite fac_one, IH by exact Hk. ring. Qed.
Lemma shape_zero k : (1 <= k)%nat -> forall al be, length al = length be ->
  ((lsum be < lsum al)%nat \/ (lsum be = lsum al /\ al <> be)) -> shape k al (map (fun i => INR i / INR k) be) = 0.
Proof.
  intros Hk al. induction al as [|a al IH]; intros [|b be] L H; try discriminate.
  - destruct H as [H|[_ H]]; [cbn in H; lia|congruence].
  - injection L as L. cbn [shape map]. cbn [lsum fold_right] in H. fold (lsum al) (lsum be) in H.
    destruct (lt_dec b a) as [h|h]; [rewrite fac_zero by assumption; ring|]. rewrite (IH be L); [ring|].
    destruct H as [H|[H Hne]]; [left; lia|]. destruct (Nat.eq_dec a b) as [->|E]; [|left; lia].
    right. split; [lia|congruence].
Qed.
Lemma total_node k be : (1 <= k)%nat -> total (map (fun i => INR i / INR k) be) = INR (lsum be) / INR k.
Proof.
  intro Hk. assert (K : INR k <> 0) by (apply not_0_INR; lia). induction be as [|b be IH]; [cbn; field; exact K|].
  cbn [map]. rewrite total_cons, IH. cbn [lsum fold_right]. fold (lsum be). rewrite plus_INR. field. exact K.
Qed.
Lemma bary_node k al : (1 <= k)%nat -> al <> [] -> lsum al = k -> bary (node k al) = map (fun i => INR i / INR k) al.
Proof.
  intros Hk Hne E. assert (K : INR k <> 0) by (apply not_0_INR; lia). destruct al as [|a al]; [congruence|]. unfold bary, node. cbn [tl map].
  f_equal. rewrite total_node by exact Hk. cbn [lsum fold_right] in E. fold (lsum al) in E. rewrite <- E at 1 2. 
  replace (INR a) with (INR k - INR (lsum al)) by (rewrite <- E, plus_INR; ring). rewrite E. field. exact K.
Qed.
(** the nodes are points of the simplex and the basis is dual to them *)
Lemma node_in k d al : (1 <= k)%nat -> In al (multi (S d) k) -> simplex d (node k al).
Proof.
  intros Hk H. apply in_multi in H. destruct H as [L E]. destruct al as [|a al]; [discriminate|]. injection L as L.
  assert (K : 0 < INR k) by (apply lt_0_INR; lia). unfold node. cbn [tl]. split; [rewrite map_length; exact L|]. split.
  - apply List.Forall_forall. intros y Hy. apply in_map_iff in Hy. destruct Hy as [i [<- _]].
    apply Rmult_le_pos; [apply pos_INR|apply Rlt_le, Rinv_0_lt_compat, K].
  - rewrite total_node by exact Hk. apply (Rmult_le_reg_r (INR k)); [exact K|]. unfold Rdiv.
    rewrite Rmult_assoc, Rinv_l, Rmult_1_r, Rmult_1_l by lra. apply le_INR. cbn in E. fold (lsum al) in E. lia.
Qed.
Lemma phi_node k d al be : (1 <= k)%nat -> In al (multi (S d) k) -> In be (multi (S d) k) ->
  phi k al (node k be) = if list_eq_dec Nat.eq_dec al be then 1 else 0.
Proof.
  intros Hk Ha Hb. apply in_multi in Ha. apply in_multi in Hb. destruct Ha as [La Ea], Hb as [Lb Eb].
  unfold phi. rewrite bary_node; [|exact Hk|destruct be; discriminate|exact Eb].
  destruct (list_eq_dec Nat.eq_dec al be) as [->|Hne]; [apply shape_one, Hk|]. apply shape_zero; [exact Hk|congruence|]. right. split; [congruence|exact Hne].
Qed.
Lemma pol_fac d k n g : pol d 1 g -> pol d n (fun x => fac k n (g x)).
Proof.
  intro Hg. induction n as [|n IH]; [apply (pol_const d 0 1)|]. cbn [fac]. replace (S n) with (n + 1)%nat by lia.
  apply pol_mul; [exact IH|].
  apply (pol_ext d 1 (fun x => / INR (n + 1) * (- INR n + INR k * g x))); [|intros; unfold Rdiv; replace (n + 1)%nat with (S n) by lia; ring].
  apply pol_scal, pol_add; [apply pol_const|apply pol_scal, Hg].
Qed.
Lemma pol_shape d k : forall al gs, (forall g, In g gs -> pol d 1 g) -> pol d (lsum al) (fun x => shape k al (map (fun g => g x) gs)).
Proof.
  induction al as [|a al IH]; intros gs H; [apply (pol_const d 0 1)|]. destruct gs as [|g gs].
  - apply (pol_ext d _ (fun _ => 1)); [apply pol_const|reflexivity].
  - cbn [map shape lsum fold_right]. fold (lsum al). apply pol_mul; [apply pol_fac, H; left; reflexivity|apply IH; intros; apply H; right; assumption].
Qed.
Lemma pol_phi d k al : In al (multi (S d) k) -> pol d k (phi k al).
Proof.
  intro H. apply in_multi in H. destruct H as [L E].
  apply (pol_ext d k (fun x => shape k al (map (fun g => g x) ((fun x => 1 - total x) :: map (fun i x => nth i x 0) (seq 0 d))))).
  - rewrite <- E at 1. apply pol_shape. intros g [<-|Hg]; [apply pol_rest; lia|]. apply in_map_iff in Hg. destruct Hg as [i [<- _]]. apply pol_nth. lia.
  - intros x Hx. unfold phi, bary. cbn [map]. do 2 f_equal. rewrite map_map. 
    rewrite <- Hx. apply (nth_ext _ _ 0 0); [rewrite map_length, seq_length; reflexivity|].
    intros i Hi. rewrite map_length, seq_length in Hi. 
    rewrite (nth_indep _ 0 (nth 0 x 0)) by (rewrite map_length, seq_length; exact Hi).
    rewrite (map_nth (fun i => nth i x 0)). rewrite seq_nth by exact Hi. reflexivity.
Qed.
(** a function with values v at the nodes *)
Definition lagr (d k : nat) (v : list nat -> R) (x : list R) : R := Rsum (multi (S d) k) (fun al => v al * phi k al x).
Lemma lagr_pol d k v : pol d k (lagr d k v).
Proof. unfold lagr. apply (pol_sum d k _ (fun al x => v al * phi k al x)). intros al H. apply pol_scal, pol_phi, H. Qed.
Lemma Rsum_pick {A} (dec : forall a b : A, {a = b} + {a <> b}) (l : list A) f b : NoDup l -> In b l ->
  Rsum l (fun a => f a * (if dec a b then 1 else 0)) = f b.
Proof.
  intros Hn Hb. induction Hn as [|a l Ha Hn IH]; [destruct Hb|]. rewrite Rsum_cons. destruct (dec a b) as [->|Hne].
  - rewrite Rsum_zero; [ring|]. intros c Hc. destruct (dec c b) as [->|]; [contradiction|ring].
  - destruct Hb as [->|Hb]; [congruence|]. rewrite IH by exact Hb. ring.
Qed.
Lemma lagr_node d k v be : (1 <= k)%nat -> In be (multi (S d) k) -> lagr d k v (node k be) = v be.
Proof.
  intros Hk Hb. unfold lagr. rewrite (Rsum_ext_in _ _ (fun al => v al * (if list_eq_dec Nat.eq_dec al be then 1 else 0))).
  - apply (Rsum_pick (list_eq_dec Nat.eq_dec)); [apply multi_nodup|exact Hb].
  - intros al Ha. rewrite (phi_node k d) by assumption. reflexivity.
Qed.
