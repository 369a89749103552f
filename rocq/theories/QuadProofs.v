(** QuadProofs.v -- lemmas about QuadRule and theta_ref of TimeModel.v. *)
From Coq Require Import Reals List ZArith Lra Lia String Bool.
From Coquelicot Require Import Coquelicot.
From Verif Require Import Base TimeModel TimeSpec TimeProofs.
Import ListNotations.
Open Scope R_scope.

Lemma RInt_polyfun p a b : RInt (polyfun p) a b = peval (panti p) b - peval (panti p) a.
Proof.
  rewrite (RInt_ext _ (peval p)).
  - apply (is_RInt_unique (V := R_CompleteNormedModule)), is_RInt_peval.
  - intros x _; symmetry; apply peval_polyfun.
Qed.

(** decimal literals are Q2R of a fraction *)
Ltac decimals := unfold Q2R in *; cbn [QArith_base.Qnum QArith_base.Qden] in *.

Lemma sqrt6_sq : sqrt 6 * sqrt 6 = 6.
Proof. apply sqrt_sqrt; lra. Qed.
Lemma sqrt35_sq : sqrt (3/5) * sqrt (3/5) = 3/5.
Proof. apply sqrt_sqrt; lra. Qed.
Lemma inv_sqrt3_sq : (1.0 / sqrt 3) * (1.0 / sqrt 3) = 1/3.
Proof.
  assert (H : sqrt 3 * sqrt 3 = 3) by (apply sqrt_sqrt; lra).
  assert (H0 : sqrt 3 <> 0) by (intro E; rewrite E in H; lra).
  transitivity (1 / (sqrt 3 * sqrt 3)); [decimals; field; exact H0|]. rewrite H. reflexivity.
Qed.
Lemma neg_inv_sqrt3 : -1.0 / sqrt 3 = - (1.0 / sqrt 3).
Proof. decimals. unfold Rdiv. ring. Qed.

(** one interval, generic node / weight algebra *)
Ltac short_list p Hp :=
  destruct p as [|? [|? [|? [|? [|? [|? [|? p]]]]]]]; cbn [List.length] in Hp; try lia.

Lemma gauss1_exact p a b : (List.length p <= 2)%nat ->
  0.5 * (b - a) * 2 * peval p (0.5 * (b - a) * 0 + 0.5 * (b + a)) = RInt (polyfun p) a b.
Proof.
  intro Hp. rewrite RInt_polyfun. short_list p Hp; cbn; decimals; field.
Qed.
Lemma gauss2_exact s p a b : s * s = 1/3 -> (List.length p <= 4)%nat ->
  0.5 * (b - a) * 1 * peval p (0.5 * (b - a) * (- s) + 0.5 * (b + a))
  + 0.5 * (b - a) * 1 * peval p (0.5 * (b - a) * s + 0.5 * (b + a)) = RInt (polyfun p) a b.
Proof.
  intros Hs Hp. rewrite RInt_polyfun.
  assert (H2 : s ^ 2 = 1/3) by (rewrite <- Hs; ring).
  short_list p Hp; cbn; decimals; field_simplify; rewrite ?H2; field.
Qed.
Lemma gauss3_exact s p a b : s * s = 3/5 -> (List.length p <= 6)%nat ->
  0.5 * (b - a) * (5/9) * peval p (0.5 * (b - a) * (- s) + 0.5 * (b + a))
  + (0.5 * (b - a) * (8/9) * peval p (0.5 * (b - a) * 0 + 0.5 * (b + a))
  + 0.5 * (b - a) * (5/9) * peval p (0.5 * (b - a) * s + 0.5 * (b + a))) = RInt (polyfun p) a b.
Proof.
  intros Hs Hp. rewrite RInt_polyfun.
  assert (H2 : s ^ 2 = 3/5) by (rewrite <- Hs; ring).
  assert (H4 : s ^ 4 = 9/25) by (replace (s ^ 4) with (s ^ 2 * s ^ 2) by ring; rewrite H2; field).
  short_list p Hp; cbn; decimals; field_simplify; rewrite ?H2, ?H4; field.
Qed.
Lemma radau3_exact s p a b : s * s = 6 -> (List.length p <= 5)%nat ->
  0.5 * (b - a) * (2/9) * peval p (0.5 * (b - a) * (- 1) + 0.5 * (b + a))
  + (0.5 * (b - a) * ((16 + s)/18) * peval p (0.5 * (b - a) * ((1 - s)/5) + 0.5 * (b + a))
  + 0.5 * (b - a) * ((16 - s)/18) * peval p (0.5 * (b - a) * ((1 + s)/5) + 0.5 * (b + a)))
  = RInt (polyfun p) a b.
Proof.
  intros Hs Hp. rewrite RInt_polyfun.
  assert (H2 : s ^ 2 = 6) by (rewrite <- Hs; ring).
  assert (H4 : s ^ 4 = 36) by (replace (s ^ 4) with (s ^ 2 * s ^ 2) by ring; rewrite H2; ring).
  short_list p Hp; cbn; decimals; field_simplify; rewrite ?H2, ?H4; field.
Qed.

Lemma newton2_exact p a b : (List.length p <= 2)%nat ->
  (b - a) * (1/2) * peval p (a + INR 0 * ((b - a) / (2 - 1)))
  + (b - a) * (1/2) * peval p (a + INR 1 * ((b - a) / (2 - 1))) = RInt (polyfun p) a b.
Proof. intro Hp. rewrite RInt_polyfun. short_list p Hp; cbn; field. Qed.
Lemma newton3_exact p a b : (List.length p <= 4)%nat ->
  (b - a) * (1/6) * peval p (a + INR 0 * ((b - a) / (3 - 1)))
  + ((b - a) * (4/6) * peval p (a + INR 1 * ((b - a) / (3 - 1)))
  + (b - a) * (1/6) * peval p (a + INR 2 * ((b - a) / (3 - 1)))) = RInt (polyfun p) a b.
Proof. intro Hp. rewrite RInt_polyfun. short_list p Hp; cbn; field. Qed.
Lemma midpoint_exact p a b : (List.length p <= 2)%nat ->
  (b - a) * peval p (0.5 * a + 0.5 * b) = RInt (polyfun p) a b.
Proof. intro Hp. rewrite RInt_polyfun. short_list p Hp; cbn; decimals; field. Qed.

Lemma quad_sum_cons x ps w ws f :
  quad_sum (x :: ps) (w :: ws) f = w * f x + quad_sum ps ws f.
Proof. unfold quad_sum. cbn [List.length]. rewrite sumn_S_l. reflexivity. Qed.
Lemma quad_sum_nil ps f : quad_sum ps [] f = 0.
Proof. reflexivity. Qed.

(** the tabulated pairs *)
Lemma name_cases name : known_name name = true ->
  name = "Gauss"%string \/ name = "Gauss-Radau"%string
  \/ name = "Newton-Cotes"%string \/ name = "Midpoint-Rule"%string.
Proof.
  unfold known_name. rewrite !orb_true_iff, !String.eqb_eq. tauto.
Qed.
Lemma tabulated_cases name n : tabulated name n = true ->
  (name = "Gauss"%string /\ (n = 1 \/ n = 2 \/ n = 3)%Z)
  \/ (name = "Gauss-Radau"%string /\ (n = 3 \/ n = 4 \/ n = 5)%Z)
  \/ (name = "Newton-Cotes"%string /\ (n = 2 \/ n = 3)%Z)
  \/ name = "Midpoint-Rule"%string.
Proof.
  unfold tabulated.
  destruct (String.eqb_spec name "Gauss") as [->|_].
  { rewrite andb_true_iff, !Z.leb_le. intro; left; split; [reflexivity|lia]. }
  destruct (String.eqb_spec name "Gauss-Radau") as [->|_].
  { rewrite andb_true_iff, !Z.leb_le. intro; right; left; split; [reflexivity|lia]. }
  destruct (String.eqb_spec name "Newton-Cotes") as [->|_].
  { rewrite andb_true_iff, !Z.leb_le. intro; right; right; left; split; [reflexivity|lia]. }
  rewrite String.eqb_eq. auto.
Qed.
Lemma exact_degree_tabulated name n d : exact_degree name n = Some d -> tabulated name n = true.
Proof.
  unfold exact_degree, tabulated.
  destruct (String.eqb name "Gauss").
  { destruct n as [|[[p|p|]|[p|p|]|]|p]; cbn; intro; try discriminate; reflexivity. }
  destruct (String.eqb name "Gauss-Radau").
  { destruct n as [|[[p|p|]|[p|p|]|]|p]; cbn; intro; try discriminate; reflexivity. }
  destruct (String.eqb name "Newton-Cotes").
  { destruct n as [|[[p|p|]|[p|p|]|]|p]; cbn; intro; try discriminate; reflexivity. }
  destruct (String.eqb name "Midpoint-Rule"); intro; [reflexivity|discriminate].
Qed.

(** C10 *)
Lemma rule_exists name n : tabulated name n = true ->
  exists qr, QuadRule name n = Ok qr /\
   (forall a b, exists ps, current_pts qr a b = Ok (Some ps)) /\
   (forall dt, exists ws, t_weights qr dt = Ok (Some ws)).
Proof.
  intro H. apply tabulated_cases in H.
  destruct H as [[-> [->|[->| ->]]]|[[-> [->|[->| ->]]]|[[-> [->| ->]]| ->]]];
  eexists; (split; [reflexivity|split; intros; eexists; reflexivity]).
Qed.
Lemma rule_untabulated name n : tabulated name n = false ->
  (known_name name = true /\
   QuadRule name n = Err (if String.eqb name "Newton-Cotes" && Z.eqb n 1
                          then ZeroDivisionError else KeyError))
  \/ (known_name name = false /\ exists qr, QuadRule name n = Ok qr
      /\ (forall a b, current_pts qr a b = Ok None) /\ (forall dt, t_weights qr dt = Ok None)).
Proof.
  intro H. destruct (known_name name) eqn:K.
  - left; split; [reflexivity|]. apply name_cases in K.
    destruct K as [->|[->|[->| ->]]]; cbn in H; try discriminate; cbn;
    destruct n as [|[[p|p|]|[p|p|]|]|p]; cbn in H |- *; try discriminate; try reflexivity;
    destruct p; cbn in H |- *; try discriminate; reflexivity.
  - right; split; [reflexivity|]. unfold known_name in K.
    rewrite !orb_false_iff in K. destruct K as [[[K1 K2] K3] K4].
    unfold QuadRule. rewrite K2, K1, K3, K4. eexists; split; [reflexivity|].
    unfold current_pts, t_weights, is_gauss_like; cbn [qr_name].
    rewrite K2, K1, K3, K4. split; reflexivity.
Qed.

(** C07 *)
Lemma rule_exact name n d : exact_degree name n = Some d ->
  forall qr a b ps ws, QuadRule name n = Ok qr ->
  current_pts qr a b = Ok (Some ps) -> t_weights qr (b - a) = Ok (Some ws) ->
  forall p, (List.length p <= S d)%nat -> quad_sum ps ws (polyfun p) = RInt (polyfun p) a b.
Proof.
  intros Hd qr a b ps ws Hqr Hp Hw p Hlen.
  pose proof (tabulated_cases _ _ (exact_degree_tabulated _ _ _ Hd)) as C.
  destruct C as [[-> [->|[->| ->]]]|[[-> [->|[->| ->]]]|[[-> [->| ->]]| ->]]];
  cbn in Hd; try discriminate; injection Hd; clear Hd; intros; subst d;
  cbn in Hqr; injection Hqr; clear Hqr; intros; subst qr;
  cbn in Hp, Hw; injection Hp; clear Hp; intros; injection Hw; clear Hw; intros; subst;
  rewrite ?quad_sum_cons, quad_sum_nil, <- ?peval_polyfun.
  - rewrite <- (gauss1_exact p a b Hlen). ring.
  - rewrite <- (gauss2_exact (1.0 / sqrt 3) p a b inv_sqrt3_sq Hlen). rewrite neg_inv_sqrt3. ring.
  - rewrite <- (gauss3_exact (sqrt (3/5)) p a b sqrt35_sq Hlen). ring.
  - rewrite <- (radau3_exact (sqrt 6) p a b sqrt6_sq Hlen). ring.
  - rewrite <- (newton2_exact p a b Hlen). cbn [INR]. rewrite ?Rplus_0_r. reflexivity.
  - rewrite <- (newton3_exact p a b Hlen). cbn [INR]. rewrite ?Rplus_0_r. reflexivity.
  - rewrite <- (midpoint_exact p a b Hlen). ring.
Qed.

(** C08 *)
Lemma quad_sum_ext ps ws f g :
  (forall x, In x ps -> f x = g x) -> (List.length ws <= List.length ps)%nat ->
  quad_sum ps ws f = quad_sum ps ws g.
Proof.
  intros H Hl. unfold quad_sum. apply sumn_ext. intros i Hi. f_equal. apply H.
  apply nth_In. lia.
Qed.
(** moments of a rule given by [ys], [vs] on [0, 1] *)
Lemma quad_sum_poly ys vs p :
  quad_sum ys vs (polyfun p)
  = sumn (List.length p) (fun k => nth k p 0 * quad_sum ys vs (fun t => t ^ k)).
Proof.
  unfold quad_sum, polyfun.
  rewrite (Rsum_ext _ _ (fun i => sumn (List.length p)
     (fun k => nth k p 0 * (nth i vs 0 * nth i ys 0 ^ k)))).
  - rewrite Rsum_swap. apply Rsum_ext; intro k. rewrite Rsum_scal. reflexivity.
  - intro i. rewrite <- Rsum_scal. apply Rsum_ext; intro k. ring.
Qed.
Lemma RInt_poly01 p :
  RInt (polyfun p) 0 1 = sumn (List.length p) (fun k => nth k p 0 / INR (S k)).
Proof.
  rewrite RInt_polyfun. transitivity (pint p).
  { unfold panti, pint. rewrite pint_from_panti. cbn; ring. }
  unfold pint. assert (G : forall n, pint_from n p = sumn (List.length p) (fun k => nth k p 0 / INR (S (n + k)))).
  { induction p as [|a p IH]; intro n; [reflexivity|].
    cbn [pint_from List.length]. rewrite sumn_S_l. cbn [nth]. rewrite IH.
    replace (n + 0)%nat with n by lia. f_equal. apply Rsum_ext; intro k.
    replace (S n + k)%nat with (n + S k)%nat by lia. reflexivity. }
  rewrite G. reflexivity.
Qed.
Lemma moment_bound ys vs p m eps :
  (List.length p <= m)%nat ->
  (forall k, (k < m)%nat -> Rabs (quad_sum ys vs (fun t => t ^ k) - / INR (S k)) <= eps) ->
  Rabs (quad_sum ys vs (polyfun p) - RInt (polyfun p) 0 1) <= eps * coef_sum p.
Proof.
  intros Hp H. rewrite quad_sum_poly, RInt_poly01, <- Rsum_minus.
  eapply Rle_trans; [apply Rsum_Rabs|]. unfold coef_sum. rewrite <- Rsum_scal.
  apply Rsum_le. intros k Hk. apply in_seq in Hk.
  replace (nth k p 0 * quad_sum ys vs (fun t => t ^ k) - nth k p 0 / INR (S k))
    with (nth k p 0 * (quad_sum ys vs (fun t => t ^ k) - / INR (S k)))
    by (unfold Rdiv; ring).
  rewrite Rabs_mult, Rmult_comm. apply Rmult_le_compat_r; [apply Rabs_pos|]. apply H; lia.
Qed.

Definition ref01 (xs : list R) : list R := map (fun x => (x + 1) / 2) xs.
Definition half (ws : list R) : list R := map (fun w => w / 2) ws.
Definition radau4 : list R * list R :=
  ([-1; -0.575319; 0.181066; 0.822824], [0.125; 0.657689; 0.776387; 0.440924]).
Definition radau5 : list R * list R :=
  ([-1; -0.72048; -0.167181; 0.446314; 0.885792], [0.08; 0.446208; 0.623653; 0.562712; 0.287427]).

Lemma radau4_moments k : (k < 7)%nat ->
  Rabs (quad_sum (ref01 (fst radau4)) (half (snd radau4)) (fun t => t ^ k) - / INR (S k)) <= 3e-7.
Proof.
  intro Hk. unfold radau4, ref01, half; cbn [fst snd map].
  rewrite ?quad_sum_cons, quad_sum_nil. apply Rabs_le. decimals.
  destruct k as [|[|[|[|[|[|[|k]]]]]]]; try lia; cbn [pow INR]; split; lra.
Qed.
Lemma radau5_moments k : (k < 9)%nat ->
  Rabs (quad_sum (ref01 (fst radau5)) (half (snd radau5)) (fun t => t ^ k) - / INR (S k)) <= 3e-7.
Proof.
  intro Hk. unfold radau5, ref01, half; cbn [fst snd map].
  rewrite ?quad_sum_cons, quad_sum_nil. apply Rabs_le. decimals.
  destruct k as [|[|[|[|[|[|[|[|[|k]]]]]]]]]; try lia; cbn [pow INR]; split; lra.
Qed.

(** transport to [a, b]: f(t) = p((t - a) / (b - a)) *)
Lemma radau_transport xs ws a b f : a <> b ->
  List.length xs = List.length ws ->
  quad_sum (map (fun pt => 0.5 * (b - a) * pt + 0.5 * (b + a)) xs)
           (map (fun w => 0.5 * (b - a) * w) ws) (fun t => f ((t - a) / (b - a)))
  = (b - a) * quad_sum (ref01 xs) (half ws) f.
Proof.
  intros Hab. revert ws. induction xs as [|x xs IH]; intros [|w ws] Hl; try discriminate.
  - cbn. rewrite !quad_sum_nil. ring.
  - cbn [map ref01 half]. rewrite !quad_sum_cons.
    fold (ref01 xs) (half ws). rewrite IH by (injection Hl; auto).
    replace ((0.5 * (b - a) * x + 0.5 * (b + a) - a) / (b - a)) with ((x + 1) / 2)
      by (decimals; field; lra).
    decimals; field.
Qed.
Lemma RInt_transport a b f : a < b -> (forall x, continuous f x) ->
  RInt (fun t => f ((t - a) / (b - a))) a b = (b - a) * RInt f 0 1.
Proof.
  intros Hab Hf.
  assert (E : RInt (fun y => scal (/ (b - a)) (f (/ (b - a) * y + (- a / (b - a))))) a b
     = RInt f (/ (b - a) * a + (- a / (b - a))) (/ (b - a) * b + (- a / (b - a)))).
  { apply (RInt_comp_lin (V := R_CompleteNormedModule)).
    apply (ex_RInt_continuous (V := R_CompleteNormedModule)). intros; apply Hf. }
  replace (/ (b - a) * a + - a / (b - a)) with 0 in E by (field; lra).
  replace (/ (b - a) * b + - a / (b - a)) with 1 in E by (field; lra).
  rewrite <- E.
  transitivity (RInt (fun y => (b - a) * (scal (/ (b - a)) (f (/ (b - a) * y + - a / (b - a))))) a b).
  - apply RInt_ext. intros x _. unfold scal; cbn; unfold mult; cbn.
    replace (/ (b - a) * x + - a / (b - a)) with ((x - a) / (b - a)) by (field; lra).
    assert (G : forall v : R, v = (b - a) * (/ (b - a) * v)) by (intro; field; lra). apply G.
  - apply (RInt_scal (V := R_CompleteNormedModule)).
    apply (ex_RInt_continuous (V := R_CompleteNormedModule)). intros x _.
    apply (continuous_scal_r (V := R_NormedModule)).
    apply (continuous_comp (fun y => / (b - a) * y + - a / (b - a)) f); [|apply Hf].
    apply (ex_derive_continuous (V := R_NormedModule)). auto_derive. exact I.
Qed.
Lemma continuous_polyfun p x : continuous (polyfun p) x.
Proof.
  apply continuous_ext with (f := peval p); [intro; apply peval_polyfun|apply continuous_peval].
Qed.


Lemma radau_error n d : radau_degree n = Some d ->
  forall qr a b ps ws, QuadRule "Gauss-Radau" n = Ok qr -> a < b ->
  current_pts qr a b = Ok (Some ps) -> t_weights qr (b - a) = Ok (Some ws) ->
  forall p, (List.length p <= S d)%nat ->
  let f := fun t => polyfun p ((t - a) / (b - a)) in
  Rabs (quad_sum ps ws f - RInt f a b) <= 3e-7 * (b - a) * coef_sum p.
Proof.
  intros Hd qr a b ps ws Hqr Hab Hp Hw p Hlen f. unfold f.
  rewrite RInt_transport by (assumption || apply continuous_polyfun).
  assert (Hn : (n = 4 \/ n = 5)%Z).
  { destruct n as [|[[q|[q|q|]|]|[q|[q|q|]|]|]|q]; cbn in Hd; try discriminate; auto. }
  destruct Hn as [->| ->]; cbn in Hd; injection Hd; clear Hd; intros; subst d;
  cbn in Hqr; injection Hqr; clear Hqr; intros; subst qr.
  - cbn [current_pts is_gauss_like qr_name qr_points String.eqb Ascii.eqb Bool.eqb orb] in Hp.
    change (Ok (Some (map (fun pt => 0.5 * (b - a) * pt + 0.5 * (b + a)) (fst radau4))) = Ok (Some ps)) in Hp.
    change (Ok (Some (map (fun w => 0.5 * (b - a) * w) (snd radau4))) = Ok (Some ws)) in Hw.
    apply (f_equal (fun r => match r with Ok (Some l) => l | _ => [] end)) in Hp, Hw. cbv beta iota in Hp, Hw. subst ps ws.
    rewrite (radau_transport (fst radau4) (snd radau4) a b (polyfun p)) by (lra || reflexivity).
    rewrite <- Rmult_minus_distr_l, Rabs_mult, (Rabs_pos_eq (b - a)) by lra.
    replace (3e-7 * (b - a) * coef_sum p) with ((b - a) * (3e-7 * coef_sum p)) by ring.
    apply Rmult_le_compat_l; [lra|]. apply (moment_bound _ _ p 7); [exact Hlen|apply radau4_moments].
  - change (Ok (Some (map (fun pt => 0.5 * (b - a) * pt + 0.5 * (b + a)) (fst radau5))) = Ok (Some ps)) in Hp.
    change (Ok (Some (map (fun w => 0.5 * (b - a) * w) (snd radau5))) = Ok (Some ws)) in Hw.
    apply (f_equal (fun r => match r with Ok (Some l) => l | _ => [] end)) in Hp, Hw. cbv beta iota in Hp, Hw. subst ps ws.
    rewrite (radau_transport (fst radau5) (snd radau5) a b (polyfun p)) by (lra || reflexivity).
    rewrite <- Rmult_minus_distr_l, Rabs_mult, (Rabs_pos_eq (b - a)) by lra.
    replace (3e-7 * (b - a) * coef_sum p) with ((b - a) * (3e-7 * coef_sum p)) by ring.
    apply Rmult_le_compat_l; [lra|]. apply (moment_bound _ _ p 9); [exact Hlen|apply radau5_moments].
Qed.

(** constants are integrated exactly; t is not *)
Lemma radau_not_exact n : (n = 4 \/ n = 5)%Z ->
  forall qr a b ps ws, QuadRule "Gauss-Radau" n = Ok qr -> a < b ->
  current_pts qr a b = Ok (Some ps) -> t_weights qr (b - a) = Ok (Some ws) ->
  (forall c, quad_sum ps ws (fun _ => c) = RInt (fun _ => c) a b)
  /\ quad_sum ps ws (fun t => t) <> RInt (fun t => t) a b.
Proof.
  intros Hn qr a b ps ws Hqr Hab Hp Hw.
  assert (RId : RInt (fun t => t) a b = (b * b - a * a) / 2).
  { rewrite (RInt_ext _ (polyfun [0; 1])).
    - rewrite RInt_polyfun. cbn. field.
    - intros x _. rewrite <- peval_polyfun. cbn. ring. }
  assert (sq : 0 < (b - a) * (b - a)) by (apply Rmult_lt_0_compat; lra).
  split.
  - intro c. rewrite RInt_const. unfold scal; cbn; unfold mult; cbn.
    destruct Hn as [->| ->]; cbn in Hqr; injection Hqr; clear Hqr; intros; subst qr;
    cbn in Hp, Hw; injection Hp; clear Hp; intros; injection Hw; clear Hw; intros; subst ps ws;
    rewrite ?quad_sum_cons, quad_sum_nil; decimals; field.
  - rewrite RId.
    destruct Hn as [->| ->]; cbn in Hqr; injection Hqr; clear Hqr; intros; subst qr;
    cbn in Hp, Hw; injection Hp; clear Hp; intros; injection Hw; clear Hw; intros; subst ps ws;
    rewrite ?quad_sum_cons, quad_sum_nil; decimals; intro E; ring_simplify in E; nra.
Qed.

(** C09 *)
Lemma sqrt6_bounds : 2.4 < sqrt 6 < 2.5.
Proof.
  pose proof sqrt6_sq. pose proof (sqrt_pos 6). decimals. split; nra.
Qed.
Lemma sqrt35_bounds : 0.5 < sqrt (3/5) < 1.
Proof.
  pose proof sqrt35_sq. pose proof (sqrt_pos (3/5)). decimals. split; nra.
Qed.
Lemma sqrt3_bounds : 0 < 1.0 / sqrt 3 < 1.
Proof.
  assert (0 < 1.0 / sqrt 3).
  { decimals. apply Rmult_lt_0_compat; [lra|]. apply Rinv_0_lt_compat, sqrt_lt_R0; lra. }
  pose proof inv_sqrt3_sq. split; [assumption|nra].
Qed.

Lemma rule_admissible name n : tabulated name n = true ->
  forall qr a b ps ws, QuadRule name n = Ok qr -> a < b ->
  current_pts qr a b = Ok (Some ps) -> t_weights qr (b - a) = Ok (Some ws) ->
  List.length ps = List.length ws
  /\ (forall x, In x ps -> a <= x <= b)
  /\ (forall w, In w ws -> 0 < w)
  /\ Rsum ws (fun w => w) = b - a
  /\ (name = "Gauss-Radau"%string -> hd_error ps = Some a /\ (forall x, In x ps -> x < b)).
Proof.
  intros Ht qr a b ps ws Hqr Hab Hp Hw.
  pose proof sqrt6_bounds. pose proof sqrt35_bounds. pose proof sqrt3_bounds.
  pose proof neg_inv_sqrt3 as N3.
  apply tabulated_cases in Ht.
  destruct Ht as [[-> [->|[->| ->]]]|[[-> [->|[->| ->]]]|[[-> [->| ->]]| ->]]];
  cbn in Hqr; injection Hqr; clear Hqr; intros; subst qr;
  cbn in Hp, Hw; injection Hp; clear Hp; intros; injection Hw; clear Hw; intros; subst ps ws;
  rewrite ?N3;
  set (s3 := 1.0 / sqrt 3) in *; set (s6 := sqrt 6) in *; set (s35 := sqrt (3/5)) in *;
  clearbody s3 s6 s35; decimals;
  (split; [reflexivity|]; split;
   [intros x Hx; repeat (destruct Hx as [<-|Hx]); try (destruct Hx); cbn [INR]; nra|
   split;
   [intros x Hx; repeat (destruct Hx as [<-|Hx]); try (destruct Hx); cbn [INR]; nra|
   split;
   [cbv [Rsum fold_right]; field|
    intro En; try discriminate En;
    try (split; [cbn; f_equal; field| intros x Hx; repeat (destruct Hx as [<-|Hx]); try (destruct Hx); nra])]]]).
Qed.

(** C11 *)
Lemma theta_ref_eq tau : theta_ref tau = tau * (tau - 1) / 2.
Proof. unfold theta_ref, pts_raudau_right; cbn; decimals. field. Qed.
Lemma d_theta_ref_eq tau : d_theta_ref tau = tau - 1/2.
Proof. unfold d_theta_ref, pts_raudau_right; cbn; decimals. field. Qed.
Lemma theta_ref_derive tau : is_derive theta_ref tau (d_theta_ref tau).
Proof.
  rewrite d_theta_ref_eq.
  apply is_derive_ext_R with (f := fun t => t * (t - 1) / 2); [intro; symmetry; apply theta_ref_eq|].
  auto_derive; [exact I|field].
Qed.
