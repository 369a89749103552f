(** Props_Cells.v -- property C98: unique solvability on meshes of simplices or cubes.

    C67, C68, C72 and C96 reduce the solvability of the systems of SpaceTime to the absence of
    nonzero functions whose mean square, computed with the dx rule, is zero.  Here this is
    settled for Lagrange elements in any dimension, on triangles and tetrahedra as well as on
    quadrilaterals and hexahedra (src/dxss/meshes.py: triangles, straight or curved;
    src/dxss/solve_3d.py:91-97: hexahedra), with the rule of degree 2k+3 of
    space_time.py:127-128. *)
From Coq Require Import Reals List ZArith Lra Lia Bool String.
From Coquelicot Require Import Coquelicot.
From Verif Require Import Base TimeModel TimeSpec TimeProofs QuadProofs FormModel FormSpec FormProofs
  SpaceTimeForms FormBlocks GuardProofs FormTime FormC12 FormSym FormStruct FormWf FormExample Props_Forms
  SpaceTimeModel SlabOps ApplyProofs MarchProofs MarchSum Lifecycle LifeProofs OpsProofs LinAlg WellPosed Injective Props_Ops
  Props_WellPosed Stability Props_Stability Observe Props_Observe DriverModel DriverConfig Props_Config Blind Props_Blind Simplex SimplexRule BoxCell.
Import ListNotations.
Open Scope R_scope.

(** The points of the dx rule are the points of r in each of nc cells; the function of space s
    with coefficients a is, on cell number K and in the coordinates of the reference cell C, the
    polynomial F s a K of degree ord s; the coefficients are its values at points of the cells.
    The weights (rule weight times Jacobian) are positive; the maps of the cells need not be
    affine. *)
Record meshed (C : refcell) (m : nat) (D : disc) (r : srule) (nc : nat) (ord : fsp -> nat) (F : fsp -> vec -> nat -> list R -> R) : Prop := {
  sm_cell : cell_ok C;
  sm_pts : forall K q, (K < nc)%nat -> (q < List.length r)%nat -> In (K * List.length r + q)%nat (d_pts D Dx);
  sm_w : forall p, In p (d_pts D Dx) -> 0 < d_w D Dx p;
  sm_rule : rule_exact C m r;
  sm_val : forall s a K q, (K < nc)%nat -> (q < List.length r)%nat ->
    fev D Dx s Val a (K * List.length r + q) 0 = F s a K (fst (nth q r ([], 0)));
  sm_pol : forall s a K, (K < nc)%nat -> rc_pol C (ord s) (F s a K);
  sm_node : forall s l, (l < d_dim D s)%nat -> exists K x, (K < nc)%nat /\ rc_in C x /\ forall a, F s a K x = a l }.

Lemma Rsum_nth {A} (l : list A) (f : A -> R) dft : Rsum l f = sumn (List.length l) (fun q => f (nth q l dft)).
Proof.
  induction l as [|a l IH]; [reflexivity|]. cbn [List.length]. rewrite Rsum_cons, sumn_S_l, IH. reflexivity.
Qed.
(** mean square zero: the function vanishes on every cell *)
Theorem C98_vanishes : forall C m D r nc ord F s a, meshed C m D r nc ord F -> (2 * ord s <= m)%nat -> L2 D s s a a = 0 ->
  forall K x, (K < nc)%nat -> rc_in C x -> F s a K x = 0.
Proof.
  intros C m D r nc ord F s a H Hm H0 K x HK Hx. pose proof (sm_cell _ _ _ _ _ _ _ H) as HC.
  assert (V : forall p, In p (d_pts D Dx) -> fev D Dx s Val a p 0 = 0).
  { intros p Hp. unfold L2, sp, integ in H0. cbn [ncomp] in H0.
    pose proof (Rsum_nonneg_zero _ _ (fun p Hp => Rmult_le_pos _ _ (Rmult_le_pos _ _ (Rlt_le _ _ (sm_w _ _ _ _ _ _ _ H p Hp)) Rle_0_1)
      (Rsum_nonneg (seq 0 1) _ (fun k _ => Rle_0_sqr (fev D Dx s Val a p k)))) H0 p Hp) as Z.
    cbn [wval seq] in Z. rewrite Rsum_cons, Rsum_nil in Z. unfold Rsqr in Z. pose proof (sm_w _ _ _ _ _ _ _ H p Hp).
    assert (Q : fev D Dx s Val a p 0 * fev D Dx s Val a p 0 = 0).
    { apply (Rmult_eq_reg_l (d_w D Dx p)); [rewrite Rmult_1_r in Z; lra|lra]. }
    apply Rmult_integral in Q. destruct Q; assumption. }
  pose proof (sm_pol _ _ _ _ _ _ _ H s a K HK) as Hp.
  assert (P2 : rc_pol C m (fun y => F s a K y * F s a K y)) by (apply (co_le C HC (ord s + ord s)); [lia|apply (co_mul C HC); assumption]).
  assert (I : rc_int C (fun y => F s a K y * F s a K y) = 0).
  { rewrite <- (sm_rule _ _ _ _ _ _ _ H _ P2), (Rsum_nth r _ ([], 0)). apply Rsum_zero. intros q Hq. apply in_seq in Hq.
    rewrite <- (sm_val _ _ _ _ _ _ _ H s a K q HK) by lia. rewrite V; [ring|]. apply (sm_pts _ _ _ _ _ _ _ H); [exact HK|lia]. }
  pose proof (co_def C HC m _ P2 (fun y _ => Rle_0_sqr (F s a K y)) I x Hx) as Z. cbv beta in Z.
  apply Rmult_integral in Z. destruct Z; assumption.
Qed.
Theorem C98_definite : forall C m D r nc ord F s, meshed C m D r nc ord F -> (2 * ord s <= m)%nat -> definite D s /\ ~ blind D s.
Proof.
  intros C m D r nc ord F s H Hm. assert (K : definite D s).
  { intros a H0 l Hl. destruct (sm_node _ _ _ _ _ _ _ H s l Hl) as [K [x [HK [Hx E]]]]. rewrite <- E.
    apply (C98_vanishes C m D r nc ord F s a H Hm H0); assumption. }
  split; [exact K|]. intros [a [H0 [l [Hl Hne]]]]. apply Hne, (K a H0 l Hl).
Qed.
(** on straight cells the rule computes the products of the two spaces exactly *)
Theorem C98_products : forall C m D r nc ord F det s s' a b, meshed C m D r nc ord F -> (ord s + ord s' <= m)%nat ->
  d_pts D Dx = seq 0 (nc * List.length r) ->
  (forall K q, (K < nc)%nat -> (q < List.length r)%nat -> d_w D Dx (K * List.length r + q) = det K * snd (nth q r ([], 0))) ->
  L2 D s s' a b = sumn nc (fun K => det K * rc_int C (fun x => F s a K x * F s' b K x)).
Proof.
  intros C m D r nc ord F det s s' a b H Hm Hp Hw. pose proof (sm_cell _ _ _ _ _ _ _ H) as HC. unfold L2, sp, integ. rewrite Hp, sumn_mult. cbn [ncomp wval].
  apply sumn_ext. intros K HK.
  assert (P2 : rc_pol C m (fun y => F s a K y * F s' b K y)).
  { apply (co_le C HC (ord s + ord s')); [lia|apply (co_mul C HC); apply (sm_pol _ _ _ _ _ _ _ H); exact HK]. }
  rewrite <- (sm_rule _ _ _ _ _ _ _ H _ P2), (Rsum_nth r _ ([], 0)), <- Rsum_scal. apply sumn_ext. intros q Hq.
  cbn [seq]. rewrite Rsum_cons, Rsum_nil, (sm_val _ _ _ _ _ _ _ H s), (sm_val _ _ _ _ _ _ _ H s'), Hw by assumption. ring.
Qed.

Definition orders (P : params) (s : fsp) : nat := match s with Vp => p_k P | Vd => p_kstar P end.
(** kstar <= k + 1 is enough *)
Theorem C98_no_blind : forall P C D r nc F, meshed C (quadrature_degree P) D r nc (orders P) F -> (p_kstar P <= p_k P + 1)%nat ->
  ~ blind D Vp /\ ~ blind D Vd.
Proof.
  intros P C D r nc F H Hk.
  split; refine (proj2 (C98_definite C _ D r nc (orders P) F _ H _)); unfold quadrature_degree; cbn [orders]; lia.
Qed.
Theorem C98_slab : forall P c g om C D r nc F L, construct P = Ok c -> 0 < p_T P ->
  meshed C (quadrature_degree P) D r nc (orders P) F -> (p_kstar P <= p_k P + 1)%nat ->
  lay_ok D 4 (nc_pre c) L -> regular D om -> weights_ok P g ->
  uniquely_solvable (lay_dim L) (assemble D L (slab_form c g om true)).
Proof.
  intros P c g om C D r nc F L HC HT HS Hk HL HR HW.
  apply (proj2 (C96_slab_iff P c g om D L HC HT HL HR HW)), (C98_no_blind P C D r nc F HS Hk).
Qed.
Theorem C98_space_time : forall P c g om C D r nc F L, construct P = Ok c -> 0 < p_T P -> p_wp P = true ->
  meshed C (quadrature_degree P) D r nc (orders P) F -> (p_kstar P <= p_k P + 1)%nat ->
  lay_ok D 4 (nc_full c) L -> regular D om ->
  0 <= g_data g -> 0 < g_dual g -> 0 < g_primal g -> 0 < g_jump g -> 4 * 1e-20 ^ 2 < g_jump g * g_dual g ->
  uniquely_solvable (lay_dim L) (st_matrix D L c g om false).
Proof.
  intros P c g om C D r nc F L HC HT Hwp HS Hk HL HR G1 G2 G3 G4 G5.
  apply (proj2 (C96_space_time_iff P c g om D L HC HT Hwp HL HR G1 G2 G3 G4 G5)), (C98_no_blind P C D r nc F HS Hk).
Qed.

(** the settings of the drivers, orders 1 to 3, every level *)
Lemma shipped_orders d S : shipped d S -> (p_kstar (st_params S) <= p_k (st_params S) + 1)%nat.
Proof.
  intro H. destruct H as [o N Ho HN|mesh ms o lvl S m Ho HS|o lvl S Ho HS].
  - exact (proj1 (C96_shipped o N 0%Z nat [])).
  - exact (proj1 (proj2 (C96_shipped o 1 lvl mesh ms)) S m HS).
  - exact (proj2 (proj2 (C96_shipped o 1 lvl nat [])) S HS).
Qed.
(** the system of every slab but the first; with data in a part of the cylinder large enough to
    control the start (C72), all four systems *)
Theorem C98_driver : forall dr S om C D r nc F, shipped dr S ->
  meshed C (quadrature_degree (st_params S)) D r nc (orders (st_params S)) F -> regular D om ->
  exists c, construct (st_params S) = Ok c /\ forall L Lp, lay_ok D 4 (nc_full c) L -> lay_ok D 4 (nc_pre c) Lp ->
  let P := st_params S in let g := gamma_shipped in
  uniquely_solvable (lay_dim Lp) (assemble D Lp (slab_form c g om true))
  /\ (forall ka, controls_start P D (energy_first P g om D) ka -> 4 * 1e-20 ^ 2 < ka ->
        uniquely_solvable (lay_dim Lp) (assemble D Lp (slab_form c g om false)) /\ uniquely_solvable (lay_dim L) (st_matrix D L c g om true))
  /\ (forall ka, controls_start P D (enorm2 P g om D) ka -> 32 * 1e-20 ^ 2 <= ka -> uniquely_solvable (lay_dim L) (st_matrix D L c g om false)).
Proof.
  intros dr S om C D r nc F H HS HR. destruct (shipped_good dr S H) as [c [Hc _]]. exists c. split; [exact Hc|].
  intros L Lp HL HLp P g. pose proof (shipped_weights dr S H) as HW. destruct (shipped_params dr S H) as [_ [_ [_ [_ [HT [_ [Hj _]]]]]]].
  pose proof (shipped_orders dr S H) as Hk. destruct (C98_no_blind P C D r nc F HS Hk) as [B1 B2].
  pose proof (blind_definite _ _ B1) as D1. pose proof (blind_definite _ _ B2) as D2.
  pose proof HW as [G1 [G2 [G3 [G4 G5]]]].
  split; [exact (C98_slab P c g om C D r nc F Lp Hc HT HS Hk HLp HR HW)|]. split.
  - intros ka Hct Hka. split.
    + apply (C72_first_slab P c g om D Lp ka); try assumption. change (g_dual g) with 1. rewrite Rmult_1_r. exact Hka.
    + apply (C72_preconditioner P c g om D L ka); try assumption. change (g_dual g) with 1. rewrite Rmult_1_r. exact Hka.
  - intros ka Hct Hka. apply (C72_space_time_problem P c g om D L ka); try assumption. change (g_dual g) with 1. rewrite Rmult_1_r. exact Hka.
Qed.

(** * Lagrange elements *)
(** the elements of order k on C: a basis (bas k al) for the indices al in idx k, dual to the
    points pos k al of the cell *)
Record nodal (C : refcell) (idx : nat -> list (list nat)) (bas : nat -> list nat -> list R -> R) (pos : nat -> list nat -> list R) : Prop := {
  nd_idx : forall k, NoDup (idx k);
  nd_pos : forall k al, (1 <= k)%nat -> In al (idx k) -> rc_in C (pos k al);
  nd_dual : forall k al be, (1 <= k)%nat -> In al (idx k) -> In be (idx k) ->
    bas k al (pos k be) = if list_eq_dec Nat.eq_dec al be then 1 else 0;
  nd_pol : forall k v, rc_pol C k (fun x => Rsum (idx k) (fun al => v al * bas k al x)) }.
Theorem C98_elements : forall d, nodal (simplex_cell d) (multi (S d)) phi node /\ nodal (box_cell d) (grid d) qphi qnode.
Proof.
  intro d. split; split; cbn [simplex_cell box_cell rc_in rc_pol].
  - intro k. apply multi_nodup.
  - intros k al. apply node_in.
  - intros k al be. apply phi_node.
  - intros k v. apply (lagr_pol d k v).
  - intro k. apply grid_nodup.
  - intros k al. apply qnode_in.
  - intros k al be. apply qphi_node.
  - intros k v. apply (qpol_sum d k _ (fun al x => v al * qphi k al x)). intros al Ha. apply qpol_scal, qpol_qphi, Ha.
Qed.
(** nc cells, rule r, weights w, elements of orders ord with the number dm s K al of the node al
    of cell K; everything else (facets, derivatives, mesh sizes) from D0 *)
Definition lagr_disc (D0 : disc) (idx : nat -> list (list nat)) (bas : nat -> list nat -> list R -> R)
  (nc : nat) (r : srule) (w : nat -> R) (ord dims : fsp -> nat) (dm : fsp -> nat -> list nat -> nat) : disc := {|
  d_gd := d_gd D0;
  d_pts := fun m => match m with Dx => seq 0 (nc * List.length r) | _ => d_pts D0 m end;
  d_w := fun m => match m with Dx => w | _ => d_w D0 m end;
  d_x := d_x D0; d_h := d_h D0; d_hp := d_hp D0; d_hm := d_hm D0;
  d_dim := dims;
  d_tab := fun m s o l p comp =>
    match m, o with
    | Dx, Val => Rsum (idx (ord s)) (fun al => if Nat.eqb (dm s (p / List.length r)%nat al) l
        then bas (ord s) al (fst (nth (p mod List.length r) r ([], 0))) else 0)
    | _, _ => d_tab D0 m s o l p comp
    end |}.
Definition lagr_fun (idx : nat -> list (list nat)) (bas : nat -> list nat -> list R -> R) (ord : fsp -> nat) (dm : fsp -> nat -> list nat -> nat)
  (s : fsp) (a : vec) (K : nat) (x : list R) : R := Rsum (idx (ord s)) (fun al => a (dm s K al) * bas (ord s) al x).
Theorem C98_lagrange : forall C D0 m idx bas pos nc r w ord dims dm, cell_ok C -> nodal C idx bas pos -> rule_exact C m r -> (forall s, (1 <= ord s)%nat) ->
  (forall p, (p < nc * List.length r)%nat -> 0 < w p) ->
  (forall s K al, (K < nc)%nat -> In al (idx (ord s)) -> (dm s K al < dims s)%nat) ->
  (forall s l, (l < dims s)%nat -> exists K al, (K < nc)%nat /\ In al (idx (ord s)) /\ dm s K al = l) ->
  meshed C m (lagr_disc D0 idx bas nc r w ord dims dm) r nc ord (lagr_fun idx bas ord dm).
Proof.
  intros C D0 m idx bas pos nc r w ord dims dm HC HN He Ho Hw Hd Hc. split; [exact HC| | |exact He| | |].
  - intros K q HK Hq. cbn [lagr_disc d_pts]. apply in_seq. nia.
  - intros p Hp. cbn [lagr_disc d_pts d_w] in *. apply in_seq in Hp. apply Hw. lia.
  - intros s a K q HK Hq. unfold fev. cbn [lagr_disc d_tab d_dim].
    rewrite (Nat.div_add_l K (List.length r) q) by lia. rewrite (Nat.div_small q) by exact Hq. rewrite Nat.add_0_r.
    rewrite (Nat.add_comm (K * List.length r) q), Nat.mod_add, Nat.mod_small by lia.
    set (x := fst (nth q r ([], 0))). unfold lagr_fun.
    rewrite (Rsum_ext _ _ (fun l => Rsum (idx (ord s)) (fun al => a l * (if Nat.eqb (dm s K al) l then bas (ord s) al x else 0))))
      by (intro l; rewrite Rsum_scal; reflexivity).
    rewrite Rsum_swap. apply Rsum_ext_in. intros al Ha.
    rewrite (Rsum_ext _ _ (fun l => delta (dm s K al) l * (a l * bas (ord s) al x))).
    + rewrite sumn_delta by (apply Hd; assumption). reflexivity.
    + intro l. unfold delta. destruct (Nat.eqb (dm s K al) l); ring.
  - intros s a K _. apply (nd_pol _ _ _ _ HN (ord s) (fun al => a (dm s K al))).
  - intros s l Hl. cbn [lagr_disc d_dim] in Hl. destruct (Hc s l Hl) as [K [be [HK [Ha E]]]].
    exists K, (pos (ord s) be). split; [exact HK|]. split; [apply (nd_pos _ _ _ _ HN); [apply Ho|exact Ha]|].
    intro a. unfold lagr_fun. rewrite (Rsum_ext_in _ _ (fun al => a (dm s K al) * (if list_eq_dec Nat.eq_dec al be then 1 else 0))).
    + rewrite (Rsum_pick (list_eq_dec Nat.eq_dec)); [rewrite E; reflexivity|apply (nd_idx _ _ _ _ HN)|exact Ha].
    + intros al Hal. rewrite (nd_dual _ _ _ _ HN) by (try apply Ho; assumption). reflexivity.
Qed.
(** the volume of the reference simplex, and a rule with positive weights in every dimension *)
Lemma SI_rest d : forall n, SI d (fun x => (1 - total x) ^ n) = INR (fact n) / INR (fact (n + d)).
Proof.
  induction d as [|d IH]; intro n.
  - cbn [SI]. rewrite Nat.add_0_r. replace (1 - total []) with 1 by (cbn; ring). rewrite pow1. field. apply INR_fact_neq_0.
  - cbn [SI]. assert (HN : INR (S n) <> 0) by (apply not_0_INR; lia).
    rewrite (SI_ext d _ (fun x => / INR (S n) * (1 - total x) ^ S n)).
    + rewrite (SI_scal d (S n * 1)) by (apply (pol_pow d 1 (fun x => 1 - total x)), pol_rest; lia).
      rewrite IH. replace (S n + d)%nat with (n + S d)%nat by lia. change (fact (S n)) with (S n * fact n)%nat. rewrite mult_INR.
      field. split; [apply INR_fact_neq_0|exact HN].
    + intros x Hx. apply (is_RInt_unique (V := R_CompleteNormedModule)). set (q := 1 - total x).
      apply (is_RInt_ext (V := R_NormedModule) (fun t => (q - t) ^ n)); [intros t _; rewrite total_cons; unfold q; f_equal; ring|].
      replace (/ INR (S n) * q ^ S n) with (minus (- (q - q) ^ S n / INR (S n)) (- (q - 0) ^ S n / INR (S n))).
      2: { change (- (q - q) ^ S n / INR (S n) + - (- (q - 0) ^ S n / INR (S n)) = / INR (S n) * q ^ S n).
           replace (q - q) with 0 by ring. replace (q - 0) with q by ring. rewrite (pow_i (S n)) by lia. field. exact HN. }
      apply (is_RInt_derive (V := R_CompleteNormedModule) (fun t => - (q - t) ^ S n / INR (S n)) (fun t => (q - t) ^ n)).
      * intros t _. apply is_derive_Reals.
        replace ((q - t) ^ n) with (- / INR (S n) * (INR (S n) * (q - t) ^ pred (S n) * (0 - 1))) by (cbn [pred]; field; exact HN).
        apply (derivable_pt_lim_ext (fun t => - / INR (S n) * (q - t) ^ S n)); [intro; unfold Rdiv; ring|].
        apply (derivable_pt_lim_scal (fun t => (q - t) ^ S n)).
        apply (derivable_pt_lim_comp (fun t => q - t) (fun t => t ^ S n)); [|apply derivable_pt_lim_pow].
        apply (derivable_pt_lim_minus (fun _ => q) (fun t => t)); [apply derivable_pt_lim_const|apply derivable_pt_lim_id].
      * intros t _. apply (continuous_comp (fun t => q - t) (fun t => t ^ n)); [|apply cont_R_pow].
        apply (continuous_minus (V := R_NormedModule)); [apply continuous_const|apply continuous_id].
Qed.
Lemma SI_one d : SI d (fun _ => 1) = / INR (fact d).
Proof.
  rewrite (SI_ext d _ (fun x => (1 - total x) ^ 0)) by reflexivity. rewrite SI_rest. cbn [fact Nat.add]. simpl (INR 1). unfold Rdiv. ring.
Qed.
Lemma BI_one d : BI d (fun _ => 1) = 1.
Proof.
  induction d as [|d IH]; [reflexivity|]. cbn [BI]. transitivity (BI d (fun _ => 1)); [|exact IH].
  assert (K : forall d f g, (forall x, f x = g x) -> BI d f = BI d g).
  { clear. induction d as [|d IH]; intros f g H; [apply H|]. cbn [BI]. apply IH. intro x.
    apply (RInt_ext (V := R_CompleteNormedModule)). intros t _. apply H. }
  apply K. intro x. rewrite (RInt_const (V := R_CompleteNormedModule)). change ((1 - 0) * 1 = 1). ring.
Qed.
Theorem C98_volume : forall d, SI d (fun _ => 1) = / INR (fact d) /\ BI d (fun _ => 1) = 1.
Proof. intro d. split; [apply SI_one|apply BI_one]. Qed.
(** rules with positive weights for every order of the drivers on cubes, orders 1 and 2 on triangles *)
Theorem C98_rule : forall d m,
  ((m + d <= 10)%nat -> rule_exact (simplex_cell d) m (srule_of d gauss5) /\ forall xw, In xw (srule_of d gauss5) -> simplex d (fst xw) /\ 0 < snd xw)
  /\ ((m <= 9)%nat -> rule_exact (box_cell d) m (brule_of d gauss5) /\ forall xw, In xw (brule_of d gauss5) -> box d (fst xw) /\ 0 < snd xw).
Proof.
  intros d m. split; intro H.
  - split; [apply (srule_exact gauss5 9 gauss5_moments); lia|]. intros xw Hx.
    destruct (srule_inner gauss5 gauss5_in d xw Hx) as [L [F [T W]]]. split; [|exact W]. split; [exact L|]. split; [exact F|lra].
  - split; [apply brule_exact; intros b Hb; apply gauss5_moments; lia|]. apply brule_in.
    intros uw Hu. pose proof (gauss5_in uw Hu). lra.
Qed.

(** * The unit square, 2 n^2 triangles, elements of orders k and kstar *)
Definition sq_x (n k K : nat) (al : list nat) : nat :=
  (k * ((K / 2) mod n) + (if Nat.eqb (K mod 2) 0 then nth 1 al 0 + nth 2 al 0 else nth 2 al 0))%nat.
Definition sq_y (n k K : nat) (al : list nat) : nat :=
  (k * ((K / 2) / n) + (if Nat.eqb (K mod 2) 0 then nth 2 al 0 else nth 1 al 0 + nth 2 al 0))%nat.
Definition sq_dm (n k K : nat) (al : list nat) : nat := (sq_x n k K al + (k * n + 1) * sq_y n k K al)%nat.
Definition sq_dim (n k : nat) : nat := ((k * n + 1) * (k * n + 1))%nat.
Lemma sq_cell n i j up : (i < n)%nat -> (j < n)%nat -> (up < 2)%nat ->
  let K := (2 * (j * n + i) + up)%nat in (K < 2 * (n * n))%nat /\ (K mod 2 = up /\ (K / 2) mod n = i /\ (K / 2) / n = j)%nat.
Proof.
  intros Hi Hj Hu K. assert (E : (K / 2 = j * n + i)%nat) by (symmetry; apply (Nat.div_unique K 2 _ up); unfold K; lia).
  split; [unfold K; nia|]. split; [symmetry; apply (Nat.mod_unique K 2 (j * n + i)); unfold K; lia|]. rewrite E.
  split; [symmetry; apply (Nat.mod_unique _ n j); lia|symmetry; apply (Nat.div_unique _ n _ i); lia].
Qed.
Lemma multi3 k al : In al (multi 3 k) <-> exists a b c, al = [a; b; c] /\ (a + b + c = k)%nat.
Proof.
  rewrite in_multi. split.
  - intros [L E]. destruct al as [|a [|b [|c [|]]]]; try discriminate. exists a, b, c. split; [reflexivity|]. cbn in E. lia.
  - intros [a [b [c [-> E]]]]. split; [reflexivity|]. cbn. lia.
Qed.
Lemma sq_bound n k K al : (K < 2 * (n * n))%nat -> In al (multi 3 k) -> (sq_dm n k K al < sq_dim n k)%nat.
Proof.
  intros HK Ha. apply multi3 in Ha. destruct Ha as [a [b [c [-> E]]]]. destruct n as [|n]; [lia|].
  assert (Q : (K / 2 < S n * S n)%nat) by (apply Nat.div_lt_upper_bound; lia).
  pose proof (Nat.mod_upper_bound (K / 2) (S n) ltac:(lia)) as Hi.
  assert (Hj : (K / 2 / S n < S n)%nat) by (apply Nat.div_lt_upper_bound; lia).
  assert (X : (sq_x (S n) k K [a; b; c] <= k * S n)%nat).
  { unfold sq_x. cbn [nth]. destruct (Nat.eqb (K mod 2) 0); nia. }
  assert (Y : (sq_y (S n) k K [a; b; c] <= k * S n)%nat).
  { unfold sq_y. cbn [nth]. destruct (Nat.eqb (K mod 2) 0); nia. }
  unfold sq_dm, sq_dim. nia.
Qed.
Lemma split_coord n k X : (1 <= n)%nat -> (1 <= k)%nat -> (X <= k * n)%nat -> exists i u, (i < n)%nat /\ (u <= k)%nat /\ X = (k * i + u)%nat.
Proof.
  intros Hn Hk HX. destruct (Nat.eq_dec X (k * n)) as [->|Hne].
  - exists (n - 1)%nat, k. split; [lia|]. split; [lia|]. nia.
  - exists (X / k)%nat, (X mod k)%nat. split; [apply Nat.div_lt_upper_bound; lia|].
    split; [pose proof (Nat.mod_upper_bound X k ltac:(lia)); lia|apply Nat.div_mod; lia].
Qed.
Lemma sq_cover n k l : (1 <= n)%nat -> (1 <= k)%nat -> (l < sq_dim n k)%nat ->
  exists K al, (K < 2 * (n * n))%nat /\ In al (multi 3 k) /\ sq_dm n k K al = l.
Proof.
  intros Hn Hk Hl. set (W := (k * n + 1)%nat). unfold sq_dim in Hl. fold W in Hl.
  assert (HX : (l mod W <= k * n)%nat) by (pose proof (Nat.mod_upper_bound l W ltac:(unfold W; lia)); unfold W in *; lia).
  assert (HY : (l / W <= k * n)%nat).
  { assert (l / W < W)%nat by (apply Nat.div_lt_upper_bound; [unfold W; lia|exact Hl]). unfold W in *; lia. }
  destruct (split_coord n k _ Hn Hk HX) as [i [u [Hi [Hu EX]]]]. destruct (split_coord n k _ Hn Hk HY) as [j [v [Hj [Hv EY]]]].
  assert (G : forall K al, sq_x n k K al = (l mod W)%nat -> sq_y n k K al = (l / W)%nat -> sq_dm n k K al = l).
  { intros K al E1 E2. unfold sq_dm. fold W. rewrite E1, E2. rewrite (Nat.div_mod l W) at 3 by (unfold W; lia). lia. }
  destruct (le_lt_dec v u) as [h|h].
  - destruct (sq_cell n i j 0 Hi Hj ltac:(lia)) as [A [B [C D]]]. exists (2 * (j * n + i) + 0)%nat, [(k - u)%nat; (u - v)%nat; v].
    split; [exact A|]. split; [apply multi3; do 3 eexists; split; [reflexivity|lia]|].
    apply G; unfold sq_x, sq_y; rewrite B, ?C, ?D; cbn [Nat.eqb nth]; lia.
  - destruct (sq_cell n i j 1 Hi Hj ltac:(lia)) as [A [B [C D]]]. exists (2 * (j * n + i) + 1)%nat, [(k - v)%nat; (v - u)%nat; u].
    split; [exact A|]. split; [apply multi3; do 3 eexists; split; [reflexivity|lia]|].
    apply G; unfold sq_x, sq_y; rewrite B, ?C, ?D; cbn [Nat.eqb nth]; lia.
Qed.
Definition ord2 (kp kd : nat) (s : fsp) : nat := match s with Vp => kp | Vd => kd end.
Definition square (D0 : disc) (n kp kd : nat) (r : srule) : disc :=
  lagr_disc D0 (multi 3) phi (2 * (n * n)) r (fun p => / INR n ^ 2 * snd (nth (p mod List.length r) r ([], 0))) (ord2 kp kd)
    (fun s => sq_dim n (ord2 kp kd s)) (fun s => sq_dm n (ord2 kp kd s)).
Theorem C98_square : forall D0 n kp kd m r, (1 <= n)%nat -> (1 <= kp)%nat -> (1 <= kd)%nat -> rule_exact (simplex_cell 2) m r ->
  (forall xw, In xw r -> 0 < snd xw) ->
  meshed (simplex_cell 2) m (square D0 n kp kd r) r (2 * (n * n)) (ord2 kp kd) (lagr_fun (multi 3) phi (ord2 kp kd) (fun s => sq_dm n (ord2 kp kd s))).
Proof.
  intros D0 n kp kd m r Hn Hp Hd He Hw.
  apply (C98_lagrange _ D0 m (multi 3) phi node); [apply simplex_ok|apply C98_elements|exact He| | | |].
  - intros []; assumption.
  - intros p Hpp. assert (L : List.length r <> 0%nat) by (intro E; rewrite E in Hpp; lia).
    apply Rmult_lt_0_compat; [apply Rinv_0_lt_compat, pow_lt, lt_0_INR; lia|]. apply Hw, nth_In, Nat.mod_upper_bound, L.
  - intros s K al. apply sq_bound.
  - intros s l. apply sq_cover; [exact Hn|destruct s; assumption].
Qed.

(** * The unit cube in d dimensions, n^d cubes *)
Fixpoint cb_dm (n k : nat) (al : list nat) (K : nat) : nat :=
  match al with [] => 0%nat | a :: al' => (k * (K mod n) + a + (k * n + 1) * cb_dm n k al' (K / n))%nat end.
Definition cb_dim (d n k : nat) : nat := ((k * n + 1) ^ d)%nat.
Lemma cb_bound n k : (1 <= n)%nat -> forall d al K, (K < n ^ d)%nat -> In al (grid d k) -> (cb_dm n k al K < cb_dim d n k)%nat.
Proof.
  intro Hn. unfold cb_dim. induction d as [|d IH]; intros al K HK Ha.
  - destruct Ha as [<-|[]]. cbn. lia.
  - apply in_grid in Ha. destruct Ha as [L F]. destruct al as [|a al]; [discriminate|]. injection L as L. inversion F; subst.
    assert (Hq : (K / n < n ^ List.length al)%nat) by (apply Nat.div_lt_upper_bound; [lia|exact HK]).
    pose proof (IH al (K / n)%nat Hq ltac:(apply in_grid; split; [reflexivity|assumption])) as B.
    pose proof (Nat.mod_upper_bound K n ltac:(lia)) as M. cbn [cb_dm]. rewrite Nat.pow_succ_r'.
    assert (k * (K mod n) + a < k * n + 1)%nat by nia. nia.
Qed.
Lemma cb_cover n k : (1 <= n)%nat -> (1 <= k)%nat -> forall d l, (l < cb_dim d n k)%nat ->
  exists K al, (K < n ^ d)%nat /\ In al (grid d k) /\ cb_dm n k al K = l.
Proof.
  intros Hn Hk. unfold cb_dim. set (W := (k * n + 1)%nat). induction d as [|d IH]; intros l Hl.
  - exists 0%nat, []. cbn in *. split; [lia|]. split; [left; reflexivity|lia].
  - rewrite Nat.pow_succ_r' in Hl.
    destruct (IH (l / W)%nat) as [K [al [HK [Ha E]]]]; [apply Nat.div_lt_upper_bound; [unfold W; lia|exact Hl]|].
    assert (HX : (l mod W <= k * n)%nat) by (pose proof (Nat.mod_upper_bound l W ltac:(unfold W; lia)); unfold W in *; lia).
    destruct (split_coord n k _ Hn Hk HX) as [i [u [Hi [Hu EX]]]].
    exists (n * K + i)%nat, (u :: al). split; [rewrite Nat.pow_succ_r'; nia|]. split.
    + apply in_grid in Ha. destruct Ha as [L F]. apply in_grid. split; [cbn; congruence|]. apply List.Forall_cons; assumption.
    + cbn [cb_dm]. replace ((n * K + i) / n)%nat with K by (apply (Nat.div_unique _ n _ i); lia).
      replace ((n * K + i) mod n)%nat with i by (apply (Nat.mod_unique _ n K); lia). fold W. rewrite E, <- EX.
      rewrite (Nat.div_mod l W) at 3 by (unfold W; lia). lia.
Qed.
Definition cube (D0 : disc) (d n kp kd : nat) (r : srule) : disc :=
  lagr_disc D0 (grid d) qphi (n ^ d) r (fun p => / INR n ^ d * snd (nth (p mod List.length r) r ([], 0))) (ord2 kp kd)
    (fun s => cb_dim d n (ord2 kp kd s)) (fun s K al => cb_dm n (ord2 kp kd s) al K).
Definition cube_fun (d n kp kd : nat) := lagr_fun (grid d) qphi (ord2 kp kd) (fun s K al => cb_dm n (ord2 kp kd s) al K).
Theorem C98_cube : forall D0 d n kp kd m r, (1 <= n)%nat -> (1 <= kp)%nat -> (1 <= kd)%nat -> rule_exact (box_cell d) m r ->
  (forall xw, In xw r -> 0 < snd xw) ->
  meshed (box_cell d) m (cube D0 d n kp kd r) r (n ^ d) (ord2 kp kd) (cube_fun d n kp kd).
Proof.
  intros D0 d n kp kd m r Hn Hp Hd He Hw.
  apply (C98_lagrange _ D0 m (grid d) qphi qnode); [apply box_ok|apply C98_elements|exact He| | | |].
  - intros []; assumption.
  - intros p Hpp. assert (L : List.length r <> 0%nat) by (intro E; rewrite E in Hpp; lia).
    apply Rmult_lt_0_compat; [apply Rinv_0_lt_compat, pow_lt, lt_0_INR; lia|]. apply Hw, nth_In, Nat.mod_upper_bound, L.
  - intros s K al. apply cb_bound, Hn.
  - intros s l. apply cb_cover; [exact Hn|destruct s; assumption].
Qed.
(** the 3D driver on its mesh of Nx^3 hexahedra, orders 1 to 3 and every level: the system of every
    slab but the first has exactly one solution for every right-hand side *)
Theorem C98_driver_3d : forall o lvl S D0 om, (1 <= o <= 3)%nat -> setting_3d o lvl = Ok S ->
  let P := st_params S in let D := cube D0 3 (st_cells S) (p_k P) (p_kstar P) (brule_of 3 gauss5) in regular D om ->
  exists c, construct P = Ok c /\ forall Lp, lay_ok D 4 (nc_pre c) Lp ->
  uniquely_solvable (lay_dim Lp) (assemble D Lp (slab_form c gamma_shipped om true)).
Proof.
  intros o lvl S D0 om Ho HS P D HR. pose proof (shipped_3d o lvl S Ho HS) as H.
  pose proof (C73_constants o 1 lvl nat []) as [_ [_ K]]. specialize (K S HS). cbv zeta in K.
  destruct K as [_ [_ [_ [_ [Ek [Es [EN [Ec _]]]]]]]].
  assert (HN : (1 <= p_N P)%nat) by (apply (shipped_params Driver3D S H)).
  assert (HM : meshed (box_cell 3) (quadrature_degree P) D (brule_of 3 gauss5) (st_cells S ^ 3) (orders P) (cube_fun 3 (st_cells S) (p_k P) (p_kstar P))).
  { assert (Q : (quadrature_degree P <= 9)%nat) by (unfold quadrature_degree, P; rewrite Ek; lia).
    destruct (proj2 (C98_rule 3 (quadrature_degree P)) Q) as [He Hw].
    apply (C98_cube D0 3 (st_cells S) (p_k P) (p_kstar P)); [unfold P in HN; lia|unfold P; lia|unfold P; lia|exact He|]. intros xw Hx. apply Hw, Hx. }
  destruct (C98_driver Driver3D S om (box_cell 3) D _ _ _ H HM HR) as [c [Hc K]]. exists c. split; [exact Hc|].
  intros Lp HLp. refine (proj1 (K (std_layout 4 (nc_full c) (fun j => d_dim D (spc j))) Lp _ HLp)). apply std_layout_ok.
Qed.
(** data in the whole cylinder: the first slab and the preconditioned system as well *)
Theorem C98_full_data : forall dr S om w0 C D r nc F, shipped dr S ->
  meshed C (quadrature_degree (st_params S)) D r nc (orders (st_params S)) F -> regular D om ->
  0 < w0 -> (forall p, In p (d_pts D Dx) -> w0 <= om p) -> 4 * 1e-20 ^ 2 < 625 * w0 * t_dt (tgrid (st_params S)) ^ 2 ->
  exists c, construct (st_params S) = Ok c /\ forall L Lp, lay_ok D 4 (nc_full c) L -> lay_ok D 4 (nc_pre c) Lp ->
  uniquely_solvable (lay_dim Lp) (assemble D Lp (slab_form c gamma_shipped om false))
  /\ uniquely_solvable (lay_dim Lp) (assemble D Lp (slab_form c gamma_shipped om true))
  /\ uniquely_solvable (lay_dim L) (st_matrix D L c gamma_shipped om true).
Proof.
  intros dr S om w0 C D r nc F H HM HR Hw Hom Hs. destruct (C98_driver dr S om C D r nc F H HM HR) as [c [Hc K]].
  exists c. split; [exact Hc|]. intros L Lp HL HLp. destruct (K L Lp HL HLp) as [K1 [K2 _]].
  pose proof (shipped_weights dr S H) as [G1 [G2 [G3 [G4 _]]]].
  destruct (shipped_params dr S H) as [_ [_ [_ [_ [HT _]]]]].
  pose proof (proj1 (C98_no_blind _ C D r nc F HM (shipped_orders dr S H))) as B.
  pose proof (C72_full_data (st_params S) c gamma_shipped om D w0 Hc HT HR (blind_definite _ _ B) ltac:(cbn; lra) G3 Hw Hom) as Q.
  destruct (K2 _ Q) as [A1 A2]; [|auto]. cbn [g_data gamma_shipped]. lra.
Qed.
(** the hypotheses hold: no facets, all of the cube observed *)
Definition bare : disc := {| d_gd := 3; d_pts := fun _ => []; d_w := fun _ _ => 1; d_x := fun _ => []; d_h := fun _ _ => 1;
  d_hp := fun _ => 1; d_hm := fun _ => 1; d_dim := fun _ => 0%nat; d_tab := fun _ _ _ _ _ _ => 0 |}.
Lemma lagr_regular idx bas nc r w ord dims dm : (forall p, (p < nc * List.length r)%nat -> 0 < w p) ->
  regular (lagr_disc bare idx bas nc r w ord dims dm) (fun _ => 1).
Proof.
  intro Hw. split; cbn [lagr_disc bare d_pts d_w d_h d_hp d_hm]; intros; try lra.
  destruct m; try contradiction. match goal with H : In _ _ |- _ => apply in_seq in H end. apply Rlt_le, Hw. lia.
Qed.
Theorem C98_nonvacuous : forall o lvl, (1 <= o <= 3)%nat -> (-6 <= lvl < 6)%Z -> exists S, setting_3d o lvl = Ok S /\
  let P := st_params S in let D := cube bare 3 (st_cells S) (p_k P) (p_kstar P) (brule_of 3 gauss5) in
  regular D (fun _ => 1) /\ (8 <= d_dim D Vp)%nat /\ (8 <= d_dim D Vd)%nat
  /\ meshed (box_cell 3) (quadrature_degree P) D (brule_of 3 gauss5) (st_cells S ^ 3) (orders P) (cube_fun 3 (st_cells S) (p_k P) (p_kstar P))
  /\ 4 * 1e-20 ^ 2 < 625 * 1 * t_dt (tgrid P) ^ 2.
Proof.
  intros o lvl Ho Hl. destruct C73_refused as [_ [_ [_ [_ [_ R]]]]]. destruct (proj1 (R o lvl) Hl) as [S HS]. exists S. split; [exact HS|].
  intros P D. pose proof (shipped_3d o lvl S Ho HS) as H.
  pose proof (C73_constants o 1 lvl nat []) as [_ [_ K]]. specialize (K S HS). cbv zeta in K.
  destruct K as [ET [_ [_ [_ [Ek [Es [EN [Ec _]]]]]]]]. fold P in ET, Ek, Es, EN, Ec.
  assert (HN : (1 <= p_N P)%nat) by (apply (shipped_params Driver3D S H)).
  assert (Q : (quadrature_degree P <= 9)%nat) by (unfold quadrature_degree; lia).
  destruct (proj2 (C98_rule 3 (quadrature_degree P)) Q) as [He Hw].
  assert (HM : meshed (box_cell 3) (quadrature_degree P) D (brule_of 3 gauss5) (st_cells S ^ 3) (orders P) (cube_fun 3 (st_cells S) (p_k P) (p_kstar P))).
  { apply (C98_cube bare 3 (st_cells S) (p_k P) (p_kstar P)); [lia|lia|lia|exact He|]. intros xw Hx. apply Hw, Hx. }
  assert (W : forall k, (1 <= k)%nat -> (8 <= (k * st_cells S + 1) ^ 3)%nat).
  { intros k Hk. apply (Nat.le_trans _ (2 ^ 3)); [cbn; lia|]. apply Nat.pow_le_mono_l. nia. }
  split; [|split; [|split; [|split; [exact HM|]]]].
  - apply lagr_regular. intros p Hp. apply (sm_w _ _ _ _ _ _ _ HM p). unfold D, cube, lagr_disc, d_pts. apply in_seq. lia.
  - apply W. cbn [ord2]. lia.
  - apply W. cbn [ord2]. lia.
  - cbn [tgrid t_dt]. rewrite ET. assert (B : (p_N P <= 32)%nat).
    { rewrite EN. pose proof (Z.mod_pos_bound lvl 6 ltac:(lia)). apply (Nat.le_trans _ (2 ^ 5)); [|cbn; lia]. apply Nat.pow_le_mono_r; lia. }
    apply le_INR in B. apply le_INR in HN. simpl (INR 1) in HN. replace (INR 32) with 32 in B by (simpl; lra).
    assert (I : / 64 <= 1 / 2 / INR (p_N P)).
    { replace (1 / 2 / INR (p_N P)) with (/ (2 * INR (p_N P))) by (field; lra). apply Rinv_le_contravar; lra. }
    assert (/ 64 * / 64 <= (1 / 2 / INR (p_N P)) ^ 2) by nra.
    assert (4 * 1e-20 ^ 2 < 1 / 100) by (decimals; lra). lra.
Qed.
(** triangles: n by n squares, orders 1 and 2 *)
Theorem C98_triangles_nonvacuous : forall n k, (1 <= n)%nat -> (1 <= k <= 2)%nat -> let D := square bare n k k (srule_of 2 gauss5) in
  meshed (simplex_cell 2) (2 * k + 3) D (srule_of 2 gauss5) (2 * (n * n)) (ord2 k k) (lagr_fun (multi 3) phi (ord2 k k) (fun s => sq_dm n (ord2 k k s)))
  /\ regular D (fun _ => 1) /\ (4 <= d_dim D Vp)%nat /\ ~ blind D Vp.
Proof.
  intros n k Hn Hk D. destruct (proj1 (C98_rule 2 (2 * k + 3)) ltac:(lia)) as [He Hw].
  assert (HM : meshed (simplex_cell 2) (2 * k + 3) D (srule_of 2 gauss5) (2 * (n * n)) (ord2 k k) (lagr_fun (multi 3) phi (ord2 k k) (fun s => sq_dm n (ord2 k k s)))).
  { apply (C98_square bare n k k); [lia|lia|lia|exact He|]. intros xw Hx. apply Hw, Hx. }
  split; [exact HM|]. split; [|split].
  - apply lagr_regular. intros p Hp. apply (sm_w _ _ _ _ _ _ _ HM p). unfold D, square, lagr_disc, d_pts. apply in_seq. lia.
  - change (4 <= sq_dim n k)%nat. unfold sq_dim. assert (2 <= k * n + 1)%nat by nia. nia.
  - exact (proj2 (C98_definite _ _ _ _ _ _ _ Vp HM ltac:(cbn; lia))).
Qed.
Print Assumptions C98_driver_3d.
Print Assumptions C98_full_data.
