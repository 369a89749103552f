(** Props_Time.v -- properties C01 - C11 (precomp_time_int.py).
    Only theorem statements, closed by the lemmas of TimeProofs.v and
    QuadProofs.v, and non-vacuity examples. *)
From Coq Require Import Reals List ZArith Lra Lia String Bool.
From Coquelicot Require Import Coquelicot.
From Verif Require Import Base TimeModel TimeSpec TimeProofs QuadProofs.
Import ListNotations.
Open Scope R_scope.

(** C01: the callable table holds the Lagrange functions of the equispaced
    nodes, and function i is 1 at node i and 0 at the other nodes. *)
Theorem C01_basis_is_nodal : forall q phis dphis,
  basis_in_time q = Ok (phis, dphis) ->
  List.length phis = S (Z.to_nat q)
  /\ (forall i t, (i <= Z.to_nat q)%nat -> fn phis i t = lagrange (Z.to_nat q) i t)
  /\ ((1 <= q)%Z -> forall i j, (i <= Z.to_nat q)%nat -> (j <= Z.to_nat q)%nat ->
        fn phis i (node (Z.to_nat q) j) = if Nat.eqb i j then 1 else 0).
Proof.
  intros q phis dphis H. split; [|split].
  - destruct (basis_ok q) as [p [d [E [L _]]]]; [pose proof (basis_dom _ _ H); lia|].
    rewrite H in E; injection E; intros; subst. rewrite L. pose proof (basis_dom _ _ H); lia.
  - exact (basis_lagrange q phis dphis H).
  - exact (basis_nodal q phis dphis H).
Qed.
(** the end-point values the slab coupling relies on *)
Theorem C01_endpoints : forall q phis dphis,
  basis_in_time q = Ok (phis, dphis) -> (1 <= q)%Z ->
  forall i, (i <= Z.to_nat q)%nat ->
  fn phis i 0 = (if Nat.eqb i 0 then 1 else 0)
  /\ fn phis i 1 = (if Nat.eqb i (Z.to_nat q) then 1 else 0).
Proof.
  intros q phis dphis H Hq i Hi.
  pose proof (basis_nodal q phis dphis H Hq i 0 Hi) as A.
  pose proof (basis_nodal q phis dphis H Hq i (Z.to_nat q) Hi) as B.
  unfold node in A, B. replace (INR (Z.to_nat q) / INR (Z.to_nat q)) with 1 in B
    by (field; apply not_0_INR; lia).
  replace (INR 0 / INR (Z.to_nat q)) with 0 in A by (unfold Rdiv; cbn; ring).
  split; [apply A | apply B]; lia.
Qed.
Example C01_nonvacuous : exists phis dphis, basis_in_time 3 = Ok (phis, dphis)
  /\ fn phis 1 (node 3 1) = 1 /\ fn phis 1 (node 3 2) = 0.
Proof.
  eexists; eexists; split; [reflexivity|]. unfold fn, node; cbn; split; field.
Qed.

(** C02 *)
Theorem C02_basis_reproduces_polynomials : forall q phis dphis,
  basis_in_time q = Ok (phis, dphis) ->
  (forall p t, (List.length p <= S (Z.to_nat q))%nat ->
     sumn (S (Z.to_nat q)) (fun i => polyfun p (node (Z.to_nat q) i) * fn phis i t) = polyfun p t)
  /\ (forall t, sumn (S (Z.to_nat q)) (fun i => fn phis i t) = 1).
Proof.
  intros q phis dphis H. split; [exact (basis_reproduces q phis dphis H)|].
  intro t. pose proof (basis_reproduces q phis dphis H [1] t) as E.
  cbn [List.length] in E.
  rewrite (Rsum_ext _ _ (fun i => fn phis i t)) in E
    by (intro; unfold polyfun, Rsum; cbn; ring).
  rewrite E by lia. unfold polyfun, Rsum; cbn; ring.
Qed.
Example C02_nonvacuous : exists phis dphis, basis_in_time 2 = Ok (phis, dphis)
  /\ polyfun [1; -2; 5] (node 2 1) = 5/4.
Proof.
  eexists; eexists; split; [reflexivity|]. unfold polyfun, node, Rsum; cbn; field.
Qed.

(** C03 *)
Theorem C03_tabulated_derivatives : forall q phis dphis,
  basis_in_time q = Ok (phis, dphis) ->
  List.length dphis = List.length phis
  /\ (forall i t, is_derive (fn phis i) t (fn dphis i t))
  /\ (forall t, sumn (S (Z.to_nat q)) (fun i => fn dphis i t) = 0).
Proof.
  intros q phis dphis H. split; [|split].
  - destruct (basis_ok q) as [p [d [E [L L']]]]; [pose proof (basis_dom _ _ H); lia|].
    rewrite H in E; injection E; intros; subst. congruence.
  - exact (basis_derivative q phis dphis H).
  - exact (basis_derivative_sum q phis dphis H).
Qed.
Example C03_nonvacuous : exists phis dphis, basis_in_time 3 = Ok (phis, dphis) /\ fn dphis 0 0 = -11/2.
Proof. eexists; eexists; split; [reflexivity|]. unfold fn; cbn; field. Qed.

(** C04 *)
Theorem C04_elmat_entries_are_time_integrals : forall q qstar e phis dphis chis dchis,
  get_elmat_time q qstar = Ok e ->
  basis_in_time q = Ok (phis, dphis) -> basis_in_time qstar = Ok (chis, dchis) ->
  let nq := S (Z.to_nat q) in let nqs := S (Z.to_nat qstar) in
  (forall i j, (i < nqs)%nat -> (j < nq)%nat ->
     mget (M_time_q_qstar e) i j = RInt (fun t => fn phis j t * fn chis i t) 0 1
     /\ mget (DM_time_q_qstar e) i j = RInt (fun t => Derive (fn phis j) t * fn chis i t) 0 1)
  /\ (forall i j, (i < nq)%nat -> (j < nq)%nat ->
     mget (M_time_q_q e) i j = RInt (fun t => fn phis j t * fn phis i t) 0 1
     /\ mget (DM_time_q_q e) i j = RInt (fun t => Derive (fn phis j) t * fn phis i t) 0 1
     /\ mget (DDM_time_q_q e) i j = RInt (fun t => Derive (fn phis j) t * Derive (fn phis i) t) 0 1)
  /\ (forall i j, (i < nqs)%nat -> (j < nqs)%nat ->
     mget (M_time_qstar_qstar e) i j = RInt (fun t => fn chis j t * fn chis i t) 0 1).
Proof. exact elmat_all. Qed.
Example C04_nonvacuous : exists e, get_elmat_time 2 1 = Ok e
  /\ mget (M_time_q_qstar e) 1 1 = 1/3 /\ mget (M_time_q_qstar e) 1 0 = 0.
Proof. eexists; split; [reflexivity|]. cbv [Pos.to_nat Pos.iter_op Init.Nat.add] in *; cbn;
  change (Pos.to_nat 3) with 3%nat; change (Pos.to_nat 2) with 2%nat; cbn; split; field. Qed.

(** C05 *)
Theorem C05_elmat_structure : forall q qstar e phis dphis,
  get_elmat_time q qstar = Ok e -> basis_in_time q = Ok (phis, dphis) ->
  let nq := S (Z.to_nat q) in let nqs := S (Z.to_nat qstar) in
  (forall i j, (i < nq)%nat -> (j < nq)%nat ->
     mget (M_time_q_q e) i j = mget (M_time_q_q e) j i
     /\ mget (DDM_time_q_q e) i j = mget (DDM_time_q_q e) j i
     /\ mget (DM_time_q_q e) i j + mget (DM_time_q_q e) j i
        = fn phis i 1 * fn phis j 1 - fn phis i 0 * fn phis j 0)
  /\ (forall i j, (i < nqs)%nat -> (j < nqs)%nat ->
     mget (M_time_qstar_qstar e) i j = mget (M_time_qstar_qstar e) j i)
  /\ (forall c, 0 <= qform nq (mget (M_time_q_q e)) c
        /\ (qform nq (mget (M_time_q_q e)) c = 0 -> forall i, (i < nq)%nat -> c i = 0))
  /\ (forall c, 0 <= qform nqs (mget (M_time_qstar_qstar e)) c
        /\ (qform nqs (mget (M_time_qstar_qstar e)) c = 0 -> forall i, (i < nqs)%nat -> c i = 0))
  /\ (forall c, 0 <= qform nq (mget (DDM_time_q_q e)) c
        /\ (qform nq (mget (DDM_time_q_q e)) c = 0 <-> forall i, (i < nq)%nat -> c i = c 0%nat)).
Proof. exact elmat_structure. Qed.
Example C05_nonvacuous : exists e, get_elmat_time 1 1 = Ok e
  /\ qform 2 (mget (M_time_q_q e)) (fun i => INR (S i)) = 7/3
  /\ qform 2 (mget (DDM_time_q_q e)) (fun i => INR (S i)) = 1.
Proof. eexists; split; [reflexivity|]. unfold qform, Rsum; cbv [Pos.to_nat Pos.iter_op Init.Nat.add] in *; cbn;
  change (Pos.to_nat 3) with 3%nat; change (Pos.to_nat 2) with 2%nat; cbn; split; field. Qed.

(** C06 *)
Theorem C06_supported_orders : forall q qstar,
  ((0 <= q <= 3)%Z /\ (0 <= qstar <= 3)%Z ->
     exists e, get_elmat_time q qstar = Ok e
     /\ let nq := S (Z.to_nat q) in let nqs := S (Z.to_nat qstar) in
        has_shape nqs nq (M_time_q_qstar e) /\ has_shape nq nq (M_time_q_q e)
        /\ has_shape nqs nqs (M_time_qstar_qstar e) /\ has_shape nqs nq (DM_time_q_qstar e)
        /\ has_shape nq nq (DM_time_q_q e) /\ has_shape nq nq (DDM_time_q_q e))
  /\ (~ ((0 <= q <= 3)%Z /\ (0 <= qstar <= 3)%Z) -> get_elmat_time q qstar = Err KeyError).
Proof.
  intros q qstar; split.
  - intros [Hq Hqs]. destruct (elmat_defined q qstar Hq Hqs) as [e He]. exists e.
    split; [exact He|exact (elmat_shapes q qstar e He)].
  - exact (elmat_undefined q qstar).
Qed.
Example C06_nonvacuous : get_elmat_time 4 1 = Err KeyError /\ get_elmat_time 1 (-1) = Err KeyError.
Proof. split; reflexivity. Qed.

(** C07 *)
Theorem C07_quadrature_exactness : forall name n d,
  exact_degree name n = Some d ->
  forall a b, exists qr ps ws,
    QuadRule name n = Ok qr
    /\ current_pts qr a b = Ok (Some ps) /\ t_weights qr (b - a) = Ok (Some ws)
    /\ forall p, (List.length p <= S d)%nat -> quad_sum ps ws (polyfun p) = RInt (polyfun p) a b.
Proof.
  intros name n d Hd a b.
  destruct (rule_exists name n (exact_degree_tabulated _ _ _ Hd)) as [qr [Hqr [Hp Hw]]].
  destruct (Hp a b) as [ps Eps]. destruct (Hw (b - a)) as [ws Ews].
  exists qr, ps, ws. repeat split; try assumption.
  exact (rule_exact name n d Hd qr a b ps ws Hqr Eps Ews).
Qed.
Example C07_nonvacuous : exact_degree "Gauss" 3 = Some 5%nat
  /\ exact_degree "Gauss-Radau" 3 = Some 4%nat
  /\ exists qr ps ws, QuadRule "Newton-Cotes" 3 = Ok qr
    /\ current_pts qr 1 3 = Ok (Some ps) /\ t_weights qr 2 = Ok (Some ws)
    /\ quad_sum ps ws (fun t => t * t) = 26/3.
Proof.
  split; [reflexivity|split; [reflexivity|]]. do 3 eexists.
  split; [reflexivity|split; [reflexivity|split; [reflexivity|]]].
  unfold quad_sum, Rsum; cbn; change (Pos.to_nat 3) with 3%nat; cbn; field.
Qed.

(** the stored points and weights are the rule on the reference interval: [-1, 1] for
    the Gauss families, [0, 1] for the others *)
Ltac entries := repeat match goal with
  | |- Ok _ = Ok _ => apply f_equal | |- Some _ = Some _ => apply f_equal
  | |- cons _ _ = cons _ _ => apply f_equal2 | |- nil = nil => reflexivity end.
Theorem C07_stored_rule : forall name n, tabulated name n = true ->
  forall qr, QuadRule name n = Ok qr ->
  let a := if (String.eqb name "Gauss" || String.eqb name "Gauss-Radau")%bool then -1 else 0 in
  exists ps ws, qr_points qr = Some ps /\ qr_weights qr = Some ws
    /\ current_pts qr a 1 = Ok (Some ps) /\ t_weights qr (1 - a) = Ok (Some ws).
Proof.
  intros name n H qr Hqr. cbv zeta.
  destruct (tabulated_cases _ _ H) as [[-> [->|[->| ->]]]|[[-> [->|[->| ->]]]|[[-> [->| ->]]| ->]]];
  cbn in Hqr; injection Hqr; clear Hqr; intros; subst qr;
  (do 2 eexists; split; [reflexivity|split; [reflexivity|]]);
  (split; cbn; try change (Pos.to_nat 2) with 2%nat; try change (Pos.to_nat 3) with 3%nat; cbn; entries; decimals; try field; try lra; apply Rgt_not_eq, sqrt_lt_R0; lra).
Qed.
Example C07_stored_nonvacuous : exists qr, QuadRule "Newton-Cotes" 3 = Ok qr /\ qr_points qr = Some [0; 1/2; 1].
Proof. eexists. split; [reflexivity|]. cbn. try change (Pos.to_nat 3) with 3%nat; cbn. entries; field. Qed.

(** C08 *)
Theorem C08_radau_4_5_error : forall n d,
  radau_degree n = Some d ->
  forall qr a b ps ws, QuadRule "Gauss-Radau" n = Ok qr -> a < b ->
  current_pts qr a b = Ok (Some ps) -> t_weights qr (b - a) = Ok (Some ws) ->
  forall p, (List.length p <= S d)%nat ->
  let f := fun t => polyfun p ((t - a) / (b - a)) in
  Rabs (quad_sum ps ws f - RInt f a b) <= 3e-7 * (b - a) * coef_sum p.
Proof. exact radau_error. Qed.
(** constants are integrated exactly, but exactness to degree 2n-2 (what the
    name of the rule promises) fails already for f(t) = t on every interval *)
Theorem C08_radau_4_5_exactness_refuted : forall n, (n = 4 \/ n = 5)%Z ->
  forall qr a b ps ws, QuadRule "Gauss-Radau" n = Ok qr -> a < b ->
  current_pts qr a b = Ok (Some ps) -> t_weights qr (b - a) = Ok (Some ws) ->
  (forall c, quad_sum ps ws (fun _ => c) = RInt (fun _ => c) a b)
  /\ quad_sum ps ws (fun t => t) <> RInt (fun t => t) a b.
Proof. exact radau_not_exact. Qed.
Example C08_nonvacuous : exists qr ps ws, QuadRule "Gauss-Radau" 5 = Ok qr
  /\ current_pts qr 0 1 = Ok (Some ps) /\ t_weights qr (1 - 0) = Ok (Some ws).
Proof. do 3 eexists; repeat split. Qed.

(** C09 *)
Theorem C09_admissible_nodes_and_weights : forall name n,
  tabulated name n = true ->
  forall qr a b ps ws, QuadRule name n = Ok qr -> a < b ->
  current_pts qr a b = Ok (Some ps) -> t_weights qr (b - a) = Ok (Some ws) ->
  List.length ps = List.length ws
  /\ (forall x, In x ps -> a <= x <= b)
  /\ (forall w, In w ws -> 0 < w)
  /\ Rsum ws (fun w => w) = b - a
  /\ (name = "Gauss-Radau"%string -> hd_error ps = Some a /\ (forall x, In x ps -> x < b)).
Proof. exact rule_admissible. Qed.
Example C09_nonvacuous : tabulated "Gauss-Radau" 5 = true /\ tabulated "Gauss" 2 = true.
Proof. split; reflexivity. Qed.

(** C10 *)
Theorem C10_rule_selection : forall name n,
  (tabulated name n = true ->
     exists qr, QuadRule name n = Ok qr /\
      (forall a b, exists ps, current_pts qr a b = Ok (Some ps)) /\
      (forall dt, exists ws, t_weights qr dt = Ok (Some ws)))
  /\ (tabulated name n = false -> known_name name = true ->
      QuadRule name n = Err (if String.eqb name "Newton-Cotes" && Z.eqb n 1
                             then ZeroDivisionError else KeyError))
  /\ (known_name name = false -> exists qr, QuadRule name n = Ok qr
      /\ (forall a b, current_pts qr a b = Ok None) /\ (forall dt, t_weights qr dt = Ok None)).
Proof.
  intros name n. split; [exact (rule_exists name n)|split].
  - intros Ht Hk. destruct (rule_untabulated name n Ht) as [[_ E]|[K _]]; [exact E|congruence].
  - intro Hk. assert (Ht : tabulated name n = false).
    { destruct (tabulated name n) eqn:T; [|reflexivity]. exfalso.
      apply tabulated_cases in T.
      destruct T as [[-> _]|[[-> _]|[[-> _]| ->]]]; cbn in Hk; discriminate. }
    destruct (rule_untabulated name n Ht) as [[K _]|[_ E]]; [congruence|exact E].
Qed.
Example C10_nonvacuous : QuadRule "Newton-Cotes" 1 = Err ZeroDivisionError
  /\ QuadRule "Gauss" 4 = Err KeyError /\ known_name "Gauss-Lobatto" = false.
Proof. repeat split; reflexivity. Qed.

(** C11 *)
Theorem C11_theta_ref : theta_ref (-1) = 1 /\ theta_ref 0 = 0 /\ theta_ref 1 = 0
  /\ forall tau, is_derive theta_ref tau (d_theta_ref tau).
Proof.
  split; [rewrite theta_ref_eq; field|split; [rewrite theta_ref_eq; field|split]].
  - rewrite theta_ref_eq; field.
  - exact theta_ref_derive.
Qed.

Print Assumptions C01_basis_is_nodal.
Print Assumptions C01_endpoints.
Print Assumptions C02_basis_reproduces_polynomials.
Print Assumptions C03_tabulated_derivatives.
Print Assumptions C04_elmat_entries_are_time_integrals.
Print Assumptions C05_elmat_structure.
Print Assumptions C06_supported_orders.
Print Assumptions C07_quadrature_exactness.
Print Assumptions C07_stored_rule.
Print Assumptions C08_radau_4_5_error.
Print Assumptions C08_radau_4_5_exactness_refuted.
Print Assumptions C09_admissible_nodes_and_weights.
Print Assumptions C10_rule_selection.
Print Assumptions C11_theta_ref.
