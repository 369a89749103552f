(** Props_Gmres.v -- properties C48, C49 and C63: the GMRES wrapper.

    The external solver is any program ([ext]) that reads and writes vectors and
    calls the two python callbacks. *)
From Coq Require Import Reals List ZArith Lra Lia Bool String FunctionalExtensionality Classical.
From Verif Require Import QuadProofs Base TimeModel TimeSpec FormModel FormSpec FormProofs SpaceTimeForms FormBlocks FormTime FormC12
  FormExample Props_Forms SpaceTimeModel SlabOps ApplyProofs MarchProofs MarchLoops MarchSum MarchUnique
  ErrorsModel Lifecycle LifeProofs OpsProofs SetupOk LinAlg OpsExample Props_Ops LifeFrames Props_Life GmresModel.
Import ListNotations.
Open Scope R_scope.
Open Scope monad_scope.

(** * C48 *)
(** The solve itself: a zero start vector and the external program. *)
Theorem C48_only_converged : forall S rd wr mul prec ext db n b xa maxsteps tol restart printrates reltol s,
  let cfg := configure db maxsteps tol restart printrates reltol in
  let solve c := bind (wr xa (fun _ => 0)) (fun _ => run_ksp S rd wr mul prec n (ext c n b xa)) in
  match get_gmres_solution S rd wr mul prec ext db n b xa maxsteps tol restart printrates reltol s with
  | (Ok (x, r), s') =>
      exists c db' o, cfg = Ok (c, db') /\ solve c s = (Ok o, s') /\ (0 <= o_reason o)%Z /\ x = xa /\ r = o_res o
  | (Err e, s') =>
      (cfg = Err e /\ s' = s) \/
      exists c db', cfg = Ok (c, db') /\
        (solve c s = (Err e, s') \/ exists o, solve c s = (Ok o, s') /\ (o_reason o < 0)%Z /\ e = PETScError)
  end.
Proof.
  intros. unfold get_gmres_solution. fold cfg. destruct cfg as [[c db']|e] eqn:EC.
  - rewrite (bind_lift_ok _ _ (c, db')) by reflexivity. cbn [fst].
    assert (ES : forall (k : kout -> M S (nat * vec)), bind (wr xa (fun _ => 0)) (fun _ => bind (run_ksp S rd wr mul prec n (ext c n b xa)) k) s = bind (solve c) k s).
    { intro k. unfold solve, bind. destruct (wr xa (fun _ => 0) s) as [[[]|] s1]; reflexivity. }
    rewrite ES. destruct (solve c s) as [[o|e] s'] eqn:Es.
    + rewrite (bind_ok _ _ _ _ _ Es). destruct (Z.ltb_spec (o_reason o) 0); cbn.
      * right. exists c, db'. split; [reflexivity|]. right. exists o. auto.
      * exists c, db', o. auto.
    + rewrite (bind_err _ _ _ _ _ Es). right. exists c, db'. auto.
  - cbn. left. auto.
Qed.
(** so the call returns exactly when the solver reports a reason >= 0 *)
Corollary C48_returns_iff : forall S rd wr mul prec ext db n b xa maxsteps tol restart printrates reltol s c db' o s',
  configure db maxsteps tol restart printrates reltol = Ok (c, db') ->
  bind (wr xa (fun _ => 0)) (fun _ => run_ksp S rd wr mul prec n (ext c n b xa)) s = (Ok o, s') ->
  get_gmres_solution S rd wr mul prec ext db n b xa maxsteps tol restart printrates reltol s =
  (if Z.ltb (o_reason o) 0 then Err PETScError else Ok (xa, o_res o), s').
Proof.
  intros until s'. intros EC Es. pose proof (C48_only_converged S rd wr mul prec ext db n b xa maxsteps tol restart printrates reltol s) as H.
  cbv zeta in H. rewrite EC in H.
  destruct (get_gmres_solution _ _ _ _ _ _ _ _ _ _ _ _ _ _ _ _) as [[[x r]|e] s1].
  - destruct H as [c1 [d1 [o1 [H1 [H2 [H3 [-> ->]]]]]]]. injection H1 as <- <-. rewrite Es in H2. injection H2 as <- <-.
    destruct (Z.ltb_spec (o_reason o) 0); [lia|reflexivity].
  - destruct H as [[H _]|[c1 [d1 [H1 [H2|[o1 [H2 [H3 ->]]]]]]]]; [discriminate| |]; injection H1 as <- <-; rewrite Es in H2.
    + discriminate.
    + injection H2 as <- <-. destruct (Z.ltb_spec (o_reason o) 0); [reflexivity|lia].
Qed.

(** * C49 *)
(** the user has set none of the options that override the arguments *)
Definition no_override (db : optdb) : Prop :=
  db "ksp_type"%string = None /\ db "ksp_gmres_restart"%string = None /\ db "ksp_rtol"%string = None /\
  db "ksp_atol"%string = None /\ db "ksp_max_it"%string = None.
Definition default {A} (d : A) (o : option A) : A := match o with Some a => a | None => d end.
(** arguments PETSc accepts (zero included) *)
Definition accepted (maxsteps : Z) (tol : option R) (restart : option Z) (reltol : option R) : Prop :=
  (1 <= default 1000 restart)%Z /\ (0 <= default 1e-7 reltol < 1 \/ default 1e-7 reltol = -2) /\
  (0 <= default 1e-12 tol \/ default 1e-12 tol = -2) /\ (0 <= maxsteps \/ maxsteps = -2)%Z.
(** -2 is PETSc's "keep the default" *)
Definition unless_default (d v : R) : R := if Req_EM_T v (-2) then d else v.

Lemma default_match {A} (d : A) o : match o with None => d | Some a => a end = default d o.
Proof. destruct o; reflexivity. Qed.
Lemma tolerances_ok rtol atol maxit c : (0 <= rtol < 1 \/ rtol = -2) -> (0 <= atol \/ atol = -2) -> (0 <= maxit \/ maxit = -2)%Z ->
  exists c', set_tolerances rtol atol maxit c = Ok c' /\
  c' = mkCfg (k_type c) (k_restart c) (unless_default (k_rtol c) rtol) (unless_default (k_atol c) atol)
     (if Z.eqb maxit (-2) then k_maxit c else maxit) (k_op c) (k_pc c) (k_mon c) (k_mgs c) (k_refine c) (k_pre c).
Proof.
  intros Hr Ha Hm. unfold set_tolerances, unless_default. eexists. split; [|reflexivity].
  match goal with |- (if ?a || ?b || ?d then _ else _) = _ => assert (a = false) as ->; [|assert (b = false) as ->; [|assert (d = false) as ->; [|reflexivity]]] end.
  - destruct (Req_EM_T rtol (-2)); [reflexivity|]. destruct (Rle_dec 0 rtol); [destruct (Rlt_dec rtol 1); [reflexivity|]|]; exfalso; lra.
  - destruct (Req_EM_T atol (-2)); [reflexivity|]. destruct (Rle_dec 0 atol); [reflexivity|]; exfalso; lra.
  - destruct (Z.eqb_spec maxit (-2)); [reflexivity|]. destruct (Z.leb_spec 0 maxit); [reflexivity|]; exfalso; lia.
Qed.

Lemma options_tail db c (printrates : bool) : no_override db ->
  exists db' : optdb, (let c := set_pc c in
    let db := set_opt "ksp_gmres_cgs_refinement_type" (OStr "refine_ifneeded") db in
    let db := set_opt "ksp_gmres_modifiedgramschmidt" (OBool true) db in
    let db := set_opt "ksp_gmres_preallocate" (OBool true) db in
    let c := from_options db c in
    (if printrates then set_monitor c else c, db)) =
  (mkCfg (k_type c) (k_restart c) (k_rtol c) (k_atol c) (k_maxit c) (k_op c) true (if printrates then true else k_mon c) true "refine_ifneeded" true, db').
Proof.
  intros [D1 [D2 [D3 [D4 D5]]]]. eexists. cbv zeta. unfold set_pc, from_options, set_opt, set_monitor.
  cbn [String.eqb Ascii.eqb Bool.eqb k_type k_restart k_rtol k_atol k_maxit k_op k_pc k_mon k_mgs k_refine k_pre].
  rewrite D1, D2, D3, D4, D5. destruct c, printrates; reflexivity.
Qed.
Theorem C49_configuration : forall db maxsteps tol restart printrates reltol,
  no_override db -> accepted maxsteps tol restart reltol ->
  exists db', configure db maxsteps tol restart printrates reltol =
    Ok (mkCfg "gmres" (default 1000%Z restart) (unless_default 1e-5 (default 1e-7 reltol)) (unless_default 1e-50 (default 1e-12 tol))
          (if Z.eqb maxsteps (-2) then 10000%Z else maxsteps) true true printrates true "refine_ifneeded" true, db').
Proof.
  intros db maxsteps tol restart printrates reltol HD [A1 [A2 [A3 A4]]].
  unfold configure. rewrite !default_match. unfold set_restart.
  destruct (Z.ltb_spec (default 1000%Z restart) 1); [lia|]. unfold rbind.
  match goal with |- context [set_tolerances _ _ _ ?c] =>
    destruct (tolerances_ok (default 1e-7 reltol) (default 1e-12 tol) maxsteps c A2 A3 A4) as [c' [-> Hc]] end.
  destruct (options_tail db c' printrates HD) as [db' Ht]. cbv zeta in Ht. rewrite Ht. exists db'. rewrite Hc.
  cbn [k_type k_restart k_rtol k_atol k_maxit k_op k_pc k_mon k_mgs k_refine k_pre set_type set_operators].
  unfold ksp_default. cbn [k_type k_restart k_rtol k_atol k_maxit k_op k_pc k_mon k_mgs k_refine k_pre].
  destruct printrates; reflexivity.
Qed.
(** in particular: values given (and not -2) are used as they are, zero included;
    defaults otherwise *)
Corollary C49_exactly : forall db maxsteps tol restart printrates reltol c db',
  no_override db -> configure db maxsteps tol restart printrates reltol = Ok (c, db') ->
  accepted maxsteps tol restart reltol ->
  (forall t, tol = Some t -> t <> -2 -> k_atol c = t) /\ (tol = None -> k_atol c = 1e-12) /\
  (forall t, reltol = Some t -> t <> -2 -> k_rtol c = t) /\ (reltol = None -> k_rtol c = 1e-7) /\
  (forall r, restart = Some r -> k_restart c = r) /\ (restart = None -> k_restart c = 1000%Z) /\
  (maxsteps <> (-2)%Z -> k_maxit c = maxsteps) /\ k_mon c = printrates /\ k_op c = true /\ k_pc c = true /\
  k_type c = "gmres"%string /\ k_mgs c = true.
Proof.
  intros db maxsteps tol restart printrates reltol c db' HD HC HA.
  destruct (C49_configuration db maxsteps tol restart printrates reltol HD HA) as [d HC']. rewrite HC' in HC. injection HC as <- _.
  cbn [k_type k_restart k_rtol k_atol k_maxit k_op k_pc k_mon k_mgs k_refine k_pre].
  unfold unless_default.
  split. { intros t -> Ht. cbn [default]. destruct (Req_EM_T t (-2)); [contradiction|reflexivity]. }
  split. { intros ->. cbn [default]. destruct (Req_EM_T 1e-12 (-2)); [exfalso; decimals; lra|reflexivity]. }
  split. { intros t -> Ht. cbn [default]. destruct (Req_EM_T t (-2)); [contradiction|reflexivity]. }
  split. { intros ->. cbn [default]. destruct (Req_EM_T 1e-7 (-2)); [exfalso; decimals; lra|reflexivity]. }
  split. { intros r ->. reflexivity. } split. { intros ->. reflexivity. }
  split. { intro Hm. destruct (Z.eqb_spec maxsteps (-2)); [contradiction|reflexivity]. }
  auto.
Qed.
(** other arguments are refused, before anything is solved *)
Theorem C49_refused : forall db maxsteps tol restart printrates reltol,
  ~ accepted maxsteps tol restart reltol -> configure db maxsteps tol restart printrates reltol = Err PETScError.
Proof.
  intros db maxsteps tol restart printrates reltol H. unfold configure. rewrite !default_match. unfold set_restart.
  destruct (Z.ltb_spec (default 1000%Z restart) 1) as [H1|H1]; [reflexivity|]. unfold rbind.
  match goal with |- context [set_tolerances ?a ?b ?d ?c] => assert (set_tolerances a b d c = Err PETScError) as ->; [|reflexivity] end.
  unfold set_tolerances.
  match goal with |- (if ?a || ?b || ?d then _ else _) = _ => destruct a eqn:E1; [reflexivity|]; destruct b eqn:E2; [reflexivity|]; destruct d eqn:E3; [reflexivity|] end.
  exfalso. apply H. split; [exact H1|]. split; [|split].
  - destruct (Req_EM_T (default 1e-7 reltol) (-2)); [right; assumption|left]. destruct (Rle_dec 0 (default 1e-7 reltol)); [destruct (Rlt_dec (default 1e-7 reltol) 1)|]; try discriminate; lra.
  - destruct (Req_EM_T (default 1e-12 tol) (-2)); [right; assumption|left]. destruct (Rle_dec 0 (default 1e-12 tol)); [lra|discriminate].
  - apply negb_false_iff, orb_true_iff in E3. destruct E3 as [E3|E3]; [right; apply Z.eqb_eq, E3|left; apply Z.leb_le, E3].
Qed.
(** an entry of the options database beats the argument *)
Theorem C49_options_win : forall db maxsteps tol restart printrates reltol c db',
  configure db maxsteps tol restart printrates reltol = Ok (c, db') ->
  (forall r, db "ksp_rtol"%string = Some (OReal r) -> k_rtol c = r) /\
  (forall r, db "ksp_atol"%string = Some (OReal r) -> k_atol c = r) /\
  (forall z, db "ksp_max_it"%string = Some (OInt z) -> k_maxit c = z) /\
  (forall z, db "ksp_gmres_restart"%string = Some (OInt z) -> k_restart c = z).
Proof.
  intros db maxsteps tol restart printrates reltol c db' H. unfold configure, rbind in H.
  destruct (set_restart _ _) as [c1|]; [|discriminate]. destruct (set_tolerances _ _ _ _) as [c2|]; [|discriminate].
  injection H as <- _. unfold from_options, set_opt. cbn [String.eqb Ascii.eqb Bool.eqb].
  repeat split; intros v Hv; rewrite Hv; destruct printrates; reflexivity.
Qed.
(** a second call is configured like the first: the options it leaves behind do
    not disturb it *)
Theorem C49_repeatable : forall db maxsteps tol restart printrates reltol c db' maxsteps' tol' restart' printrates' reltol',
  configure db maxsteps tol restart printrates reltol = Ok (c, db') ->
  match configure db' maxsteps' tol' restart' printrates' reltol', configure db maxsteps' tol' restart' printrates' reltol' with
  | Ok (c1, _), Ok (c2, _) => c1 = c2
  | Err e1, Err e2 => e1 = e2
  | _, _ => False
  end.
Proof.
  intros until reltol'. intro H. unfold configure, rbind in H.
  destruct (set_restart _ _) as [c1|]; [|discriminate]. destruct (set_tolerances _ _ _ _) as [c2|]; [|discriminate].
  injection H as _ <-. unfold configure, rbind.
  destruct (set_restart (match restart' with None => _ | _ => _ end) _) as [c3|]; [|reflexivity].
  destruct (set_tolerances _ _ maxsteps' _) as [c4|]; [|reflexivity].
  unfold from_options, set_opt. cbn [String.eqb Ascii.eqb Bool.eqb]. reflexivity.
Qed.
(** the drivers' call get_gmres_solution(maxsteps=100000, tol=1e-7, printrates=True) *)
Example C49_drivers : exists db', configure (fun _ => None) 100000 (Some 1e-7) None true None =
  Ok (mkCfg "gmres" 1000 1e-7 1e-7 100000 true true true true "refine_ifneeded" true, db').
Proof.
  destruct (C49_configuration (fun _ => None) 100000 (Some 1e-7) None true None) as [db' H].
  - repeat split.
  - unfold accepted. cbn [default]. decimals. repeat split; try lia; left; lra.
  - exists db'. rewrite H. cbn [default Z.eqb]. unfold unless_default.
    destruct (Req_EM_T 1e-7 (-2)); [exfalso; decimals; lra|reflexivity].
Qed.
Example C49_zero_tolerance : exists c db', configure (fun _ => None) 0 (Some 0) (Some 1%Z) false (Some 0) = Ok (c, db') /\
  k_atol c = 0 /\ k_rtol c = 0 /\ k_maxit c = 0%Z /\ k_restart c = 1%Z /\ k_mon c = false.
Proof.
  destruct (C49_configuration (fun _ => None) 0 (Some 0) (Some 1%Z) false (Some 0)) as [db' H].
  - repeat split.
  - unfold accepted. cbn [default]. repeat split; try lia; left; lra.
  - eexists _, db'. rewrite H. split; [reflexivity|]. cbn [default k_type k_restart k_rtol k_atol k_maxit k_op k_pc k_mon Z.eqb].
    unfold unless_default. destruct (Req_EM_T 0 (-2)); [exfalso; lra|auto].
Qed.

(** * C63: what the external solver sees *)
(** the same program run on plain vectors with fixed maps A and B *)
Definition upd (i : nat) (v : vec) (h : nat -> vec) : nat -> vec := fun j => if Nat.eqb j i then v else h j.
Fixpoint pure_ksp (A B : vec -> vec) (n : nat) (p : ksp) (h : nat -> vec) : kout * (nat -> vec) :=
  match p with
  | Halt o => (o, h)
  | KWrite i v k => pure_ksp A B n k (upd i v h)
  | KRead i k => pure_ksp A B n (k (first_n n (h i))) h
  | KMult i o k => pure_ksp A B n k (upd o (A (h i)) h)
  | KPrec i o k => pure_ksp A B n k (upd o (B (h i)) h)
  end.
(** products are never computed in place *)
Fixpoint no_alias (p : ksp) : Prop :=
  match p with
  | Halt _ => True | KWrite _ _ k => no_alias k | KRead _ k => forall v, no_alias (k v)
  | KMult i o k => i <> o /\ no_alias k | KPrec _ _ k => no_alias k
  end.
(** vector j is never an output *)
Fixpoint spares (j : nat) (p : ksp) : Prop :=
  match p with
  | Halt _ => True | KWrite i _ k => i <> j /\ spares j k | KRead _ k => forall v, spares j (k v)
  | KMult _ o k | KPrec _ o k => o <> j /\ spares j k
  end.
(** the space-time operator as the wrapper delivers it: the space-time matrix, the
    1e-20 term, and what C21 says is left out *)
Definition st_op (P : params) (E : env) (g : gammas) (om : nat -> R) (x : vec) : vec := fun I =>
  mult (dimF E) (matF E g om false) x I + 1e-20 * tiny_apply P (e_D E) (fldF E x) (basF E I) - left_out P (e_D E) g (fldF E x) (basF E I).
Definition run_st (E : env) (n : nat) (p : ksp) : M state kout :=
  run_ksp state s_heap (fun i v => modify (put i v)) (wrapper_mult E) (wrapper_apply E) n p.

Lemma first_n_ext n v w : veq n v w -> first_n n v = first_n n w.
Proof. intro H. apply functional_extensionality. intro l. unfold first_n. destruct (Nat.ltb_spec l n); auto. Qed.
Lemma put_same i v s : s_heap (put i v s) i = v.
Proof. cbn. rewrite Nat.eqb_refl. reflexivity. Qed.
Lemma put_other i j v s : i <> j -> s_heap (put i v s) j = s_heap s j.
Proof. intro H. cbn. destruct (Nat.eqb_spec j i); [congruence|reflexivity]. Qed.

(** nothing the solver does takes away what the callbacks need *)
Definition usable (E : env) (om : nat -> R) (S0 S1 : solver) (s : state) : Prop :=
  reached E om s /\ can_apply E s /\ can_improve S0 S1 s.
Lemma usable_step E om S0 S1 k s : sets_solver k = false -> s_fim (snd (step E k s)) = s_fim s ->
  usable E om S0 S1 s -> usable E om S0 S1 (snd (step E k s)).
Proof.
  intros Hk Hfi [HR [[A1 [A2 A3]] [[B1 [B2 [B3 B4]]] [B5 B6]]]].
  pose proof (reached_after E om s [k] HR) as HR'. pose proof (after_later E om [k] s (reached_wf _ _ _ HR)) as [].
  pose proof (sol_step E (Some S0) (Some S1) k s Hk (conj B3 B4)) as [C1 C2]. change (after E [k] s) with (snd (step E k s)) in *.
  unfold keeps, keeps_some in *.
  assert (Q : forall T (o o' : option T), (forall a, o = Some a -> o' = Some a) -> o <> None -> o' <> None).
  { intros T [a|] o' H H'; [rewrite (H a eq_refl); discriminate|congruence]. }
  split; [exact HR'|]. split.
  - split; [auto|]. split; [exact (Q _ _ _ l_njm A2)|]. intro H1. exact (Q _ _ _ l_com (A3 H1)).
  - split; [split; [rewrite Hfi; exact B1|split; [exact (Q _ _ _ l_slm B2)|split; assumption]]|].
    split; [exact (Q _ _ _ l_mam B5)|auto].
Qed.
Definition fim_is (a : option matrix) (s : state) : Prop := s_fim s = a.
Definition solver_call (k : call) : bool := match k with Apply _ _ | Improved _ _ | Write _ _ => true | _ => false end.
Lemma fim_step E a k s : solver_call k = true -> fim_is a s -> okat (fim_is a) (step E k) s.
Proof. intros Hk HQ. destruct k; try discriminate Hk; cbn [step]; walk leaf. Qed.
Lemma usable_call E om S0 S1 k s : solver_call k = true -> usable E om S0 S1 s -> usable E om S0 S1 (snd (step E k s)).
Proof.
  intros Hk HU. apply usable_step; [destruct k; try discriminate Hk; reflexivity| |exact HU].
  exact (fim_step E _ k s Hk eq_refl).
Qed.
Lemma step_run E k m s s' : step E k = done m -> m s = (Ok tt, s') -> snd (step E k s) = s'.
Proof. intros -> H. unfold done, answers. rewrite (bind_ok _ _ _ _ _ H). reflexivity. Qed.

Section Fixed.
  Variables (P : params) (E : env) (om : nat -> R) (S0 S1 : solver) (F0 F1 : vec -> vec) (g : gammas).
  Hypotheses (HC : construct P = Ok (e_c E)) (HT : 0 < p_T P) (HE : env_ok E) (Hj : p_jumps P = false)
    (Hg : get_gammas (p_stab P) = Ok g) (C0 : computes E S0 F0) (C1 : computes E S1 F1).
  Notation n := (dimF E).
  Notation A := (st_op P E g om).
  Notation usable := (usable E om S0 S1).

  Lemma usable_put i v s : usable s -> usable (put i v s).
  Proof. intro H. exact (usable_call E om S0 S1 (Write i v) s eq_refl H). Qed.
  (** one product *)
  Lemma mult_fixed s i o v : usable s -> i <> o -> veq n (s_heap s i) v ->
    exists s', wrapper_mult E i o s = (Ok tt, s') /\ usable s' /\ veq n (s_heap s' o) (A v) /\ forall k, k <> o -> s_heap s' k = s_heap s k.
  Proof.
    intros HU Hio Hv. pose proof (usable_put i v s HU) as HU2. destruct HU as [HR [HA HI]] eqn:EU. clear EU. destruct HU2 as [R2 [A2 I2]].
    destruct (proj2 (C20_when E om s i o HE HR Hio) HA) as [s' H1].
    destruct (proj2 (C20_when E om (put i v s) i o HE R2 Hio) A2) as [s2' H2].
    exists s'. split; [exact H1|]. split.
    - rewrite <- (step_run E (Apply i o) _ s s' eq_refl H1). apply usable_call; [reflexivity|]. split; [exact HR|split; assumption].
    - destruct (C21_difference P E om s s' i o HC HT HE HR Hio H1) as [g1 [_ [_ K]]]. split; [|exact K].
      intros I HI1. rewrite (C22_deterministic E om s (put i v s) s' s2' i o i o HE HR R2 Hio Hio H1 H2); [| |exact HI1].
      + destruct (C21_difference P E om _ s2' i o HC HT HE R2 Hio H2) as [g2 [Hg2 [V _]]]. rewrite Hg in Hg2. injection Hg2 as <-.
        rewrite (V I HI1). rewrite put_same. reflexivity.
      + intros J HJ. rewrite put_same. apply Hv, HJ.
  Qed.
  (** one application of the preconditioner, with the map read off a state s0 *)
  Definition B_of (s0 : state) (v : vec) : vec := s_heap (snd (wrapper_apply E 0 1 (put 0 v s0))) 1%nat.
  Lemma prec_fixed s0 s i o v : usable s0 -> usable s -> veq n (s_heap s i) v ->
    exists s', wrapper_apply E i o s = (Ok tt, s') /\ usable s' /\ veq n (s_heap s' o) (B_of s0 v) /\ forall k, k <> o -> s_heap s' k = s_heap s k.
  Proof.
    intros HU0 HU Hv. pose proof (construct_inv _ _ HC) as HB. pose proof (usable_put 0 v s0 HU0) as [R2 [A2 I2]].
    destruct HU as [HR [HA HI]].
    destruct (C29_causal_improved P E om s (put 0 v s0) S0 S1 F0 F1 i o 0 1 (p_N P) HC HE Hj HR R2 HI I2 C0 C1 (le_n _)) as [s' [s2' [H1 [H2 H3]]]].
    - rewrite <- (bu_NP _ _ HB). apply agree_all; [exact HE|]. intros J HJ. rewrite put_same. apply Hv, HJ.
    - exists s'. split; [exact H1|]. split; [|split].
      + rewrite <- (step_run E (Improved i o) _ s s' eq_refl H1). apply usable_call; [reflexivity|]. split; [exact HR|split; assumption].
      + unfold B_of, wrapper_apply. rewrite H2. cbn [snd]. rewrite <- (bu_NP _ _ HB) in H3. exact (proj1 (agree_all E _ _ HE) H3).
      + destruct (improved_fun P E om s S0 S1 F0 F1 i o HC HE Hj HR HI C0 C1) as [s3 [g3 [_ [E3 [K _]]]]].
        unfold wrapper_apply in H1. rewrite H1 in E3. injection E3 as <-. exact K.
  Qed.
  Lemma run_fixed s0 : usable s0 -> forall p s h, usable s -> no_alias p -> (forall i, veq n (s_heap s i) (h i)) ->
    exists s', run_st E n p s = (Ok (fst (pure_ksp A (B_of s0) n p h)), s') /\ usable s' /\
      (forall i, veq n (s_heap s' i) (snd (pure_ksp A (B_of s0) n p h) i)) /\ (forall j, spares j p -> s_heap s' j = s_heap s j).
  Proof.
    intros HU0. induction p as [o|i v k IH|i k IH|i o k IH|i o k IH]; intros s h HU Hp Hh; unfold run_st; cbn [run_ksp pure_ksp no_alias spares] in *.
    - exists s. cbn. auto.
    - rewrite bind_modify. destruct (IH (put i v s) (upd i v h)) as [s' [H1 [H2 [H3 H4]]]]; [apply usable_put; exact HU|exact Hp| |].
      + intro j. unfold upd. cbn. destruct (Nat.eqb_spec j i); [intros l _; reflexivity|apply Hh].
      + exists s'. split; [exact H1|]. split; [exact H2|]. split; [exact H3|]. intros j [Hj1 Hj2]. rewrite (H4 j Hj2). apply put_other. exact Hj1.
    - rewrite bind_get. rewrite (first_n_ext n _ _ (Hh i)). destruct (IH (first_n n (h i)) s h HU (Hp _) Hh) as [s' [H1 [H2 [H3 H4]]]].
      exists s'. split; [exact H1|]. split; [exact H2|]. split; [exact H3|]. intros j Hj1. apply H4, Hj1.
    - destruct Hp as [Hio Hp]. destruct (mult_fixed s i o (h i) HU Hio (Hh i)) as [s1 [K1 [K2 [K3 K4]]]].
      rewrite (bind_ok _ _ _ _ _ K1). destruct (IH s1 (upd o (A (h i)) h) K2 Hp) as [s' [H1 [H2 [H3 H4]]]].
      + intro j. unfold upd. destruct (Nat.eqb_spec j o) as [->|]; [exact K3|]. rewrite K4 by assumption. apply Hh.
      + exists s'. split; [exact H1|]. split; [exact H2|]. split; [exact H3|]. intros j [Hj1 Hj2]. rewrite (H4 j Hj2). apply K4. congruence.
    - destruct (prec_fixed s0 s i o (h i) HU0 HU (Hh i)) as [s1 [K1 [K2 [K3 K4]]]].
      rewrite (bind_ok _ _ _ _ _ K1). destruct (IH s1 (upd o (B_of s0 (h i)) h) K2 Hp) as [s' [H1 [H2 [H3 H4]]]].
      + intro j. unfold upd. destruct (Nat.eqb_spec j o) as [->|]; [exact K3|]. rewrite K4 by assumption. apply Hh.
      + exists s'. split; [exact H1|]. split; [exact H2|]. split; [exact H3|]. intros j [Hj1 Hj2]. rewrite (H4 j Hj2). apply K4. congruence.
  Qed.
End Fixed.

(** There is one map B such that every run of every external program, after every
    history of the object, equals the run of the same program with the fixed maps
    st_op and B on plain vectors; B is linear if the slab solvers are, and inverts
    the matrix of the preconditioner (up to the 1e-20 term) if they are exact. *)
Theorem C63_fixed_operators : forall P E om S0 S1 F0 F1 g,
  construct P = Ok (e_c E) -> 0 < p_T P -> env_ok E -> p_jumps P = false -> get_gammas (p_stab P) = Ok g ->
  computes E S0 F0 -> computes E S1 F1 ->
  exists B : vec -> vec,
  (linear_on E F0 -> linear_on E F1 -> forall k1 v1 k2 v2 I, (I < dimF E)%nat -> B (vlin k1 v1 k2 v2) I = k1 * B v1 I + k2 * B v2 I) /\
  (forall s, usable E om S0 S1 s -> exact_solvers E s S0 S1 -> forall v I, (I < dimF E)%nat ->
     mult (dimF E) (matF E g om true) (B v) I + 1e-20 * tiny_march P (e_D E) (fldF E (B v)) (basF E I) = v I) /\
  forall p s, usable E om S0 S1 s -> no_alias p ->
  exists s', run_st E (dimF E) p s = (Ok (fst (pure_ksp (st_op P E g om) B (dimF E) p (s_heap s))), s') /\ usable E om S0 S1 s' /\
    (forall i, veq (dimF E) (s_heap s' i) (snd (pure_ksp (st_op P E g om) B (dimF E) p (s_heap s)) i)) /\
    (forall j, spares j p -> s_heap s' j = s_heap s j).
Proof.
  intros P E om S0 S1 F0 F1 g HC HT HE Hj Hg C0 C1.
  destruct (classic (exists s0, usable E om S0 S1 s0)) as [[s0 HU0]|Hno].
  2: { exists (fun _ _ => 0). split; [intros; ring|]. split; [intros s H; exfalso; apply Hno; exists s; exact H|].
       intros p s H. exfalso. apply Hno. exists s. exact H. }
  exists (B_of E s0). split; [|split].
  - intros L0 L1 k1 v1 k2 v2 I HI.
    destruct (usable_put E om S0 S1 0 v1 s0 HU0) as [R1 [_ I1]]. destruct (usable_put E om S0 S1 0 v2 s0 HU0) as [R2 [_ I2]].
    destruct (usable_put E om S0 S1 0 (vlin k1 v1 k2 v2) s0 HU0) as [R3 [_ I3]].
    destruct (C26_linear_operator P E om _ _ _ S0 S1 F0 F1 0 1 0 1 0 1 k1 k2 HC HE Hj R1 R2 R3 I1 I2 I3 C0 C1 L0 L1) as [s1 [s2 [s3 [E1 [E2 [E3 [H _]]]]]]].
    + intros J HJ. rewrite !put_same. reflexivity.
    + unfold B_of, wrapper_apply. rewrite E1, E2, E3. cbn [snd]. apply H, HI.
  - intros s HU HX v I HI. destruct (usable_put E om S0 S1 0 v s0 HU0) as [R2 [A2 I2]].
    assert (HX0 : exact_solvers E (put 0 v s0) S0 S1).
    { destruct HU as [HR [_ [[U1 [U2 _]] _]]]. destruct HX as [X0 X1].
      destruct (s_fim s) as [Af|] eqn:E0; [|congruence]. destruct (s_slm s) as [As|] eqn:E1; [|congruence].
      destruct (wf_slab_mats E om s Af As (reached_wf _ _ _ HR) E0 E1) as [_ [g1 [Hg1 [M0 M1]]]].
      destruct I2 as [[U3 [U4 _]] _]. pose proof (reached_wf _ _ _ R2) as W2. revert W2 U3 U4. generalize (put 0 v s0). intros t W2 U3 U4.
      destruct (s_fim t) as [Bf|] eqn:E2; [|congruence]. destruct (s_slm t) as [Bs|] eqn:E3; [|congruence].
      destruct (wf_slab_mats E om t Bf Bs W2 E2 E3) as [_ [g2 [Hg2 [N0 N1]]]].
      rewrite Hg1 in Hg2. injection Hg2 as <-. specialize (X0 _ eq_refl). specialize (X1 _ eq_refl).
      split; intros Q HQ.
      - rewrite E2 in HQ. injection HQ as <-. rewrite N0, <- M0. exact X0.
      - rewrite E3 in HQ. injection HQ as <-. rewrite N1, <- M1. exact X1. }
    destruct (C25_improved_time_marching P E om (put 0 v s0) S0 S1 0 1 HC HT HE Hj R2 I2 HX0) as [_ H].
    destruct (improved_fun P E om (put 0 v s0) S0 S1 F0 F1 0 1 HC HE Hj R2 I2 C0 C1) as [s3 [g3 [_ [E3 _]]]].
    unfold B_of, wrapper_apply. rewrite E3 in H |- *. cbn [fst snd] in H |- *. destruct H as [g' [Hg' H]]. rewrite Hg in Hg'. injection Hg' as <-.
    specialize (H I HI). cbv zeta in H. rewrite put_same in H. exact H.
  - intros p s HU Hp. exact (run_fixed P E om S0 S1 F0 F1 g HC HT HE Hj Hg C0 C1 s0 HU0 p s (s_heap s) HU Hp (fun i l _ => eq_refl)).
Qed.

(** The whole call on a space-time object.  The result is that of the external
    solver run on plain vectors with the two fixed maps, from a zero start vector;
    the right-hand side is not changed. *)
Theorem C63_gmres : forall P E om S0 S1 F0 F1 g,
  construct P = Ok (e_c E) -> 0 < p_T P -> env_ok E -> p_jumps P = false -> get_gammas (p_stab P) = Ok g ->
  computes E S0 F0 -> computes E S1 F1 ->
  exists B : vec -> vec,
  (linear_on E F0 -> linear_on E F1 -> forall k1 v1 k2 v2 I, (I < dimF E)%nat -> B (vlin k1 v1 k2 v2) I = k1 * B v1 I + k2 * B v2 I) /\
  (forall s, usable E om S0 S1 s -> exact_solvers E s S0 S1 -> forall v I, (I < dimF E)%nat ->
     mult (dimF E) (matF E g om true) (B v) I + 1e-20 * tiny_march P (e_D E) (fldF E (B v)) (basF E I) = v I) /\
  forall ext db b xa maxsteps tol restart printrates reltol c db' s,
  usable E om S0 S1 s -> b <> xa ->
  configure db maxsteps tol restart printrates reltol = Ok (c, db') ->
  no_alias (ext c (dimF E) b xa) -> spares b (ext c (dimF E) b xa) ->
  let out := pure_ksp (st_op P E g om) B (dimF E) (ext c (dimF E) b xa) (upd xa (fun _ => 0) (s_heap s)) in
  exists s', gmres_spacetime E ext db (dimF E) b xa maxsteps tol restart printrates reltol s =
    (if Z.ltb (o_reason (fst out)) 0 then Err PETScError else Ok (xa, o_res (fst out)), s')
    /\ veq (dimF E) (s_heap s' xa) (snd out xa) /\ s_heap s' b = s_heap s b /\ usable E om S0 S1 s'.
Proof.
  intros P E om S0 S1 F0 F1 g HC HT HE Hj Hg C0 C1.
  destruct (C63_fixed_operators P E om S0 S1 F0 F1 g HC HT HE Hj Hg C0 C1) as [B [HL [HI HR]]].
  exists B. split; [exact HL|]. split; [exact HI|].
  intros ext db b xa maxsteps tol restart printrates reltol c db' s HU Hb Hc Ha Hs out.
  destruct (HR _ _ (usable_put E om S0 S1 xa (fun _ => 0) s HU) Ha) as [s' [H1 [H2 [H3 H4]]]].
  assert (EH : s_heap (put xa (fun _ => 0) s) = upd xa (fun _ => 0) (s_heap s)) by reflexivity.
  rewrite EH in *. fold out in H1, H3. exists s'. split.
  - unfold gmres_spacetime. apply (C48_returns_iff _ _ _ _ _ _ _ _ _ _ _ _ _ _ _ _ _ _ _ _ Hc). rewrite bind_modify. exact H1.
  - split; [apply H3|]. split; [|exact H2]. rewrite (H4 b Hs). unfold upd. destruct (Nat.eqb_spec b xa); [contradiction|reflexivity].
Qed.

(** all hypotheses are met, for any number of slabs up to 1000; a program with
    products, preconditioning and reads *)
Definition ex_ext (c : kspcfg) (n b xa : nat) : ksp :=
  KPrec b (S xa) (KMult (S xa) (S (S xa)) (KRead (S (S xa)) (fun v => KWrite xa v (KPrec xa xa (Halt (mkOut 2 1 v)))))).
Example C63_nonvacuous : forall N, (1 <= N <= 1000)%nat -> exists P E om S0 S1 F0 F1 g c db' s,
  construct P = Ok (e_c E) /\ 0 < p_T P /\ env_ok E /\ p_jumps P = false /\ get_gammas (p_stab P) = Ok g /\
  computes E S0 F0 /\ computes E S1 F1 /\ linear_on E F0 /\ linear_on E F1 /\ usable E om S0 S1 s /\ exact_solvers E s S0 S1 /\
  configure (fun _ => None) 100000 (Some 1e-7) None true None = Ok (c, db') /\
  no_alias (ex_ext c (dimF E) 0 3) /\ spares 0 (ex_ext c (dimF E) 0 3) /\ p_N P = N.
Proof.
  intros N HN. destruct (solvers_nonvacuous N HN) as [c [s [S0 [S1 [F0 [F1 [H1 [H2 [H3 [H4 [H5 [H6 [H7 [H8 [H9 [_ H10]]]]]]]]]]]]]]]].
  destruct C49_drivers as [db' Hdb].
  exists (exP 0 0 N false false), (exE exI c), om1, S0, S1, F0, F1, exG.
  eexists _, db', s. split; [exact H1|]. split; [cbn; lra|]. split; [exact H2|]. split; [reflexivity|]. split; [reflexivity|].
  split; [exact H6|]. split; [exact H7|]. split; [exact H8|]. split; [exact H9|]. split; [split; [exact H3|split; [exact H10|exact H4]]|].
  split; [exact H5|]. split; [exact Hdb|]. split; [cbn; auto|]. split; [cbn; repeat split; try lia; intros; repeat split; lia|reflexivity].
Qed.

Print Assumptions C48_only_converged.
Print Assumptions C48_returns_iff.
Print Assumptions C49_configuration.
Print Assumptions C49_exactly.
Print Assumptions C49_refused.
Print Assumptions C49_options_win.
Print Assumptions C49_repeatable.
Print Assumptions C63_fixed_operators.
Print Assumptions C63_gmres.
