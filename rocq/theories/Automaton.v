(** Automaton.v -- which public calls of a SpaceTime object succeed, which
    exception the others raise, and which attributes exist afterwards: a finite
    automaton, and the proof that the object follows it
    (/repo/src/dxss/space_time.py:SpaceTime). *)
From Coq Require Import Reals List ZArith Lra Lia Bool String FunctionalExtensionality.
From Verif Require Import Base TimeModel FormModel FormSpec FormProofs SpaceTimeForms FormBlocks FormTime FormWf
  SpaceTimeModel SlabOps ApplyProofs MarchProofs MarchLoops MarchSum ErrorsModel ErrorsProofs Lifecycle LifeProofs OpsProofs SetupOk
  Transfer Props_Transfer LifeFrames.
Import ListNotations.
Open Scope R_scope.
Open Scope monad_scope.

(** * The automaton *)

(** which attributes are there *)
Record shape : Type := mkShape {
  h_fes : bool (* function spaces *);
  h_st : bool (* spacetime_matrix, spacetime_bilinear_form *);
  h_rhs : bool (* SpaceTimeRhs, SpaceTimeLfi *);
  h_co : bool (* coupling matrix and its vectors *);
  h_ma : bool (* scaled mass matrix and its vectors *);
  h_sl : bool (* slab matrix with jumps *);
  h_nj : bool (* slab matrix without jumps and its vectors *);
  h_brp : bool (* b_rhs_pre *);
  h_sfi : bool (* SolverFirstSlab *);
  h_ssl : bool (* solver_slab *);
  h_crs : bool (* coarse mesh and spaces *);
  h_nod : bool (* u_node_fine, u_node_coarse *);
  h_cmt : bool (* SpaceTimeMatCoarse *);
  h_tmp : bool (* tmp1_fine .. tmp2_coarse *);
  h_sco : bool (* SolverCoarse *) }.
Definition has_fes (h : shape) : shape := mkShape true (h_st h) (h_rhs h) (h_co h) (h_ma h) (h_sl h) (h_nj h) (h_brp h) (h_sfi h) (h_ssl h) (h_crs h) (h_nod h) (h_cmt h) (h_tmp h) (h_sco h).
Definition has_st (h : shape) : shape := mkShape (h_fes h) true (h_rhs h) (h_co h) (h_ma h) (h_sl h) (h_nj h) (h_brp h) (h_sfi h) (h_ssl h) (h_crs h) (h_nod h) (h_cmt h) (h_tmp h) (h_sco h).
Definition has_rhs (h : shape) : shape := mkShape (h_fes h) (h_st h) true (h_co h) (h_ma h) (h_sl h) (h_nj h) (h_brp h) (h_sfi h) (h_ssl h) (h_crs h) (h_nod h) (h_cmt h) (h_tmp h) (h_sco h).
Definition has_co (h : shape) : shape := mkShape (h_fes h) (h_st h) (h_rhs h) true (h_ma h) (h_sl h) (h_nj h) (h_brp h) (h_sfi h) (h_ssl h) (h_crs h) (h_nod h) (h_cmt h) (h_tmp h) (h_sco h).
Definition has_ma (h : shape) : shape := mkShape (h_fes h) (h_st h) (h_rhs h) (h_co h) true (h_sl h) (h_nj h) (h_brp h) (h_sfi h) (h_ssl h) (h_crs h) (h_nod h) (h_cmt h) (h_tmp h) (h_sco h).
Definition has_sl (h : shape) : shape := mkShape (h_fes h) (h_st h) (h_rhs h) (h_co h) (h_ma h) true (h_nj h) (h_brp h) (h_sfi h) (h_ssl h) (h_crs h) (h_nod h) (h_cmt h) (h_tmp h) (h_sco h).
Definition has_nj (h : shape) : shape := mkShape (h_fes h) (h_st h) (h_rhs h) (h_co h) (h_ma h) (h_sl h) true (h_brp h) (h_sfi h) (h_ssl h) (h_crs h) (h_nod h) (h_cmt h) (h_tmp h) (h_sco h).
Definition has_brp (h : shape) : shape := mkShape (h_fes h) (h_st h) (h_rhs h) (h_co h) (h_ma h) (h_sl h) (h_nj h) true (h_sfi h) (h_ssl h) (h_crs h) (h_nod h) (h_cmt h) (h_tmp h) (h_sco h).
Definition has_sfi (h : shape) : shape := mkShape (h_fes h) (h_st h) (h_rhs h) (h_co h) (h_ma h) (h_sl h) (h_nj h) (h_brp h) true (h_ssl h) (h_crs h) (h_nod h) (h_cmt h) (h_tmp h) (h_sco h).
Definition has_ssl (h : shape) : shape := mkShape (h_fes h) (h_st h) (h_rhs h) (h_co h) (h_ma h) (h_sl h) (h_nj h) (h_brp h) (h_sfi h) true (h_crs h) (h_nod h) (h_cmt h) (h_tmp h) (h_sco h).
Definition has_crs (h : shape) : shape := mkShape (h_fes h) (h_st h) (h_rhs h) (h_co h) (h_ma h) (h_sl h) (h_nj h) (h_brp h) (h_sfi h) (h_ssl h) true (h_nod h) (h_cmt h) (h_tmp h) (h_sco h).
Definition has_nod (h : shape) : shape := mkShape (h_fes h) (h_st h) (h_rhs h) (h_co h) (h_ma h) (h_sl h) (h_nj h) (h_brp h) (h_sfi h) (h_ssl h) (h_crs h) true (h_cmt h) (h_tmp h) (h_sco h).
Definition has_cmt (h : shape) : shape := mkShape (h_fes h) (h_st h) (h_rhs h) (h_co h) (h_ma h) (h_sl h) (h_nj h) (h_brp h) (h_sfi h) (h_ssl h) (h_crs h) (h_nod h) true (h_tmp h) (h_sco h).
Definition has_tmp (h : shape) : shape := mkShape (h_fes h) (h_st h) (h_rhs h) (h_co h) (h_ma h) (h_sl h) (h_nj h) (h_brp h) (h_sfi h) (h_ssl h) (h_crs h) (h_nod h) (h_cmt h) true (h_sco h).
Definition has_sco (h : shape) : shape := mkShape (h_fes h) (h_st h) (h_rhs h) (h_co h) (h_ma h) (h_sl h) (h_nj h) (h_brp h) (h_sfi h) (h_ssl h) (h_crs h) (h_nod h) (h_cmt h) (h_tmp h) true.
Definition nothing : shape :=
  mkShape false false false false false false false false false false false false false false false.

(** the facts about the object's parameters that matter: more than one slab,
    well-posed mode, jump stabilisation, non-zero weight of the primal jumps *)
Record mode : Type := mkMode { md_many : bool; md_wp : bool; md_jumps : bool; md_mass : bool }.

(** the first requirement that is not met decides *)
Fixpoint first_of (l : list (bool * exn)) : option exn :=
  match l with
  | [] => None
  | (b, e) :: l' => if b then first_of l' else Some e
  end.
Definition when (o : option exn) (h h' : shape) : option exn * shape :=
  match o with None => (None, h') | Some e => (Some e, h) end.

(** one call: the exception it raises, if any, and what exists afterwards *)
Definition auto (m : mode) (k : call) (h : shape) : option exn * shape :=
  let fes e := (h_fes h, e) in
  match k with
  | Setup_fes => (None, has_fes h)
  | Build_matrix _ => (first_of [fes ValueError], h)
  | Get_matrix _ | Get_bfi _ => when (first_of [(h_st h || h_fes h, ValueError)]) h (has_st h)
  | Setup_rhs => when (first_of [fes ValueError]) h (has_rhs h)
  | Get_rhs | Get_lfi => when (first_of [(h_rhs h || h_fes h, ValueError)]) h (has_rhs h)
  | Setup_coupling => when (first_of [fes ValueError]) h (has_co h)
  | Setup_mass => when (first_of [fes ValueError; (md_mass m, RuntimeError)]) h (has_ma h)
  | Setup_slab b => when (first_of [fes ValueError]) h (if b then has_sl h else has_nj h)
  | Get_slab_bfi | Get_slab_matrix =>
      if h_sl h then (None, h) else when (first_of [fes ValueError]) h (has_nj (has_sl h))
  | Set_first _ => (None, has_sfi h)
  | Set_slab _ => (None, has_ssl h)
  | Set_coarse _ => (None, has_sco h)
  | Apply _ _ => (first_of [fes TypeError; (h_nj h, AttributeError); (negb (md_many m) || h_co h, AttributeError)], h)
  | March _ _ => (first_of [fes TypeError; (h_sfi h, AttributeError); (negb (md_many m) || h_ssl h, AttributeError)], h)
  | Improved _ _ => (first_of [(negb (md_jumps m), ValueError); (h_brp h, AttributeError); fes TypeError; (h_sfi h, AttributeError);
      (h_ma h, AttributeError); (negb (md_many m) || h_ssl h, AttributeError)], h)
  | Prepare =>
      if h_sl h && (md_wp m || h_nj h) && h_co h && h_rhs h && h_ma h then (None, h)
      else if negb (h_fes h) then (Some ValueError, h)
      else
        let h1 := if h_sl h then h else has_brp (has_sl h) in
        let h2 := has_rhs (has_co (if md_wp m then h1 else has_nj h1)) in
        if h_ma h || md_mass m then (None, has_ma h2) else (Some RuntimeError, h2)
  | Prepare_coarse _ =>
      if negb (h_fes h) then (Some AttributeError, has_crs h)
      else when (first_of [(h_rhs h, AttributeError)]) (has_cmt (has_nod (has_crs h))) (has_tmp (has_cmt (has_nod (has_crs h))))
  | Prolong _ _ | Restrict _ _ => (first_of [(h_crs h, TypeError); (h_nod h, AttributeError)], h)
  | Qop _ _ => (first_of [(h_crs h, TypeError); (h_nod h, AttributeError); (h_tmp h, AttributeError); (h_sco h, AttributeError)], h)
  | Twolvl _ _ => (Some AttributeError, h)
  | Measure _ | Paraview _ _ | Plot _ _ _ _ _ | Plot_error _ _ _ _ => (first_of [fes AttributeError], h)
  | Get_first_bfi | Get_first_matrix | Get_coarse | Write _ _ => (None, h)
  end.

(** * The object *)
Definition some {A} (o : option A) : bool := negb (is_none o).
Definition shape_of (s : state) : shape :=
  mkShape (s_fes s) (some (s_stm s)) (some (s_rhs s)) (some (s_com s)) (some (s_mam s)) (some (s_slm s)) (some (s_njm s))
    (some (s_brp s)) (some (s_sfi s)) (some (s_ssl s)) (some (s_crs s)) (s_nod s) (some (s_cmt s)) (s_tmp s) (some (s_sco s)).
Definition mode_of (E : env) (g : gammas) : mode :=
  mkMode (Nat.ltb 1 (c_N (e_c E))) (c_wp (e_c E)) (c_jumps (e_c E)) (negb (is_zero (g_jump g))).
Definition failure {A} (r : res A) : option exn := match r with Ok _ => None | Err e => Some e end.

(** a solver that answers, and calls with such solvers and fitting coarse spaces *)
Definition answering (S0 : solver) : Prop := forall b x, exists u, S0 b x = Ok u.
Definition sound_call (E : env) (k : call) : Prop :=
  match k with
  | Set_first S0 | Set_slab S0 | Set_coarse S0 => answering S0
  | Prepare_coarse K => fits E K
  | _ => True
  end.

(** what a reachable object satisfies *)
Record sane (E : env) (om : nat -> R) (s : state) : Prop := {
  sa_wf : wfst E om s;
  sa_tc : some (s_tc1 s) = s_tmp s /\ some (s_tc2 s) = s_tmp s;
  sa_fi : forall S0, s_sfi s = Some S0 -> answering S0;
  sa_sl : forall S0, s_ssl s = Some S0 -> answering S0;
  sa_co : forall S0, s_sco s = Some S0 -> answering S0;
  sa_cr : forall K, s_crs s = Some K -> fits E K }.

(** * Reading the monad *)
Definition ends {A} (m : M state A) (s : state) (o : option exn) (Q : state -> Prop) : Prop :=
  failure (fst (m s)) = o /\ Q (snd (m s)).
Lemma ends_run {A} (m : M state A) s o (Q : state -> Prop) r s' : m s = (r, s') -> failure r = o -> Q s' -> ends m s o Q.
Proof. intros H H1 H2. unfold ends. rewrite H. split; assumption. Qed.
Lemma ends_answers {A} (f : A -> answer) (m : M state A) s o (Q : state -> Prop) : ends m s o Q -> ends (answers f m) s o Q.
Proof.
  unfold ends, answers, bind. destruct (m s) as [[a|e] s']; cbn [fst snd failure]; intros [H1 H2]; split; auto.
Qed.
Lemma some_ex {A} (o : option A) : some o = true -> exists a, o = Some a.
Proof. destruct o; [eexists; reflexivity|discriminate]. Qed.
Lemma some_no {A} (o : option A) : some o = false -> o = None.
Proof. destruct o; [discriminate|reflexivity]. Qed.
Lemma some_iff {A B} (o : option A) (o' : option B) : (o <> None <-> o' <> None) -> some o = some o'.
Proof. intros [H1 H2]. destruct o, o'; try reflexivity; exfalso; [apply H1|apply H2]; congruence. Qed.
Lemma bind_fes_no {B} e (f : unit -> M state B) s : s_fes s = false -> bind (need_fes e) f s = (Err e, s).
Proof. intro H. unfold bind, need_fes, err_if, get, raise. unfold bind. rewrite H. reflexivity. Qed.
Lemma bind_need_no {A B} (o : option A) e (f : A -> M state B) s : o = None -> bind (need o e) f s = (Err e, s).
Proof. intros ->. reflexivity. Qed.

(** what the loops over the slabs leave in place *)
Definition frame (s s' : state) : Prop :=
  s_fes s' = s_fes s /\ shape_of s' = shape_of s /\ s_sfi s' = s_sfi s /\ s_ssl s' = s_ssl s
  /\ some (s_vs1 s') = some (s_vs1 s) /\ s_njm s' = s_njm s /\ some (s_vc1 s') = some (s_vc1 s) /\ s_com s' = s_com s
  /\ some (s_brp s') = some (s_brp s) /\ some (s_vbi s') = some (s_vbi s) /\ s_mam s' = s_mam s.
Lemma frame_refl s : frame s s.
Proof. unfold frame. splits; reflexivity. Qed.
Lemma frame_trans s1 s2 s3 : frame s1 s2 -> frame s2 s3 -> frame s1 s3.
Proof. unfold frame. intros H1 H2. decompose [and] H1. decompose [and] H2. splits; congruence. Qed.

Section Loop.
  Variables (c : config) (body : nat -> counters -> M state unit) (s0 : state) (o0 o1 : option exn).
  Hypothesis Hb : forall n k s, frame s0 s -> ends (body n k) s (if Nat.eqb n 0 then o0 else o1) (frame s0).
  Lemma loop_later m : forall a k s, (0 < a)%nat -> frame s0 s ->
    ends (slabs c body (seq a m) k) s (if Nat.eqb m 0 then None else o1) (frame s0).
  Proof.
    induction m as [|m IH]; intros a k s Ha HF; cbn [seq slabs]; [split; [reflexivity|exact HF]|].
    destruct (Hb a k s HF) as [H1 H2]. destruct (Nat.eqb_spec a 0); [lia|]. cbn [Nat.eqb].
    unfold ends, bind. destruct (body a k s) as [[u|e] s']; cbn [fst snd failure] in *.
    - destruct (IH (S a) (cnt_next c k) s' ltac:(lia) H2) as [G1 G2]. split; [|exact G2]. rewrite G1, <- H1. destruct (Nat.eqb m 0); reflexivity.
    - split; assumption.
  Qed.
  Lemma loop_ends m : (1 <= m)%nat -> ends (slabs c body (seq 0 m) cnt0) s0
    (match o0 with Some e => Some e | None => if Nat.ltb 1 m then o1 else None end) (frame s0).
  Proof.
    intro Hm. destruct m as [|m]; [lia|]. cbn [seq slabs]. destruct (Hb 0%nat cnt0 s0 (frame_refl s0)) as [H1 H2]. cbn [Nat.eqb] in H1.
    unfold ends, bind. destruct (body 0%nat cnt0 s0) as [[u|e] s']; cbn [fst snd failure] in *.
    - rewrite <- H1. destruct (loop_later m 1 (cnt_next c cnt0) s' ltac:(lia) H2) as [G1 G2]. split; [|exact G2]. rewrite G1.
      destruct m; reflexivity.
    - rewrite <- H1. split; [reflexivity|exact H2].
  Qed.
End Loop.

Section Rules.
  Context {A B : Type}.
  Variables (s : state) (o : option exn) (Q : state -> Prop).
  Lemma ends_get (f : state -> M state B) : ends (f s) s o Q -> ends (bind get f) s o Q.
  Proof. exact (fun H => H). Qed.
  Lemma ends_modify h (f : unit -> M state B) : ends (f tt) (h s) o Q -> ends (bind (modify h) f) s o Q.
  Proof. exact (fun H => H). Qed.
  Lemma ends_ret (a : A) (f : A -> M state B) : ends (f a) s o Q -> ends (bind (ret a) f) s o Q.
  Proof. exact (fun H => H). Qed.
  Lemma ends_need (x : option A) a e (f : A -> M state B) : x = Some a -> ends (f a) s o Q -> ends (bind (need x e) f) s o Q.
  Proof. intros ->. exact (fun H => H). Qed.
  Lemma ends_need_no (x : option A) e (f : A -> M state B) : x = None -> o = Some e -> Q s -> ends (bind (need x e) f) s o Q.
  Proof. intros -> -> H. split; [reflexivity|exact H]. Qed.
  Lemma ends_lift (r : res A) a (f : A -> M state B) : r = Ok a -> ends (f a) s o Q -> ends (bind (lift r) f) s o Q.
  Proof. intros ->. exact (fun H => H). Qed.
  Lemma ends_fes e (f : unit -> M state B) : s_fes s = true -> ends (f tt) s o Q -> ends (bind (need_fes e) f) s o Q.
  Proof. intros H X. unfold ends. rewrite (bind_fes_ok e f s H). exact X. Qed.
  Lemma ends_fes_no e (f : unit -> M state B) : s_fes s = false -> o = Some e -> Q s -> ends (bind (need_fes e) f) s o Q.
  Proof. intros H -> X. unfold ends. rewrite (bind_fes_no e f s H). split; [reflexivity|exact X]. Qed.
  Lemma ends_errif b e (f : unit -> M state B) : b = false -> ends (f tt) s o Q -> ends (bind (err_if b e) f) s o Q.
  Proof. intros ->. exact (fun H => H). Qed.
  Lemma ends_bind (a : M state A) (f : A -> M state B) x s' : a s = (Ok x, s') -> ends (f x) s' o Q -> ends (bind a f) s o Q.
  Proof. intros H X. unfold ends. rewrite (bind_ok _ _ _ _ _ H). exact X. Qed.
  Lemma ends_assoc {C} (a : M state A) (f : A -> M state C) (h : C -> M state B) :
    ends (bind a (fun x => bind (f x) h)) s o Q -> ends (bind (bind a f) h) s o Q.
  Proof. unfold ends, bind. destruct (a s) as [[x|e] s']; exact (fun H => H). Qed.
  Lemma ends_done (h : state -> state) : o = None -> Q (h s) -> ends (modify h) s o Q.
  Proof. intros -> H. split; [reflexivity|exact H]. Qed.
  Lemma ends_stop (a : A) : o = None -> Q s -> ends (ret a) s o Q.
  Proof. intros -> H. split; [reflexivity|exact H]. Qed.
End Rules.

Section Sim.
  Variables (P0 : params) (E : env) (g : gammas) (om : nat -> R).
  Hypothesis HG : good P0 E g.
  Hypothesis HE : env_ok E.
  Hypothesis Hw : forall p, In p (d_pts (e_D E) Dx) -> 0 <= d_w (e_D E) Dx p.
  Notation c := (e_c E).
  Notation D := (e_D E).
  Notation m := (mode_of E g).

  Ltac fr_tac := unfold frame, shape_of; cbn; repeat match goal with H : _ = Some _ |- _ => rewrite H end; splits; reflexivity.
  Ltac seen F := unfold frame in F; decompose [and] F; clear F.

  Lemma apply_body vi vo s0 : some (s_vs1 s0) = some (s_njm s0) -> some (s_vc1 s0) = some (s_com s0) ->
    forall n k s, frame s0 s -> ends (apply_slab E vi vo n k) s
      (if Nat.eqb n 0 then first_of [(s_fes s0, TypeError); (some (s_njm s0), AttributeError)]
       else first_of [(s_fes s0, TypeError); (some (s_njm s0), AttributeError); (some (s_com s0), AttributeError)]) (frame s0).
  Proof.
    intros I1 I2 n k s F. assert (F' := F). seen F'. unfold apply_slab.
    destruct (s_fes s0) eqn:Ef.
    2:{ apply ends_fes_no; [congruence|destruct (Nat.eqb n 0); reflexivity|exact F]. }
    apply ends_fes; [congruence|]. apply ends_get.
    destruct (s_njm s0) as [A|] eqn:Ej; cbn [some is_none negb] in I1.
    2:{ apply ends_need_no; [apply some_no; congruence|destruct (Nat.eqb n 0); reflexivity|exact F]. }
    destruct (some_ex (s_vs1 s)) as [v1 E1]; [congruence|].
    apply (ends_need _ _ _ _ v1 _ _ E1). cbv zeta. apply ends_modify, ends_get.
    apply (ends_need _ _ _ _ A); [cbn; congruence|]. cbv zeta. apply ends_modify, ends_get, ends_modify.
    match goal with |- ends _ ?t _ _ => assert (Ft : frame s0 t) end.
    { apply (frame_trans _ s); [exact F|]. fr_tac. }
    revert Ft. match goal with |- context [ends _ ?t _ _] => generalize t end. intros t Ft. assert (F' := Ft). seen F'.
    destruct n as [|n]; cbn [Nat.ltb Nat.leb Nat.eqb]; [apply ends_stop; [reflexivity|exact Ft]|].
    apply ends_get. destruct (s_com s0) as [B|] eqn:Ec; cbn [some is_none negb] in I2.
    2:{ apply ends_need_no; [apply some_no; congruence|reflexivity|exact Ft]. }
    destruct (some_ex (s_vc1 t)) as [w1 E2]; [congruence|].
    apply (ends_need _ _ _ _ w1 _ _ E2). cbv zeta. apply ends_modify, ends_get.
    apply (ends_need _ _ _ _ B); [cbn; congruence|]. cbv zeta. apply ends_modify, ends_get, ends_done; [reflexivity|].
    apply (frame_trans _ t); [exact Ft|]. fr_tac.
  Qed.
  Lemma solve_ends {B} n r (f : vec -> M state B) s o (Q : state -> Prop) :
    (forall S0, s_sfi s = Some S0 -> answering S0) -> (forall S0, s_ssl s = Some S0 -> answering S0) ->
    (if Nat.eqb n 0 then some (s_sfi s) else some (s_ssl s)) = true ->
    (forall u, ends (f u) (w_uhp u s) o Q) -> ends (bind (solve_slab n r) f) s o Q.
  Proof.
    intros A1 A2 Hs Hf. unfold solve_slab. apply ends_assoc, ends_get, ends_assoc.
    destruct (some_ex (if Nat.eqb n 0 then s_sfi s else s_ssl s)) as [S0 HS]; [destruct (Nat.eqb n 0); exact Hs|].
    apply (ends_need _ _ _ _ S0 _ _ HS). apply ends_assoc.
    assert (AN : answering S0) by (destruct (Nat.eqb n 0); auto). destruct (AN r (s_uhp s)) as [u Hu].
    apply (ends_lift _ _ _ _ u _ Hu). apply ends_assoc, ends_modify, ends_ret, Hf.
  Qed.
  Lemma solve_ends_no {B} n r (f : vec -> M state B) s o (Q : state -> Prop) :
    (if Nat.eqb n 0 then some (s_sfi s) else some (s_ssl s)) = false -> o = Some AttributeError -> Q s ->
    ends (bind (solve_slab n r) f) s o Q.
  Proof.
    intros Hs Ho HQ. unfold solve_slab. apply ends_assoc, ends_get, ends_assoc.
    apply ends_need_no; [|exact Ho|exact HQ]. apply some_no. destruct (Nat.eqb n 0); exact Hs.
  Qed.
  Lemma march_body gj b x s0 : (forall S0, s_sfi s0 = Some S0 -> answering S0) -> (forall S0, s_ssl s0 = Some S0 -> answering S0) ->
    forall n k s, frame s0 s -> ends (pre_slab E gj b x n k) s
      (if Nat.eqb n 0 then first_of [(s_fes s0, TypeError); (some (s_sfi s0), AttributeError)]
       else first_of [(s_fes s0, TypeError); (some (s_ssl s0), AttributeError)]) (frame s0).
  Proof.
    intros A1 A2 n k s F. assert (F' := F). seen F'. unfold pre_slab.
    destruct (s_fes s0) eqn:Ef.
    2:{ apply ends_fes_no; [congruence|destruct (Nat.eqb n 0); reflexivity|exact F]. }
    apply ends_fes; [congruence|]. rewrite (dt_not_zero _ _ _ HG), andb_false_r. apply ends_errif; [reflexivity|].
    apply ends_get. eapply ends_lift; [unfold fem_lform; rewrite wf_pre; reflexivity|]. cbv zeta.
    destruct (if Nat.eqb n 0 then some (s_sfi s0) else some (s_ssl s0)) eqn:Es.
    - apply solve_ends; [intros; apply A1; congruence|intros; apply A2; congruence|destruct (Nat.eqb n 0); congruence|].
      intro u. apply ends_modify, ends_get, ends_done; [destruct (Nat.eqb n 0); cbn [first_of]; rewrite Es; reflexivity|].
      apply (frame_trans _ s); [exact F|]. fr_tac.
    - apply solve_ends_no; [destruct (Nat.eqb n 0); congruence|destruct (Nat.eqb n 0); cbn [first_of]; rewrite Es; reflexivity|exact F].
  Qed.
  Lemma improved_body b x s0 : (forall S0, s_sfi s0 = Some S0 -> answering S0) -> (forall S0, s_ssl s0 = Some S0 -> answering S0) ->
    some (s_vbi s0) = some (s_mam s0) -> some (s_brp s0) = true ->
    forall n k s, frame s0 s -> ends (imp_slab E b x n k) s
      (if Nat.eqb n 0 then first_of [(s_fes s0, TypeError); (some (s_sfi s0), AttributeError); (some (s_mam s0), AttributeError)]
       else first_of [(s_fes s0, TypeError); (some (s_ssl s0), AttributeError); (some (s_mam s0), AttributeError)]) (frame s0).
  Proof.
    intros A1 A2 I1 I2 n k s F. assert (F' := F). seen F'. unfold imp_slab.
    destruct (s_fes s0) eqn:Ef.
    2:{ apply ends_fes_no; [congruence|destruct (Nat.eqb n 0); reflexivity|exact F]. }
    apply ends_fes; [congruence|]. apply ends_get. destruct (some_ex (s_brp s)) as [r0 Er]; [congruence|].
    apply (ends_need _ _ _ _ r0 _ _ Er). cbv zeta. apply ends_modify.
    match goal with |- ends _ ?t _ _ => assert (Ft : frame s0 t) end.
    { apply (frame_trans _ s); [exact F|]. fr_tac. }
    revert Ft. match goal with |- context [ends _ ?t _ _] => generalize t end. intros t Ft. assert (F' := Ft). seen F'.
    destruct (if Nat.eqb n 0 then some (s_sfi s0) else some (s_ssl s0)) eqn:Es.
    2:{ apply solve_ends_no; [destruct (Nat.eqb n 0); congruence|destruct (Nat.eqb n 0); cbn [first_of]; rewrite Es; reflexivity|exact Ft]. }
    apply solve_ends; [intros; apply A1; congruence|intros; apply A2; congruence|destruct (Nat.eqb n 0); congruence|].
    intro u. apply ends_get. destruct (s_mam s0) as [B|] eqn:Em; cbn [some is_none negb] in I1.
    2:{ apply ends_need_no; [apply some_no; cbn; congruence|destruct (Nat.eqb n 0); cbn [first_of]; rewrite Es; reflexivity|].
        apply (frame_trans _ t); [exact Ft|]. fr_tac. }
    destruct (some_ex (s_vbi t)) as [v1 E1]; [congruence|].
    apply (ends_need _ _ _ _ v1); [exact E1|]. cbv zeta. apply ends_modify, ends_get. apply (ends_need _ _ _ _ B); [cbn; congruence|].
    cbv zeta. apply ends_modify, ends_modify, ends_get, ends_done.
    - destruct (Nat.eqb n 0); cbn [first_of]; rewrite Es; reflexivity.
    - destruct (some_ex (s_brp t)) as [r1 Er1]; [congruence|]. apply (frame_trans _ t); [exact Ft|]. fr_tac.
  Qed.

  Notation follows s k := (ends (step E k) s (fst (auto m k (shape_of s))) (fun s' => shape_of s' = snd (auto m k (shape_of s)))).
  Ltac sh := unfold shape_of; cbn; repeat match goal with H : _ = Some _ |- _ => rewrite H | H : _ = None |- _ => rewrite H | H : s_fes _ = _ |- _ => rewrite H end; reflexivity.

  Lemma st_ok om' p : exists f, fem_form 4 (nc_full c) (st_form c g om' p) = Ok f.
  Proof.
    eexists. apply (st_accepted P0 c g om' (g_built _ _ _ HG) (g_dt_nz _ _ _ HG) (gd_k _ _ _ HG) p (gd_dual _ _ _ HG) (gd_primal _ _ _ HG)).
  Qed.
  Lemma setup_ends {B} D0 L0 om' p (f : matrix * bform -> M state B) s o (Q : state -> Prop) :
    (forall A b, ends (f (A, b)) s o Q) -> ends (bind (setup_spacetime_matrix E D0 L0 om' p) f) s o Q.
  Proof.
    intro H. unfold setup_spacetime_matrix. apply ends_assoc, (ends_lift _ _ _ _ g _ (g_stab _ _ _ HG)), ends_assoc.
    destruct (st_ok om' p) as [b Hb]. apply (ends_lift _ _ _ _ b _ Hb), ends_ret, H.
  Qed.
  Lemma follow_fes s : follows s Setup_fes.
  Proof. split; [reflexivity|]. sh. Qed.
  Lemma follow_build p s : follows s (Build_matrix p).
  Proof.
    cbn [step auto]. destruct (s_fes s) eqn:Ef.
    - apply ends_fes; [exact Ef|]. apply ends_get, ends_answers.
      replace (setup_spacetime_matrix E D (e_Lf E) (s_om s) p) with (bind (setup_spacetime_matrix E D (e_Lf E) (s_om s) p) ret).
      + apply setup_ends. intros A b. apply ends_stop; [cbn; rewrite Ef; reflexivity|reflexivity].
      + unfold setup_spacetime_matrix, bind, lift, ret. apply functional_extensionality. intro t.
        destruct (get_gammas _); [|reflexivity]. destruct (fem_form _ _ _); reflexivity.
    - apply ends_fes_no; [exact Ef|cbn; rewrite Ef; reflexivity|reflexivity].
  Qed.
  Lemma built_ends p {B} (f : unit -> M state B) s o (Q : state -> Prop) : s_fes s = true ->
    (forall A b, ends (f tt) (w_stm (Some A) (w_stb (Some b) s)) o Q) -> ends (bind (build_spacetime E p) f) s o Q.
  Proof.
    intros Hf H. unfold build_spacetime. apply ends_assoc, ends_fes; [exact Hf|]. apply ends_assoc, ends_get, ends_assoc.
    apply setup_ends. intros A b. apply ends_modify, H.
  Qed.
  Lemma follow_get_matrix p s : sane E om s -> follows s (Get_matrix p).
  Proof.
    intro J. cbn [step auto]. apply ends_answers. unfold get_spacetime_matrix. apply ends_get.
    destruct (s_stm s) as [A|] eqn:Es.
    - apply ends_ret, ends_get, ends_stop; cbn; rewrite Es; [reflexivity|]. cbn. sh.
    - destruct (s_fes s) eqn:Ef.
      + apply built_ends; [exact Ef|]. intros A b. apply ends_get, ends_stop; cbn; rewrite Es, Ef; [reflexivity|]. cbn. sh.
      + unfold build_spacetime. apply ends_assoc, ends_fes_no; cbn; rewrite ?Es, ?Ef; reflexivity.
  Qed.
  Lemma follow_get_bfi p s : sane E om s -> follows s (Get_bfi p).
  Proof.
    intro J. pose proof (i_st _ _ _ (sa_wf _ _ _ J)) as I. cbn [step auto]. apply ends_answers. unfold get_spacetime_bfi. apply ends_get.
    destruct (s_stm s) as [A|] eqn:Es, (s_stb s) as [b|] eqn:Eb; try contradiction I.
    - apply ends_ret, ends_get, ends_stop; cbn; rewrite Es; [reflexivity|]. cbn. sh.
    - destruct (s_fes s) eqn:Ef.
      + apply built_ends; [exact Ef|]. intros A b. apply ends_get, ends_stop; cbn; rewrite Es, Ef; [reflexivity|]. cbn. sh.
      + unfold build_spacetime. apply ends_assoc, ends_fes_no; cbn; rewrite ?Es, ?Ef; reflexivity.
  Qed.
  Lemma rhs_ends {B} (f : unit -> M state B) s o (Q : state -> Prop) : s_fes s = true ->
    (forall s', s_rhs s' <> None -> s_lfi s' <> None -> shape_of s' = has_rhs (shape_of s) -> ends (f tt) s' o Q) -> ends (bind (setup_rhs E) f) s o Q.
  Proof.
    intros Hf H. destruct (rhs_run _ _ _ HG s Hf) as [l R]. apply (ends_bind _ _ _ _ _ _ _ R), H; [discriminate|discriminate|]. sh.
  Qed.
  Lemma rhs_no {B} (f : unit -> M state B) s o (Q : state -> Prop) : s_fes s = false -> o = Some ValueError -> Q s -> ends (bind (setup_rhs E) f) s o Q.
  Proof. intros Hf Ho HQ. unfold setup_rhs. apply ends_assoc, ends_fes_no; assumption. Qed.
  Lemma follow_rhs s : follows s Setup_rhs.
  Proof.
    cbn [step auto]. unfold done, answers. destruct (s_fes s) eqn:Ef.
    - apply rhs_ends; [exact Ef|]. intros s' _ _ H. apply ends_stop; cbn; rewrite Ef; [reflexivity|exact H].
    - apply rhs_no; cbn; rewrite ?Ef; reflexivity.
  Qed.
  Lemma follow_get_rhs s : follows s Get_rhs.
  Proof.
    cbn [step auto]. apply ends_answers. unfold get_spacetime_rhs. apply ends_get. destruct (s_rhs s) as [i|] eqn:Es.
    - apply ends_ret, ends_get, ends_stop; cbn; rewrite Es; [reflexivity|]. cbn. sh.
    - destruct (s_fes s) eqn:Ef.
      + apply rhs_ends; [exact Ef|]. intros s' _ _ H. apply ends_get, ends_stop; cbn; rewrite Es, Ef; [reflexivity|exact H].
      + apply rhs_no; cbn; rewrite ?Es, ?Ef; reflexivity.
  Qed.
  Lemma follow_get_lfi s : sane E om s -> follows s Get_lfi.
  Proof.
    intro J. pose proof (i_rh _ _ _ (sa_wf _ _ _ J)) as I. apply some_iff in I.
    cbn [step auto]. apply ends_answers. unfold get_spacetime_lfi. apply ends_get. destruct (s_lfi s) as [i|] eqn:Es; cbn in I.
    - apply ends_ret, ends_get, ends_stop; cbn; rewrite I; [reflexivity|]. cbn. unfold shape_of, has_rhs. cbn. rewrite I. reflexivity.
    - destruct (s_fes s) eqn:Ef.
      + apply rhs_ends; [exact Ef|]. intros s' _ _ H. apply ends_get, ends_stop; cbn; rewrite I, Ef; [reflexivity|exact H].
      + apply rhs_no; cbn; rewrite ?I, ?Ef; reflexivity.
  Qed.
  Lemma ends_done_call (a : M state unit) s o (Q : state -> Prop) : ends a s o Q -> ends (done a) s o Q.
  Proof. apply ends_answers. Qed.
  Lemma follow_coupling s : follows s Setup_coupling.
  Proof.
    cbn [step auto]. apply ends_done_call. destruct (s_fes s) eqn:Ef.
    - eapply ends_run; [apply (coup_run _ _ _ HG s Ef)|cbn; rewrite Ef; reflexivity|]. cbn; rewrite Ef. cbn. sh.
    - unfold setup_coupling. apply ends_fes_no; cbn; rewrite ?Ef; reflexivity.
  Qed.
  Lemma follow_mass s : follows s Setup_mass.
  Proof.
    cbn [step auto mode_of md_mass]. apply ends_done_call. destruct (s_fes s) eqn:Ef.
    - unfold is_zero. destruct (Req_EM_T (g_jump g) 0) as [e|e].
      + eapply ends_run; [apply (mass_zero _ _ _ HG s e Ef)| |]; cbn; rewrite Ef; reflexivity.
      + eapply ends_run; [apply (mass_run _ _ _ HG s e Ef)|cbn; rewrite Ef; reflexivity|]. cbn; rewrite Ef. cbn. sh.
    - unfold setup_scaled_mass. apply ends_fes_no; cbn; rewrite ?Ef; reflexivity.
  Qed.
  Lemma slab_shape b om' s : shape_of (slab_set E g b om' s) = if b then has_sl (shape_of s) else has_nj (shape_of s).
  Proof. unfold slab_set. destruct b, (c_wp c); sh. Qed.
  Lemma follow_slab b s : follows s (Setup_slab b).
  Proof.
    cbn [step auto]. apply ends_done_call. destruct (s_fes s) eqn:Ef.
    - eapply ends_run; [apply (slab_run _ _ _ HG b s Ef)|cbn; rewrite Ef; reflexivity|]. cbn; rewrite Ef. cbn [when snd]. apply slab_shape.
    - unfold setup_slab_matrix. apply ends_fes_no; cbn; rewrite ?Ef; reflexivity.
  Qed.
  Lemma both_ends {B} (f : unit -> M state B) s o (Q : state -> Prop) : s_fes s = true ->
    (forall s', shape_of s' = has_nj (has_sl (shape_of s)) -> ends (f tt) s' o Q) ->
    ends (bind (setup_slab_matrix E true ;; setup_slab_matrix E false) f) s o Q.
  Proof.
    intros Hf H. apply ends_assoc. apply (ends_bind _ _ _ _ _ _ _ (slab_run _ _ _ HG true s Hf)).
    assert (Hf2 : s_fes (slab_set E g true (s_om s) s) = true) by (unfold slab_set; destruct (c_wp c); exact Hf).
    apply (ends_bind _ _ _ _ _ _ _ (slab_run _ _ _ HG false _ Hf2)). apply H. rewrite !slab_shape. reflexivity.
  Qed.
  Lemma follow_get_slab k s : sane E om s -> k = Get_slab_bfi \/ k = Get_slab_matrix -> follows s k.
  Proof.
    intros J Hk. assert (I : some (s_slb s) = some (s_slm s)).
    { pose proof (i_sl _ _ _ (sa_wf _ _ _ J)) as X. unfold slab_pair in X. destruct (s_slm s), (s_slb s); try contradiction X; reflexivity. }
    destruct (s_slm s) as [A|] eqn:Es; cbn in I.
    - apply some_ex in I. destruct I as [b Eb].
      destruct Hk as [->| ->]; cbn [step auto]; apply ends_answers; [unfold get_slab_bfi|unfold get_slab_matrix]; apply ends_get;
        rewrite ?Es, ?Eb; apply ends_ret, ends_get, ends_stop; cbn; rewrite Es; reflexivity.
    - apply some_no in I. destruct (s_fes s) eqn:Ef.
      + destruct Hk as [->| ->]; cbn [step auto]; apply ends_answers; [unfold get_slab_bfi|unfold get_slab_matrix]; apply ends_get;
          rewrite ?Es, ?I; (apply both_ends; [exact Ef|]); intros s' H; apply ends_get, ends_stop; cbn; rewrite Es, Ef; cbn; try reflexivity; exact H.
      + destruct Hk as [->| ->]; cbn [step auto]; apply ends_answers; [unfold get_slab_bfi|unfold get_slab_matrix]; apply ends_get;
          rewrite ?Es, ?I; unfold setup_slab_matrix at 1; apply ends_assoc, ends_assoc, ends_fes_no; cbn; rewrite ?Es, ?Ef; reflexivity.
  Qed.
  Lemma frame_shape s s' : frame s s' -> shape_of s' = shape_of s.
  Proof. intro F. seen F. assumption. Qed.
  Lemma ends_mono {A} (a : M state A) s o o' (Q Q' : state -> Prop) : ends a s o Q -> o = o' -> (forall t, Q t -> Q' t) -> ends a s o' Q'.
  Proof. intros [H1 H2] -> H. split; auto. Qed.
  Lemma follow_apply vi vo s : sane E om s -> follows s (Apply vi vo).
  Proof.
    intro J. pose proof (sa_wf _ _ _ J) as W. cbn [step auto]. apply ends_done_call. unfold apply_spacetime_matrix. apply ends_modify.
    eapply ends_mono.
    - apply (loop_ends c _ (put vo vzero s) _ _ (apply_body vi vo (put vo vzero s)
        (some_iff _ _ (proj1 (i_vs _ _ _ W))) (some_iff _ _ (proj1 (i_vc _ _ _ W)))) (c_N c)). apply (eo_N _ HE).
    - cbn [fst]. unfold mode_of, md_many. generalize (Nat.ltb 1 (c_N c)). intro mn. cbn. destruct (s_fes s), (some (s_njm s)), (some (s_com s)), mn; reflexivity.
    - intros t F. apply frame_shape in F. rewrite F. reflexivity.
  Qed.
  Lemma follow_march b x s : sane E om s -> follows s (March b x).
  Proof.
    intro J. cbn [step auto]. apply ends_done_call. unfold pre_time_marching. apply (ends_lift _ _ _ _ _ _ (g_look _ _ _ HG)).
    eapply ends_mono.
    - apply (loop_ends c _ s _ _ (march_body (g_jump g) b x s (sa_fi _ _ _ J) (sa_sl _ _ _ J)) (c_N c)). apply (eo_N _ HE).
    - cbn [fst]. unfold mode_of, md_many. generalize (Nat.ltb 1 (c_N c)). intro mn. cbn. destruct (s_fes s), (some (s_sfi s)), (some (s_ssl s)), mn; reflexivity.
    - intros t F. apply frame_shape in F. exact F.
  Qed.
  Lemma follow_improved b x s : sane E om s -> follows s (Improved b x).
  Proof.
    intro J. pose proof (sa_wf _ _ _ J) as W. cbn [step auto]. apply ends_done_call. unfold pre_time_marching_improved.
    unfold mode_of, md_jumps. destruct (c_jumps c) eqn:Ej.
    { split; reflexivity. }
    apply ends_errif; [reflexivity|]. apply (ends_lift _ _ _ _ _ _ (g_look _ _ _ HG)), ends_get.
    destruct (s_brp s) as [r|] eqn:Er.
    2:{ apply ends_need_no; [reflexivity|cbn; rewrite Er; reflexivity|reflexivity]. }
    apply (ends_need _ _ _ _ r); [reflexivity|]. apply ends_modify.
    eapply ends_mono.
    - apply (loop_ends c _ _ _ _ (improved_body b x (w_brp (Some vzero) s) (sa_fi _ _ _ J) (sa_sl _ _ _ J)
        (some_iff _ _ (proj1 (i_vb _ _ _ W))) eq_refl) (c_N c)). apply (eo_N _ HE).
    - cbn [fst]. unfold md_many. generalize (Nat.ltb 1 (c_N c)). intro mn. cbn. rewrite Er. cbn. destruct (s_fes s), (some (s_sfi s)), (some (s_ssl s)), (some (s_mam s)), mn; reflexivity.
    - intros t F. apply frame_shape in F. rewrite F. cbn [snd]. sh.
  Qed.

  (** prepare_precondition_gmres: each step is skipped if its result is there *)
  Lemma follow_prepare s : sane E om s -> follows s Prepare.
  Proof.
    intro J. pose proof (sa_wf _ _ _ J) as W. destruct (i_fi _ _ _ W) as [IF _].
    cbn [step auto]. apply ends_done_call. unfold prepare_precondition_gmres. apply ends_get.
    destruct (s_fes s) eqn:Ef.
    - (* slab matrix *)
      set (s1 := if is_none (s_slm s) then w_brp (Some vzero) (slab_set E g true (s_om s) s) else s).
      assert (E1 : (if is_none (s_slm s) then setup_slab_matrix E true ;; modify (w_brp (Some vzero)) else ret tt) s = (Ok tt, s1)).
      { unfold s1. destruct (is_none (s_slm s)); [|reflexivity]. rewrite (bind_ok _ _ _ _ _ (slab_run _ _ _ HG true s Ef)). reflexivity. }
      assert (H1 : shape_of s1 = if some (s_slm s) then shape_of s else has_brp (has_sl (shape_of s))).
      { unfold s1, some. destruct (is_none (s_slm s)); cbn [negb]; [|reflexivity].
        transitivity (has_brp (shape_of (slab_set E g true (s_om s) s))); [reflexivity|]. rewrite slab_shape. reflexivity. }
      assert (F1 : s_fes s1 = true). { change (s_fes s1) with (h_fes (shape_of s1)). rewrite H1. destruct (some (s_slm s)); exact Ef. }
      assert (G1 : c_wp c = false -> is_none (s_fim s1) = is_none (s_njm s)).
      { intro Hwp. unfold s1, slab_set. rewrite Hwp in *. destruct (is_none (s_slm s)); cbn; rewrite IF; reflexivity. }
      apply (ends_bind _ _ _ _ _ _ _ E1), ends_get. clearbody s1. clear E1.
      (* first slab *)
      set (s2 := if is_none (s_fim s1) && negb (c_wp c) then slab_set E g false (s_om s1) s1 else s1).
      assert (E2 : (if is_none (s_fim s1) && negb (c_wp c) then setup_slab_matrix E false else ret tt) s1 = (Ok tt, s2)).
      { unfold s2. destruct (is_none (s_fim s1) && negb (c_wp c)); [|reflexivity]. apply (slab_run _ _ _ HG false s1 F1). }
      assert (N1 : s_njm s1 = None <-> s_njm s = None).
      { assert (X : h_nj (shape_of s1) = h_nj (shape_of s)) by (rewrite H1; destruct (some (s_slm s)); reflexivity).
        cbn in X. destruct (s_njm s1), (s_njm s); try discriminate X; split; congruence. }
      assert (H2 : shape_of s2 = if c_wp c then shape_of s1 else has_nj (shape_of s1)).
      { unfold s2. destruct (c_wp c) eqn:Ew; [rewrite andb_false_r; reflexivity|]. rewrite (G1 eq_refl). cbn [negb]. rewrite andb_true_r.
        destruct (s_njm s) as [A|] eqn:En; cbn [is_none]; [|apply slab_shape].
        unfold shape_of, has_nj. cbn. destruct (s_njm s1) eqn:En1; [reflexivity|]. destruct N1 as [N1 _]. specialize (N1 eq_refl). discriminate N1. }
      assert (F2 : s_fes s2 = true). { change (s_fes s2) with (h_fes (shape_of s2)). rewrite H2. destruct (c_wp c); exact F1. }
      apply (ends_bind _ _ _ _ _ _ _ E2), ends_get. clearbody s2. clear E2.
      (* coupling *)
      set (s3 := if is_none (s_com s2) then coup_set E g s2 else s2).
      assert (E3 : (if is_none (s_com s2) then setup_coupling E else ret tt) s2 = (Ok tt, s3)).
      { unfold s3. destruct (is_none (s_com s2)); [|reflexivity]. apply (coup_run _ _ _ HG s2 F2). }
      assert (H3 : shape_of s3 = has_co (shape_of s2)).
      { unfold s3. destruct (s_com s2) eqn:Ec; cbn [is_none]; sh. }
      assert (F3 : s_fes s3 = true). { change (s_fes s3) with (h_fes (shape_of s3)). rewrite H3. exact F2. }
      apply (ends_bind _ _ _ _ _ _ _ E3), ends_get. clearbody s3. clear E3.
      (* right-hand side *)
      assert (E4 : exists s4, (if is_none (s_rhs s3) then setup_rhs E else ret tt) s3 = (Ok tt, s4) /\ shape_of s4 = has_rhs (shape_of s3)).
      { destruct (s_rhs s3) eqn:Er; cbn [is_none].
        - exists s3. split; [reflexivity|]. sh.
        - destruct (rhs_run _ _ _ HG s3 F3) as [l R]. eexists. split; [exact R|]. sh. }
      destruct E4 as [s4 [E4 H4]].
      assert (F4 : s_fes s4 = true). { change (s_fes s4) with (h_fes (shape_of s4)). rewrite H4. exact F3. }
      apply (ends_bind _ _ _ _ _ _ _ E4), ends_get.
      (* mass matrix *)
      assert (M4 : some (s_mam s4) = some (s_mam s)).
      { change (some (s_mam s4)) with (h_ma (shape_of s4)). rewrite H4, H3, H2, H1. destruct (c_wp c), (some (s_slm s)); reflexivity. }
      assert (Z : ends (if is_none (s_mam s4) then setup_scaled_mass E else ret tt) s4
        (if some (s_mam s) || md_mass m then None else Some RuntimeError)
        (fun s' => shape_of s' = if some (s_mam s) || md_mass m then has_ma (shape_of s4) else shape_of s4)).
      { rewrite <- M4. unfold mode_of, md_mass. destruct (s_mam s4) eqn:Em; cbn [is_none some negb orb].
        - apply ends_stop; [reflexivity|]. sh.
        - unfold is_zero. destruct (Req_EM_T (g_jump g) 0) as [e|e]; cbn [negb].
          + eapply ends_run; [apply (mass_zero _ _ _ HG s4 e F4)|reflexivity|reflexivity].
          + eapply ends_run; [apply (mass_run _ _ _ HG s4 e F4)|reflexivity|]. sh. }
      assert (T : shape_of s4 = has_rhs (has_co (if c_wp c then if some (s_slm s) then shape_of s else has_brp (has_sl (shape_of s))
          else has_nj (if some (s_slm s) then shape_of s else has_brp (has_sl (shape_of s)))))).
      { rewrite H4, H3, H2, H1. reflexivity. }
      rewrite T in Z. clear - Z Ef. revert Z. unfold mode_of. cbn [md_mass md_wp]. unfold shape_of at 5 6 7. cbn. rewrite Ef. cbn [negb].
      intro Z. eapply ends_mono; [exact Z| |].
      + destruct (some (s_slm s)), (c_wp c), (some (s_njm s)), (some (s_com s)), (some (s_rhs s)), (some (s_mam s)), (is_zero (g_jump g)); reflexivity.
      + intros t H. rewrite H. unfold shape_of. cbn. rewrite ?Ef. 
        destruct (some (s_slm s)), (c_wp c), (some (s_njm s)), (some (s_com s)), (some (s_rhs s)), (some (s_mam s)), (is_zero (g_jump g)); reflexivity.
    - destruct (i_fe _ _ _ W Ef) as [N1 [N2 [N3 [N4 [N5 [N6 N7]]]]]]. rewrite N2. cbn [is_none].
      unfold setup_slab_matrix at 1. apply ends_assoc, ends_assoc, ends_fes_no; cbn; rewrite ?Ef, ?N2; reflexivity.
  Qed.

  Lemma follow_coarse K s : sane E om s -> follows s (Prepare_coarse K).
  Proof.
    intro J. pose proof (some_iff _ _ (i_rh _ _ _ (sa_wf _ _ _ J))) as I.
    cbn [step auto]. apply ends_done_call. unfold prepare_coarse. apply ends_modify. destruct (s_fes s) eqn:Ef.
    2:{ apply ends_fes_no; [exact Ef|cbn; rewrite Ef; reflexivity|]. cbn. rewrite Ef. cbn. sh. }
    apply ends_fes; [exact Ef|]. apply ends_modify, ends_get, setup_ends. intros A b. apply ends_modify, ends_get.
    destruct (s_lfi s) as [f|] eqn:El; cbn in I.
    - apply (ends_need _ _ _ _ f); [exact El|]. apply ends_done; cbn; rewrite Ef, I; cbn; [reflexivity|].
      unfold shape_of, has_tmp, has_cmt, has_nod, has_crs. cbn. rewrite Ef. reflexivity.
    - apply ends_need_no; [exact El| |]; cbn; rewrite Ef, I; cbn; [reflexivity|].
      unfold shape_of, has_cmt, has_nod, has_crs. cbn. rewrite Ef. reflexivity.
  Qed.
  Lemma coarse_ends {B} (f : coarse -> M state B) s o (Q : state -> Prop) :
    (forall K, s_crs s = Some K -> s_nod s = true -> ends (f K) s o Q) ->
    (s_crs s = None -> o = Some TypeError /\ Q s) -> (s_crs s <> None -> s_nod s = false -> o = Some AttributeError /\ Q s) ->
    ends (bind need_coarse f) s o Q.
  Proof.
    intros H1 H2 H3. unfold need_coarse. apply ends_assoc, ends_get, ends_assoc. destruct (s_crs s) as [K|] eqn:Ek.
    - apply (ends_need _ _ _ _ K); [reflexivity|]. destruct (s_nod s) eqn:En; cbn [negb].
      + apply ends_assoc, ends_errif; [reflexivity|]. apply ends_ret, H1; reflexivity.
      + destruct (H3 ltac:(discriminate) eq_refl) as [-> HQ]. split; [reflexivity|exact HQ].
    - destruct (H2 eq_refl) as [-> HQ]. apply ends_need_no; [reflexivity|reflexivity|exact HQ].
  Qed.
  Lemma put_shape i v s : shape_of (put i v s) = shape_of s.
  Proof. reflexivity. Qed.
  Lemma follow_transfer k s xc xf : sane E om s -> k = Prolong xc xf \/ k = Restrict xc xf -> follows s k.
  Proof.
    intros J Hk. destruct Hk as [->| ->]; cbn [step auto]; apply ends_done_call; [unfold prolongation|unfold restriction]; apply coarse_ends;
      try (intros Hc; cbn; rewrite Hc; split; reflexivity);
      try (intros Hc Hn; cbn; rewrite Hn; destruct (s_crs s); [split; reflexivity|contradiction]).
    - intros K Hc Hn. pose proof (sa_cr _ _ _ J K Hc) as FK. apply ends_get.
      destruct (trans_run E (k_D K) D (k_L K) (e_Lf E) (k_up K) (s_heap s xc) (ft_L _ _ FK) (eo_f _ HE) (ft_c _ _ FK) (ft_f _ _ FK) (s_heap s xf)) as [d [R _]].
      apply (ends_run _ _ _ _ (Ok tt) (put xf d s)).
      + unfold on_heap, prolong. rewrite R. reflexivity.
      + cbn. rewrite Hc, Hn. reflexivity.
      + cbn. apply put_shape.
    - intros K Hc Hn. pose proof (sa_cr _ _ _ J K Hc) as FK. apply ends_get.
      destruct (trans_run E D (k_D K) (e_Lf E) (k_L K) (k_down K) (s_heap s xf) (eo_f _ HE) (ft_L _ _ FK) (ft_f _ _ FK) (ft_c _ _ FK) (s_heap s xc)) as [d [R _]].
      apply (ends_run _ _ _ _ (Ok tt) (put xc d s)).
      + unfold on_heap, restrict. rewrite R. reflexivity.
      + cbn. rewrite Hc, Hn. reflexivity.
      + cbn. apply put_shape.
  Qed.
  Lemma follow_qop xi xo s : sane E om s -> follows s (Qop xi xo).
  Proof.
    intro J. destruct (sa_tc _ _ _ J) as [T1 T2]. cbn [step auto]; apply ends_done_call; unfold q_op; apply coarse_ends;
      try (intros Hc; cbn; rewrite Hc; split; reflexivity);
      try (intros Hc Hn; cbn; rewrite Hn; destruct (s_crs s); [split; reflexivity|contradiction]).
    intros K Hc Hn. pose proof (sa_cr _ _ _ J K Hc) as FK. apply ends_get.
    destruct (s_tc1 s) as [t1|] eqn:E1; cbn in T1.
    2:{ apply ends_need_no; [reflexivity| |reflexivity]. cbn. rewrite Hc, Hn, <- T1. reflexivity. }
    apply (ends_need _ _ _ _ t1); [reflexivity|].
    destruct (trans_run E D (k_D K) (e_Lf E) (k_L K) (k_down K) (s_heap s xi) (eo_f _ HE) (ft_L _ _ FK) (ft_f _ _ FK) (ft_c _ _ FK) t1) as [d [R _]].
    unfold restrict at 1. rewrite R. apply ends_modify, (ends_lift _ _ _ _ tt); [reflexivity|]. apply ends_get.
    destruct (s_sco s) as [S0|] eqn:Es.
    2:{ apply ends_need_no; [exact Es| |]; cbn; rewrite ?Hc, ?Hn, ?Es, <- ?T1; [reflexivity|]. sh. }
    apply (ends_need _ _ _ _ S0); [exact Es|].
    destruct (some_ex (s_tc2 s)) as [t2 E2]; [congruence|]. apply (ends_need _ _ _ _ t2); [exact E2|].
    destruct (sa_co _ _ _ J S0 Es d t2) as [u Hu]. apply (ends_lift _ _ _ _ u); [exact Hu|]. apply ends_modify.
    match goal with |- ends _ ?t _ _ => set (s2 := t) end.
    destruct (trans_run E (k_D K) D (k_L K) (e_Lf E) (k_up K) u (ft_L _ _ FK) (eo_f _ HE) (ft_c _ _ FK) (ft_f _ _ FK) (s_heap s2 xo)) as [d2 [R2 _]].
    apply (ends_run _ _ _ _ (Ok tt) (put xo d2 s2)).
    - unfold on_heap, prolong. rewrite R2. reflexivity.
    - cbn. rewrite Hc, Hn, <- T1, Es. reflexivity.
    - rewrite put_shape. unfold s2. cbn [snd]. sh.
  Qed.
  (** the reporting methods change no attribute that matters *)
  Definition shaped (h : shape) (s : state) : Prop := shape_of s = h.
  Ltac sleaf := idtac; match goal with H : shaped ?h ?s |- shaped ?h _ => unfold shaped in *; rewrite <- H; reflexivity end.
  Lemma measure_shape u s : shape_of (snd (measured_errors E u s)) = shape_of s.
  Proof.
    enough (X : forall h, shaped h s -> okat (shaped h) (measured_errors E u) s) by exact (X _ eq_refl).
    intros h H0. walk sleaf.
  Qed.
  Lemma follow_measure u s : follows s (Measure u).
  Proof.
    cbn [step auto]. apply ends_answers. destruct (s_fes s) eqn:Ef.
    - destruct (measure_run P0 E (g_built _ _ _ HG) HE (gd_T _ _ _ HG) Hw u s Ef) as [m1 [m2 [s' [R _]]]]. pose proof (measure_shape u s) as H.
      cbn zeta in R. rewrite R in H. eapply ends_run; [exact R|cbn; rewrite Ef; reflexivity|exact H].
    - unfold measured_errors, load_solution. apply ends_assoc, ends_fes_no; cbn; rewrite ?Ef; reflexivity.
  Qed.
  Lemma follow_paraview pt u s : follows s (Paraview pt u).
  Proof.
    cbn [step auto]. apply ends_answers. unfold plot_para_view, load_solution. destruct (s_fes s) eqn:Ef.
    - apply ends_assoc, ends_fes; [exact Ef|]. apply ends_assoc, ends_modify, ends_assoc, ends_get, ends_assoc, ends_modify, ends_modify, ends_get, ends_stop;
        cbn; rewrite ?Ef; reflexivity.
    - apply ends_assoc, ends_fes_no; cbn; rewrite ?Ef; reflexivity.
  Qed.
  Lemma plot_ends ev u nsp nsub a s : ends (plot E ev u nsp nsub a) s (first_of [(s_fes s, AttributeError)]) (fun s' => shape_of s' = shape_of s).
  Proof.
    unfold plot. destruct (s_fes s) eqn:Ef.
    - apply ends_fes; [exact Ef|]. apply ends_errif; [rewrite (dt_not_zero _ _ _ HG); reflexivity|]. apply ends_get, ends_stop; reflexivity.
    - apply ends_fes_no; [exact Ef|reflexivity|reflexivity].
  Qed.
  Theorem follow k s : sane E om s -> follows s k.
  Proof.
    intro J. destruct k.
    - apply follow_fes.
    - apply follow_build.
    - apply follow_get_matrix, J.
    - apply follow_get_bfi, J.
    - apply follow_rhs.
    - apply follow_get_rhs.
    - apply follow_get_lfi, J.
    - apply follow_coupling.
    - apply follow_mass.
    - apply follow_slab.
    - apply follow_get_slab; auto.
    - apply follow_get_slab; auto.
    - split; reflexivity.
    - split; reflexivity.
    - split; [reflexivity|]. sh.
    - split; [reflexivity|]. sh.
    - apply follow_apply, J.
    - apply follow_march, J.
    - apply follow_improved, J.
    - apply follow_prepare, J.
    - apply follow_coarse, J.
    - split; reflexivity.
    - split; [reflexivity|]. sh.
    - eapply follow_transfer; [exact J|auto].
    - eapply follow_transfer; [exact J|auto].
    - apply follow_qop, J.
    - split; reflexivity.
    - apply follow_measure.
    - apply follow_paraview.
    - cbn [step auto]. apply ends_answers, plot_ends.
    - cbn [step auto]. apply ends_answers. unfold plot_error. apply plot_ends.
    - split; reflexivity.
  Qed.

  (** * The invariant *)
  Definition tc_ok (s : state) : Prop := some (s_tc1 s) = s_tmp s /\ some (s_tc2 s) = s_tmp s.
  Definition cr_ok (s : state) : Prop := forall K, s_crs s = Some K -> fits E K.
  Definition so_ok (s : state) : Prop :=
    (forall S0, s_sfi s = Some S0 -> answering S0) /\ (forall S0, s_ssl s = Some S0 -> answering S0) /\ (forall S0, s_sco s = Some S0 -> answering S0).
  Lemma cr_step k s : sound_call E k -> cr_ok s -> okat cr_ok (step E k) s.
  Proof.
    intros Hk HQ. destruct k; cbn [step sound_call] in *; try (walk leaf; fail).
    assert (H : cr_ok (w_crs (Some K) s)) by (intros K' HK; injection HK as <-; exact Hk).
    unfold done, answers, prepare_coarse. apply ok_bind_assoc, ok_bind_modify. revert H. generalize (w_crs (Some K) s). intros t H. walk leaf.
  Qed.
  Lemma so_step k s : sound_call E k -> so_ok s -> okat so_ok (step E k) s.
  Proof.
    intros Hk HQ. destruct k; cbn [step sound_call] in *; try (walk leaf; fail).
    all: destruct HQ as [Q1 [Q2 Q3]]; repeat split; cbn; intros S1 H1; first [injection H1 as <-; exact Hk|auto].
  Qed.
  Ltac tleaf := idtac; match goal with
    | H : tc_ok ?s |- tc_ok _ => first [exact H | split; reflexivity]
    end.
  Lemma tc_step k s : tc_ok s -> okat tc_ok (step E k) s.
  Proof.
    intros HQ. destruct k; cbn [step]; try (walk tleaf; fail).
    unfold done, answers. apply ok_bind; [|intros; walk tleaf]. unfold q_op. apply ok_bind; [walk tleaf|]. intros K s1 H1 _. clear HQ.
    apply ok_bind_get. destruct (s_tc1 s1) as [t1|] eqn:E1; [|exact H1].
    apply ok_bind_ret. destruct (restrict E K (s_heap s1 xi) t1) as [r1 t1']. apply ok_bind_modify.
    destruct H1 as [A1 A2]. rewrite E1 in A1. cbn in A1.
    assert (H2 : tc_ok (w_tc1 (Some t1') s1)) by (split; [exact A1|exact A2]). revert H2. 
    assert (X : s_tmp (w_tc1 (Some t1') s1) = true) by (symmetry; exact A1). revert X. generalize (w_tc1 (Some t1') s1). intros s2 X H2.
    apply ok_bind_lift; [exact H2|]. intros _ _. apply ok_bind_get. apply ok_bind_need; [exact H2|]. intros S0 _.
    apply ok_bind_need; [exact H2|]. intros t2 E2. apply ok_bind_lift; [exact H2|]. intros v _. apply ok_bind_modify.
    assert (H3 : tc_ok (w_tc2 (Some v) s2)) by (split; [exact (proj1 H2)|exact (eq_sym X)]). revert H3. generalize (w_tc2 (Some v) s2). intros s3 H3. walk tleaf.
  Qed.
  Theorem sane_step k s : sane E om s -> sound_call E k -> sane E om (snd (step E k s)).
  Proof.
    intros J Hk. destruct (so_step k s Hk (conj (sa_fi _ _ _ J) (conj (sa_sl _ _ _ J) (sa_co _ _ _ J)))) as [S1 [S2 S3]]. constructor.
    - exact (after_wf E om [k] s (sa_wf _ _ _ J)).
    - exact (tc_step k s (sa_tc _ _ _ J)).
    - exact S1.
    - exact S2.
    - exact S3.
    - exact (cr_step k s Hk (sa_cr _ _ _ J)).
  Qed.
End Sim.

Lemma sane_init E (fitted : bool) ind heap next : sane E (if fitted then fun _ => 0 else ind) (init_state fitted ind heap next).
Proof.
  constructor.
  - exact (init_wf E fitted ind heap next).
  - split; reflexivity.
  - discriminate.
  - discriminate.
  - discriminate.
  - discriminate.
Qed.
