(** LifeFrames.v -- which public calls change which part of a SpaceTime object
    and of the caller's vectors. *)
From Coq Require Import Reals List ZArith Lra Lia Bool String.
From Verif Require Import Base TimeModel FormModel FormSpec FormProofs SpaceTimeForms SpaceTimeModel ErrorsModel Lifecycle LifeProofs.
Import ListNotations.
Open Scope R_scope.
Open Scope monad_scope.

(** the predicate [Q] survives a run if it survives each assignment of it *)
Ltac head_of m := lazymatch m with ?f _ => head_of f | ?f => f end.
Ltac leaf := idtac; match goal with H : ?Q ?s |- ?Q _ => exact H end.
Ltac wstep lf :=
  cbv beta zeta;
  lazymatch goal with
  | |- okat _ (bind get _) _ => apply ok_bind_get
  | |- okat _ (bind (modify _) _) _ => apply ok_bind_modify;
      try (match goal with |- okat ?Q _ ?t => let H := fresh in assert (H : Q t) by lf; revert H; generalize t; intros ? H end)
  | |- okat _ (bind (ret _) _) _ => apply ok_bind_ret
  | |- okat _ (bind (lift _) _) _ => apply ok_bind_lift; [lf|intros ? _]
  | |- okat _ (bind (need _ _) _) _ => apply ok_bind_need; [lf|intros ? _]
  | |- okat _ (bind (err_if _ _) _) _ => apply ok_bind_errif; [lf|intros _]
  | |- okat _ (bind (need_fes _) _) _ => apply ok_bind_fes; [lf|intros _]
  | |- okat _ (bind (bind _ _) _) _ => apply ok_bind_assoc
  | |- okat _ (bind _ _) _ => apply ok_bind; [|intros ? ? ? _]
  | |- okat _ (ret _) _ => apply ok_ret; lf
  | |- okat _ (raise _) _ => apply ok_raise; lf
  | |- okat _ (modify _) _ => apply ok_modify; lf
  | |- okat _ (slabs _ _ _ _) _ => apply ok_slabs; [intros ? ? ? ?|lf]
  | |- okat _ (for_acc _ _ _) _ => apply ok_for_acc; [intros ? ? ? ?|lf]
  | |- okat _ (if ?b then _ else _) _ => destruct b
  | |- okat _ (match ?b with _ => _ end) _ => destruct b
  | |- okat _ (let '(_, _) := ?b in _) _ => destruct b
  | |- okat _ (answers _ _) _ => unfold answers
  | |- okat _ (done _) _ => unfold done
  | |- okat _ (build_spacetime _ _) _ => unfold build_spacetime
  | |- okat _ (bind need_coarse _) _ => unfold need_coarse
  | |- okat _ (on_heap _ _) _ => unfold okat, on_heap; match goal with |- context [let (_, _) := ?p in _] => destruct p end; cbn [snd]; lf
  | |- okat _ ?m _ => let h := head_of m in unfold h
  end.
Ltac walk lf := repeat (wstep lf).

(** * The attributes of which the caller has a copy or a reference *)
Section Frames.
  Variable E : env.

  (** the right-hand side and its linear form change only in Setup_rhs, once they exist *)
  Definition rhs_is (i : nat) (f : lform) (s : state) : Prop := s_rhs s = Some i /\ s_lfi s = Some f.
  Lemma rhs_getter i f s : rhs_is i f s -> okat (rhs_is i f) (get_spacetime_rhs E) s.
  Proof. intros [H1 H2]. unfold get_spacetime_rhs. apply ok_bind_get. rewrite H1. split; assumption. Qed.
  Lemma lfi_getter i f s : rhs_is i f s -> okat (rhs_is i f) (get_spacetime_lfi E) s.
  Proof. intros [H1 H2]. unfold get_spacetime_lfi. apply ok_bind_get. rewrite H2. split; assumption. Qed.
  Definition is_setup_rhs (k : call) : bool := match k with Setup_rhs => true | _ => false end.
  Lemma rhs_step i f k s : is_setup_rhs k = false -> rhs_is i f s -> okat (rhs_is i f) (step E k) s.
  Proof.
    intros Hk HQ. destruct k; try discriminate Hk; cbn [step].
    all: try (unfold answers; apply ok_bind; [first [apply rhs_getter|apply lfi_getter]; assumption|intros; walk leaf]; fail).
    all: try (walk leaf; fail).
    cbn [step]. unfold done, answers. apply ok_bind; [|intros; walk leaf].
    unfold prepare_precondition_gmres.
    apply ok_bind_get, ok_bind; [walk leaf|intros ? ? ? _].
    apply ok_bind_get, ok_bind; [walk leaf|intros ? ? ? _].
    apply ok_bind_get, ok_bind; [walk leaf|intros ? ? ? _].
    apply ok_bind_get, ok_bind; [|intros ? ? ? _; walk leaf].
    match goal with H : rhs_is i f ?t |- context [is_none (s_rhs ?t)] => rewrite (proj1 H); exact H end.
  Qed.
  Lemma rhs_after i f ks : forallb (fun k => negb (is_setup_rhs k)) ks = true -> forall s, rhs_is i f s -> rhs_is i f (after E ks s).
  Proof.
    induction ks as [|k ks IH]; intros Hk s HQ; [exact HQ|]. cbn [forallb] in Hk. apply andb_true_iff in Hk. destruct Hk as [K1 K2].
    cbn [after fold_left]. apply (IH K2). apply rhs_step; [destruct (is_setup_rhs k); [discriminate K1|reflexivity]|exact HQ].
  Qed.

  (** u1_0 and u2_0 change only in Setup_fes, Measure and Paraview *)
  Definition u0_is (a b : vec) (s : state) : Prop := s_u10 s = a /\ s_u20 s = b.
  Definition writes_u0 (k : call) : bool := match k with Setup_fes | Measure _ | Paraview _ _ => true | _ => false end.
  Lemma u0_step a b k s : writes_u0 k = false -> u0_is a b s -> okat (u0_is a b) (step E k) s.
  Proof. intros Hk HQ. destruct k; try discriminate Hk; cbn [step]; walk leaf. Qed.
  Lemma u0_after a b ks : forallb (fun k => negb (writes_u0 k)) ks = true -> forall s, u0_is a b s -> u0_is a b (after E ks s).
  Proof.
    induction ks as [|k ks IH]; intros Hk s HQ; [exact HQ|]. cbn [forallb] in Hk. apply andb_true_iff in Hk. destruct Hk as [K1 K2].
    cbn [after fold_left]. apply (IH K2). apply u0_step; [destruct (writes_u0 k); [discriminate K1|reflexivity]|exact HQ].
  Qed.

  (** the slab solvers change only when they are set *)
  Definition sol_is (a b : option solver) (s : state) : Prop := s_sfi s = a /\ s_ssl s = b.
  Definition sets_solver (k : call) : bool := match k with Set_first _ | Set_slab _ => true | _ => false end.
  Lemma sol_step a b k s : sets_solver k = false -> sol_is a b s -> okat (sol_is a b) (step E k) s.
  Proof. intros Hk HQ. destruct k; try discriminate Hk; cbn [step]; walk leaf. Qed.
  Lemma sol_after a b ks : forallb (fun k => negb (sets_solver k)) ks = true -> forall s, sol_is a b s -> sol_is a b (after E ks s).
  Proof.
    induction ks as [|k ks IH]; intros Hk s HQ; [exact HQ|]. cbn [forallb] in Hk. apply andb_true_iff in Hk. destruct Hk as [K1 K2].
    cbn [after fold_left]. apply (IH K2). apply sol_step; [destruct (sets_solver k); [discriminate K1|reflexivity]|exact HQ].
  Qed.

  (** the data indicator never changes after construction *)
  Definition om_is (a : nat -> R) (s : state) : Prop := s_om s = a.
  Lemma om_step a k s : om_is a s -> okat (om_is a) (step E k) s.
  Proof. intros HQ. destruct k; cbn [step]; walk leaf. Qed.

  (** without the set-up call there are no spaces *)
  Definition no_fes (s : state) : Prop := s_fes s = false.
  Definition is_setup_fes (k : call) : bool := match k with Setup_fes => true | _ => false end.
  Lemma fes_step k s : is_setup_fes k = false -> no_fes s -> okat no_fes (step E k) s.
  Proof. intros Hk HQ. destruct k; try discriminate Hk; cbn [step]; walk leaf. Qed.
  Lemma fes_after ks : forallb (fun k => negb (is_setup_fes k)) ks = true -> forall s, no_fes s -> no_fes (after E ks s).
  Proof.
    induction ks as [|k ks IH]; intros Hk s HQ; [exact HQ|]. cbn [forallb] in Hk. apply andb_true_iff in Hk. destruct Hk as [K1 K2].
    cbn [after fold_left]. apply (IH K2). apply fes_step; [destruct (is_setup_fes k); [discriminate K1|reflexivity]|exact HQ].
  Qed.

  (** a slab matrix without b_rhs_pre: no later call creates b_rhs_pre *)
  Definition stuck (s : state) : Prop := s_slm s <> None /\ s_brp s = None.
  Ltac sleaf := idtac; match goal with
    | H : stuck ?s |- stuck ?t => first [exact H | split; [discriminate|exact (proj2 H)]]
    end.
  Lemma stuck_step k s : stuck s -> okat stuck (step E k) s.
  Proof.
    intro HQ. destruct k; cbn [step].
    all: try (walk ltac:(sleaf); fail).
    - unfold done, answers. apply ok_bind; [|intros; walk sleaf]. unfold pre_time_marching_improved.
      apply ok_bind_errif; [exact HQ|intros _]. apply ok_bind_lift; [exact HQ|intros gj _].
      apply ok_bind_get. rewrite (proj2 HQ). exact HQ.
    - unfold done, answers. apply ok_bind; [|intros; walk sleaf]. unfold prepare_precondition_gmres.
      apply ok_bind_get. destruct (s_slm s) eqn:Es; [|exfalso; apply (proj1 HQ), Es]. cbn [is_none]. apply ok_bind_ret.
      walk sleaf.
  Qed.
  Lemma stuck_after ks : forall s, stuck s -> stuck (after E ks s).
  Proof.
    induction ks as [|k ks IH]; intros s HQ; [exact HQ|]. cbn [after fold_left]. apply IH. exact (stuck_step k s HQ).
  Qed.

  (** * The caller's vectors: only the output argument of a call changes *)
  Definition outputs (k : call) : list nat :=
    match k with
    | Apply _ vo => [vo] | March _ x => [x] | Improved _ x => [x]
    | Prolong _ xf => [xf] | Restrict xc _ => [xc] | Qop _ xo => [xo] | Write i _ => [i]
    | _ => []
    end.
  Definition vec_is (i : nat) (v : vec) (s : state) : Prop := s_heap s i = v /\ (i < s_next s)%nat.
  Lemma vec_put i v j w s : i <> j -> vec_is i v s -> vec_is i v (put j w s).
  Proof.
    intros Hij [H1 H2]. split; [|exact H2]. unfold put. cbn. destruct (Nat.eqb_spec i j); [contradiction|exact H1].
  Qed.
  Lemma vec_new i v w s : vec_is i v s -> vec_is i v (w_next (S (s_next s)) (put (s_next s) w s)).
  Proof.
    intros [H1 H2]. split; [|cbn; lia]. unfold put. cbn. destruct (Nat.eqb_spec i (s_next s)); [lia|exact H1].
  Qed.
  Lemma vec_same i v s s' : s_heap s' = s_heap s -> s_next s' = s_next s -> vec_is i v s -> vec_is i v s'.
  Proof. unfold vec_is. intros -> ->. exact (fun H => H). Qed.
  Ltac vleaf Hk := idtac; match goal with
    | |- vec_is _ _ (put _ _ _) => apply vec_put; [intros ->; apply Hk; left; reflexivity|vleaf Hk]
    | H : vec_is ?i ?v ?s |- vec_is ?i ?v (w_rhs _ (w_lfi _ (w_next _ (put _ ?w _)))) => exact (vec_new i v w s H)
    | |- vec_is _ _ (_ _ ?t) => lazymatch t with context [put] => idtac end; apply (vec_same _ _ t); [reflexivity|reflexivity|vleaf Hk]
    | _ => leaf
    end.
  Lemma vec_step i v k s : ~ In i (outputs k) -> vec_is i v s -> okat (vec_is i v) (step E k) s.
  Proof.
    intros Hk HQ. destruct k; cbn [step outputs] in *.
    all: try (match goal with |- okat _ (done (modify (put ?j ?w))) _ =>
      apply (vec_put i v j w s); [intros ->; apply Hk; left; reflexivity|exact HQ] end).
    all: walk ltac:(vleaf Hk).
  Qed.
  Lemma vec_after i v ks : (forall k, In k ks -> ~ In i (outputs k)) -> forall s, vec_is i v s -> vec_is i v (after E ks s).
  Proof.
    induction ks as [|k ks IH]; intros Hk s HQ; [exact HQ|]. cbn [after fold_left].
    apply IH; [intros k' Hk'; apply Hk; right; exact Hk'|]. apply vec_step; [apply Hk; left; reflexivity|exact HQ].
  Qed.
End Frames.
