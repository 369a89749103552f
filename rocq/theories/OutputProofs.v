(** OutputProofs.v -- the printing versions of OutputModel.v agree with the silent ones,
    and what they print. *)
From Coq Require Import Reals List ZArith Lia Bool String Floats.SpecFloat FunctionalExtensionality.
From Verif Require Import Base TimeModel FormModel SpaceTimeForms SpaceTimeModel ErrorsModel Lifecycle GmresModel DriverModel MonitorModel OutputModel.
Import ListNotations.
Open Scope list_scope.
Open Scope R_scope.
Open Scope monad_scope.

(** what a run from [s] prints *)
Definition outs {S A} (mo : M (S * list line) A) (s : S) : list line := snd (snd (mo (s, []))).
(** [mo] behaves as [m] and adds its lines at the end *)
Definition agrees {S A} (mo : M (S * list line) A) (m : M S A) : Prop :=
  forall s o, mo (s, o) = (fst (m s), (snd (m s), o ++ outs mo s)).

Section Agree.
  Context {S : Type}.
  Lemma agrees_at {A} (mo : M (S * list line) A) m l :
    (forall s o, mo (s, o) = (fst (m s), (snd (m s), o ++ l s))) -> agrees mo m /\ forall s, outs mo s = l s.
  Proof.
    intro H. assert (O1 : forall s, outs mo s = l s) by (intro s; unfold outs; rewrite H; reflexivity).
    split; [|exact O1]. intros s o. rewrite H, O1. reflexivity.
  Qed.
  Lemma agrees_quiet {A} (m : M S A) : agrees (quiet m) m.
  Proof. apply (agrees_at _ _ (fun _ => [])). intros s o. unfold quiet. destruct (m s). rewrite app_nil_r. reflexivity. Qed.
  Lemma outs_quiet {A} (m : M S A) s : outs (quiet m) s = [].
  Proof. unfold outs, quiet. destruct (m s). reflexivity. Qed.
  Lemma agrees_lift {A} (r : res A) : agrees (S := S) (lift r) (lift r).
  Proof. apply (agrees_at _ _ (fun _ => [])). intros s o. rewrite app_nil_r. reflexivity. Qed.
  Lemma outs_lift {A} (r : res A) (s : S) : outs (lift r) s = [].
  Proof. reflexivity. Qed.
  Lemma agrees_ret {A} (a : A) : agrees (S := S) (ret a) (ret a).
  Proof. apply (agrees_at _ _ (fun _ => [])). intros s o. rewrite app_nil_r. reflexivity. Qed.
  Lemma outs_ret {A} (a : A) (s : S) : outs (ret a) s = [].
  Proof. reflexivity. Qed.
  Lemma agrees_raise {A} e : agrees (S := S) (A := A) (raise e) (raise e).
  Proof. apply (agrees_at _ _ (fun _ => [])). intros s o. rewrite app_nil_r. reflexivity. Qed.
  Lemma outs_raise {A} e (s : S) : outs (A := A) (raise e) s = [].
  Proof. reflexivity. Qed.
  Lemma agrees_need {A} (x : option A) e : agrees (S := S) (need x e) (need x e).
  Proof. destruct x; [apply agrees_ret|apply agrees_raise]. Qed.
  Lemma outs_need {A} (x : option A) e (s : S) : outs (need x e) s = [].
  Proof. destruct x; reflexivity. Qed.
  Lemma agrees_print l : agrees (S := S) (print l) (ret tt).
  Proof. apply (agrees_at _ _ (fun _ => [l])). reflexivity. Qed.
  Lemma outs_print l (s : S) : outs (print l) s = [l].
  Proof. reflexivity. Qed.
  Lemma agrees_print_if b l : agrees (S := S) (print_if b l) (ret tt).
  Proof. destruct b; [apply agrees_print|apply agrees_ret]. Qed.
  Lemma outs_print_if b l (s : S) : outs (print_if b l) s = if b then [l] else [].
  Proof. destruct b; reflexivity. Qed.

  Lemma bind_both {A B} (mo : M (S * list line) A) m (fo : A -> M (S * list line) B) f :
    agrees mo m -> (forall a, agrees (fo a) (f a)) ->
    agrees (bind mo fo) (bind m f) /\
    forall s, outs (bind mo fo) s = outs mo s ++ match m s with (Ok a, s') => outs (fo a) s' | (Err _, _) => [] end.
  Proof.
    intros Hm Hf. apply agrees_at. intros s o. unfold bind. rewrite (Hm s o). destruct (m s) as [[a|e] s']; cbn [fst snd].
    - rewrite (Hf a s'). rewrite app_assoc. reflexivity.
    - rewrite app_nil_r. reflexivity.
  Qed.
  Lemma agrees_bind {A B} (mo : M (S * list line) A) m (fo : A -> M (S * list line) B) f :
    agrees mo m -> (forall a, agrees (fo a) (f a)) -> agrees (bind mo fo) (bind m f).
  Proof. intros Hm Hf. exact (proj1 (bind_both mo m fo f Hm Hf)). Qed.
  (** a print statement is not seen by the silent version *)
  Lemma agrees_say {A} (po : M (S * list line) unit) (mo : M (S * list line) A) m :
    agrees po (ret tt) -> agrees mo m -> agrees (po ;; mo) m.
  Proof. intros Hp Hm. exact (agrees_bind po (ret tt) (fun _ => mo) (fun _ => m) Hp (fun _ => Hm)). Qed.
  Lemma outs_bind {A B} (mo : M (S * list line) A) m (fo : A -> M (S * list line) B) s :
    agrees mo m ->
    (forall a, exists fa, agrees (fo a) fa) ->
    outs (bind mo fo) s = outs mo s ++ match m s with (Ok a, s') => outs (fo a) s' | (Err _, _) => [] end.
  Proof.
    intros Hm Hf. unfold outs at 1, bind. rewrite (Hm s []). destruct (m s) as [[a|e] s']; cbn [fst snd app].
    - destruct (Hf a) as [fa Ha]. rewrite (Ha s'). reflexivity.
    - rewrite app_nil_r. reflexivity.
  Qed.
  Lemma agrees_for {A B} (l : list A) (bo : A -> B -> M (S * list line) B) b :
    (forall a x, agrees (bo a x) (b a x)) -> forall x, agrees (for_acc l bo x) (for_acc l b x).
  Proof.
    intro H. induction l as [|a l IH]; intro x; cbn [for_acc]; [apply agrees_ret|].
    apply agrees_bind; [apply H|intro y; apply IH].
  Qed.
  Lemma agrees_if {A} (b : bool) (mo no : M (S * list line) A) m n :
    agrees mo m -> agrees no n -> agrees (if b then mo else no) (if b then m else n).
  Proof. destruct b; intros; assumption. Qed.
  Lemma agrees_ext {A} (mo : M (S * list line) A) m m' : agrees mo m -> (forall s, m s = m' s) -> agrees mo m'.
  Proof. intros H HE s o. rewrite <- HE. apply H. Qed.
End Agree.

Ltac agree1 :=
  lazymatch goal with
  | |- agrees (quiet _) _ => apply agrees_quiet
  | |- agrees (lift _) _ => apply agrees_lift
  | |- agrees (ret _) _ => apply agrees_ret
  | |- agrees (raise _) _ => apply agrees_raise
  | |- agrees (need _ _) _ => apply agrees_need
  | |- agrees (bind (print _) _) _ => apply agrees_say; [apply agrees_print|]
  | |- agrees (bind (print_if _ _) _) _ => apply agrees_say; [apply agrees_print_if|]
  | |- agrees (bind _ _) _ => apply agrees_bind; [|intro]
  | |- agrees (if _ then _ else _) _ => apply agrees_if
  | |- agrees (for_acc _ _ _) _ => apply agrees_for; intros
  end.
Ltac agree := repeat agree1.

Section Same.
  Variable E : env.

  Lemma agree_matrix D0 L0 om p : agrees (out_matrix E D0 L0 om p) (setup_spacetime_matrix E D0 L0 om p).
  Proof.
    eapply agrees_ext; [unfold out_matrix; agree|].
    intro s. unfold setup_spacetime_matrix, bind, lift. destruct (get_gammas (c_stab (e_c E))) as [g|e]; [|reflexivity].
    unfold fem_form, ret, raise. destruct (forallb _ _); [|reflexivity]. destruct (wf_bform _ _ _); [|reflexivity].
    destruct (existsb _ _); reflexivity.
  Qed.
  Lemma agree_build p : agrees (out_build E p) (build_spacetime E p).
  Proof.
    unfold out_build, build_spacetime. agree; [apply agree_matrix|]. match goal with p : matrix * bform |- _ => destruct p as [A f] end. agree.
  Qed.
  Lemma agree_get_matrix p : agrees (out_get_matrix E p) (get_spacetime_matrix E p).
  Proof. unfold out_get_matrix, get_spacetime_matrix. agree. destruct (s_stm a); [agree|apply agree_build]. Qed.
  Lemma agree_get_bfi p : agrees (out_get_bfi E p) (get_spacetime_bfi E p).
  Proof. unfold out_get_bfi, get_spacetime_bfi. agree. destruct (s_stb a); [agree|apply agree_build]. Qed.
  Lemma agree_rhs : agrees (out_rhs E) (setup_rhs E).
  Proof. unfold out_rhs, setup_rhs. agree. Qed.
  Lemma agree_get_rhs : agrees (out_get_rhs E) (get_spacetime_rhs E).
  Proof. unfold out_get_rhs, get_spacetime_rhs. agree. destruct (s_rhs a); [agree|apply agree_rhs]. Qed.
  Lemma agree_get_lfi : agrees (out_get_lfi E) (get_spacetime_lfi E).
  Proof. unfold out_get_lfi, get_spacetime_lfi. agree. destruct (s_lfi a); [agree|apply agree_rhs]. Qed.
  Lemma agree_prepare : agrees (out_prepare E) (prepare_precondition_gmres E).
  Proof. unfold out_prepare, prepare_precondition_gmres. agree. apply agree_rhs. Qed.
  Lemma agree_coarse K : agrees (out_coarse E K) (prepare_coarse E K).
  Proof.
    unfold out_coarse, prepare_coarse. agree; [apply agree_matrix|]. match goal with p : matrix * bform |- _ => destruct p as [A f] end. agree.
  Qed.

  Lemma agree_sample v n tn us um t acc : agrees (out_sample E v n tn us um t acc) (lift (me_sample E n tn us um t acc)).
  Proof.
    unfold out_sample, me_sample. destruct (in_slab E tn t); [|agree].
    eapply agrees_ext; [agree|]. intro s. unfold bind, lift, rbind, ret.
    destruct (py_sqrt _); [|reflexivity]. destruct (py_sqrt _); reflexivity.
  Qed.
  Lemma samples_for n tn us um ts : forall acc s,
    lift (me_samples E n tn us um ts acc) s = for_acc ts (fun t acc => lift (me_sample E n tn us um t acc)) acc s :> res _ * state.
  Proof.
    induction ts as [|t ts IH]; intros acc s; [reflexivity|]. cbn [for_acc me_samples]. unfold bind, lift.
    destruct (me_sample E n tn us um t acc) as [a|e]; cbn [rbind]; [|reflexivity]. rewrite <- IH. reflexivity.
  Qed.
  Lemma agree_slab v n acc : agrees (out_slab E v n acc) (me_slab E n acc).
  Proof.
    unfold out_slab, me_slab. agree.
    eapply agrees_ext; [apply agrees_for; intros; apply agree_sample|]. intro s. symmetry. apply samples_for.
  Qed.
  Lemma agree_errors v u : agrees (out_errors E v u) (measured_errors E u).
  Proof. unfold out_errors, measured_errors. agree. apply agree_slab. Qed.

  Lemma agree_step v k : agrees (out_step E v k) (step E k).
  Proof.
    destruct k; try apply agrees_quiet; cbn [out_step step]; unfold out_answers, answers, done.
    - agree. apply agree_matrix.
    - agree. apply agree_get_matrix.
    - agree. apply agree_get_bfi.
    - agree. apply agree_rhs.
    - agree. apply agree_get_rhs.
    - agree. apply agree_get_lfi.
    - agree. apply agree_prepare.
    - agree. apply agree_coarse.
    - agree. apply agree_errors.
  Qed.
  Lemma agree_run v ks : forall s o, exists l, out_run E v ks (s, o) = (after E ks s, o ++ l).
  Proof.
    induction ks as [|k ks IH]; intros s o; [exists []; rewrite app_nil_r; reflexivity|].
    cbn [out_run]. rewrite (agree_step v k s o). cbn [snd].
    destruct (IH (snd (step E k s)) (o ++ outs (out_step E v k) s)) as [l Hl]. rewrite Hl.
    exists (outs (out_step E v k) s ++ l). rewrite app_assoc. reflexivity.
  Qed.

  Lemma agree_ksp mon n p : agrees (out_ksp E mon n p) (run_ksp state s_heap (fun i v => modify (put i v)) (wrapper_mult E) (wrapper_apply E) n (forget p)).
  Proof. induction p; cbn [out_ksp forget run_ksp]; agree; auto. Qed.
  Variable ext : kspcfg -> nat -> nat -> nat -> kspm.
  Definition ext0 : kspcfg -> nat -> nat -> nat -> ksp := fun c n b x => forget (ext c n b x).
  Lemma agree_gmres db n b xa m t r p rt : agrees (out_gmres E ext db n b xa m t r p rt) (gmres_spacetime E ext0 db n b xa m t r p rt).
  Proof. unfold out_gmres, gmres_spacetime, get_gmres_solution. agree. apply agree_ksp. Qed.

  Variables (lu : matrix -> solver) (pard : matrix -> res solver) (ev : vec -> R -> R) (pt : nat -> list R) (db : optdb)
    (elapsed memory : R).
  Lemma agree_setup : agrees (out_setup E) (driver_setup E).
  Proof. unfold out_setup, driver_setup. agree; [apply agree_prepare|apply agree_get_rhs]. Qed.
  Lemma agree_solve_gmres b xa : agrees (out_solve_gmres E ext db b xa) (solve_with_gmres E ext0 db b xa).
  Proof. unfold out_solve_gmres, solve_with_gmres. agree. apply agree_gmres. Qed.
  Lemma agree_solve d st b xa m : agrees (out_solve E ext lu pard ev pt db elapsed d st b xa m) (solve_problem E ext0 lu pard ev pt db d st b xa m).
  Proof.
    unfold out_solve, solve_problem. destruct st; agree; try apply agree_solve_gmres; try apply agree_errors.
    apply agree_get_matrix.
  Qed.
  (** the whole program without printing *)
  Definition main (d : driver) (st : solver_type) (xa : nat) : M state unit :=
    do b <- driver_setup E;
    do b <- need b AttributeError;
    solve_problem E ext0 lu pard ev pt db d st b xa true.
  Lemma agree_main d st nx xa : agrees (out_main E ext lu pard ev pt db elapsed memory d st nx xa) (main d st xa).
  Proof.
    eapply agrees_ext; [unfold out_main; agree; [destruct d; first [apply agrees_print|apply agrees_ret]|apply agree_setup|apply agree_solve|apply agrees_print]|].
    intro s. unfold main, bind, ret, print. 
    assert (X : forall (r : res unit * state), match r with (Ok _, s') => (Ok tt, s') | (Err e, s') => (Err e, s') end = r)
      by (intros [[[]|]]; reflexivity).
    destruct (driver_setup E s) as [[[b|]|e] s1]; try reflexivity. cbn [need]. unfold ret. apply X.
  Qed.
End Same.
