(** Props_OutputRun.v -- property C93, continued: the table printed with verbose=True, and
    whole runs. *)
From Coq Require Import Reals List ZArith Lra Lia Bool String Floats.SpecFloat FunctionalExtensionality.
From Verif Require Import Base TimeModel TimeSpec TimeProofs QuadProofs FormModel FormSpec FormProofs
  SpaceTimeForms FormBlocks FormTime FormC12 FormStruct FormExample Props_Forms
  SpaceTimeModel SlabOps ApplyProofs MarchProofs MarchSum MarchLoops Lifecycle LifeProofs OpsProofs SetupOk LinAlg OpsExample WellPosed Injective Props_Ops
  ErrorsModel ErrorsSpec ErrorsProofs Props_Errors
  GmresModel Props_Gmres FormSym Props_WellPosed Stability Props_Stability Observe Props_Observe Krylov Delivered Props_Krylov
  DriverModel DriverConfig Props_Life Props_Solve Props_Config Space1D NoData Elliptic1D Props_Space1D Vanish Props_Vanish Props_Smoke
  MonitorModel OutputModel OutputProofs Props_Output.
Import ListNotations.
Open Scope list_scope.
Open Scope R_scope.
Open Scope monad_scope.

Lemma rows_eq : forall l l' : list row, map r_t l = map r_t l' -> map r_u l = map r_u l' -> map r_ut l = map r_ut l' -> l = l'.
Proof.
  induction l as [|[a b c] l IH]; intros [|[a' b' c'] l'] H1 H2 H3; try discriminate; [reflexivity|].
  cbn [map r_t r_u r_ut] in *. injection H1 as -> H1. injection H2 as -> H2. injection H3 as -> H3. f_equal. apply IH; assumption.
Qed.
Lemma map_flat {A B C} (f : B -> C) (g : A -> list B) l : map f (flat_map g l) = flat_map (fun a => map f (g a)) l.
Proof. induction l as [|a l IH]; [reflexivity|]. cbn [flat_map]. rewrite map_app, IH. reflexivity. Qed.
Lemma flat_ext {A B} (f g : A -> list B) l : (forall a, f a = g a) -> flat_map f l = flat_map g l.
Proof. intro H. induction l as [|a l IH]; [reflexivity|]. cbn [flat_map]. rewrite H, IH. reflexivity. Qed.

(** the sample times of the n-th slab *)
Definition slab_samples (P : params) (n : nat) : list R :=
  filter (fun t => if Rle_dec (INR n * (p_T P / INR (p_N P))) t then
                   if Rle_dec t (INR n * (p_T P / INR (p_N P)) + p_T P / INR (p_N P)) then true else false else false)
    (map (sample P) (seq 0 105)).
Lemma slab_samples_eq P E n : construct P = Ok (e_c E) -> slab_samples P n = times_of E n.
Proof.
  intro HC. pose proof (construct_inv _ _ HC) as HB. unfold slab_samples, times_of. rewrite (bu_dt _ _ HB), (bu_samples _ _ HB).
  reflexivity.
Qed.
(** With verbose=True the table has one row for every slab and every sample time in it: the
    time, the L2 error of the reconstruction and that of its time derivative in this slab. *)
Theorem C93_rows : forall P E u s, construct P = Ok (e_c E) -> env_ok E -> 0 < p_T P -> nonneg_dx (e_D E) -> s_fes s = true ->
  exists e s', prints (out_step E true (Measure u)) s (Ok (AErr e)) s'
    ([[T "t = "; V (p_T P); T ", L2-error = "; V (e_at P E u s (p_N P - 1) (p_T P)); T " "]]
     ++ flat_map (fun n => map (fun t => [T "t = "; V t; T ", L2-error u = "; V (e_at P E u s n t); T ", L2-error u_t = "; V (de_at P E u s n t); T " "])
          (slab_samples P n)) (seq 0 (p_N P))
     ++ foot_lines e) /\ measured_errors E u s = (Ok e, s').
Proof.
  intros P E u s HC HE HT Hw Hf. pose proof (construct_inv _ _ HC) as HB.
  destruct (measured P E HC HE HT Hw u s Hf) as [e [s' [HM [_ [ET _]]]]]. exists e, s'. split; [|exact HM].
  destruct (outs_errors E true u s e s' HM) as [rows [R1 [_ [_ [[tot [s1 [s2 [L1 L2]]]] RO]]]]].
  apply (prints_agrees _ (step E (Measure u))); [apply agree_step|cbn [step]; unfold answers, bind, ret; rewrite HM; reflexivity|].
  cbn [out_step]. rewrite (outs_answers _ _ _ _ (agree_errors E true u)), RO. unfold head_line. rewrite ET, (bu_T _ _ HB). cbn [app]. f_equal. f_equal.
  assert (U1 : s_uh s1 = s_heap s u).
  { unfold load_solution in L1. unfold bind, need_fes, get, err_if, bind, modify in L1. rewrite Hf in L1. cbn [negb] in L1. unfold ret in L1. injection L1 as <-. reflexivity. }
  destruct (loop_measure P E HB HE (m_dt P E HB HT) Hw (s_heap s u) (seq 0 (c_N (e_c E))) (([], []), 0) s1) as [s3 [L3 _]]; [intros n Hn; apply in_seq in Hn; lia|exact U1|].
  rewrite L2 in L3. injection L3 as A1 A2 _ _.
  assert (X : rows = flat_map (fun n => map (fun t => mkRow t (e_at P E u s n t) (de_at P E u s n t)) (slab_samples P n)) (seq 0 (p_N P))).
  { apply rows_eq.
    - rewrite R1. unfold all_times. rewrite map_flat, (bu_NP _ _ HB). apply flat_ext. intro n. rewrite map_map, map_id. symmetry. apply slab_samples_eq, HC.
    - rewrite A1. cbn [fst app]. unfold all_e. rewrite map_flat, (bu_NP _ _ HB). apply flat_ext. intro n. rewrite map_map. cbn [r_u]. rewrite (slab_samples_eq P E n HC), <- filter_in_slab.
      apply map_ext. intro t. unfold e_at. rewrite (tgrid_td _ _ HC), (bu_v _ _ HB). reflexivity.
    - rewrite A2. cbn [fst snd app]. unfold all_e. rewrite map_flat, (bu_NP _ _ HB). apply flat_ext. intro n. rewrite map_map. cbn [r_ut]. rewrite (slab_samples_eq P E n HC), <- filter_in_slab.
      apply map_ext. intro t. unfold de_at. rewrite (tgrid_td _ _ HC), (bu_dv _ _ HB). reflexivity. }
  rewrite X, map_flat. apply flat_ext. intro n. rewrite map_map. reflexivity.
Qed.

(** With t = T < 0 no sample time lies in a slab: every call prints the first line and fails. *)
Theorem C93_backwards : forall P E verbose u s, construct P = Ok (e_c E) -> p_T P < 0 -> nonneg_dx (e_D E) -> s_fes s = true ->
  exists x s', prints (out_step E verbose (Measure u)) s (Err ValueError) s'
    [[T "t = "; V (p_T P); T ", L2-error = "; V x; T " "]].
Proof.
  intros P E v u s HC HT Hw Hf. pose proof (construct_inv _ _ HC) as HB.
  assert (HN : 0 < INR (p_N P)). { apply lt_0_INR. rewrite <- (bu_NP _ _ HB). pose proof (bu_N _ _ HB). lia. }
  assert (Hd : c_dt (e_c E) < 0).
  { rewrite (bu_dt _ _ HB). unfold Rdiv. rewrite <- (Rmult_0_l (/ INR (p_N P))). apply Rmult_lt_compat_r; [apply Rinv_0_lt_compat; exact HN|exact HT]. }
  assert (HA : all_times E = []).
  { unfold all_times. induction (seq 0 (c_N (e_c E))) as [|n l IH]; [reflexivity|]. cbn [flat_map]. rewrite IH, app_nil_r. clear IH l.
    unfold times_of. induction (c_samples (e_c E)) as [|t ts IH]; [reflexivity|]. cbn [filter]. rewrite IH.
    destruct (Rle_dec (INR n * c_dt (e_c E)) t); [|reflexivity]. destruct (Rle_dec t (INR n * c_dt (e_c E) + c_dt (e_c E))); [lra|reflexivity]. }
  destruct (C93_no_samples E v u s HA Hf ltac:(lra)) as [x [s' H]].
  { intro f. rewrite (l2sq_dist E f f (fun _ => eq_refl)). apply (ErrorsProofs.dist2_nonneg E Hw). }
  exists x, s'. rewrite (bu_T _ _ HB) in H. exact H.
Qed.

(** an external solver that also reports a residual norm of 1/10 *)
Fixpoint silent (p : ksp) : kspm :=
  match p with
  | Halt o => MHalt o
  | KWrite i v k => MWrite i v (silent k)
  | KRead i k => MRead i (fun v => silent (k v))
  | KMult i o k => MMult i o (silent k)
  | KPrec i o k => MPrec i o (silent k)
  end.
Lemma forget_silent p : forget (silent p) = p.
Proof. induction p; cbn [silent forget]; f_equal; auto. apply functional_extensionality. auto. Qed.
Definition reporting (ext : kspcfg -> nat -> nat -> nat -> ksp) : kspcfg -> nat -> nat -> nat -> kspm :=
  fun c n b x => MMonitor 0 (S754_finite false 7205759403792794 (-56)) (silent (ext c n b x)).
Lemma reporting_same ext : ext0 (reporting ext) = ext.
Proof. do 4 (apply functional_extensionality; intro). unfold ext0, reporting. cbn [forget]. apply forget_silent. Qed.
Theorem C93_nonvacuous : exists E ext lu xa s s' u e s1 calls o, let P := st_params (setting_1d 1 32) in
  construct P = Ok (e_c E) /\ env_ok E /\ nonneg_dx (e_D E) /\ s_rhs s = None /\ s_stm s = None /\
  main E ext lu (fun _ => Err NameError) (fun _ _ => 0) (fun _ => nil) (fun _ => None) Driver1D (SOLVER_TYPE false) xa s = (Ok tt, s') /\
  measured_errors E u s1 = (Ok e, s') /\ (0 <= o_reason o)%Z /\
  prints (out_main E ext lu (fun _ => Err NameError) (fun _ _ => 0) (fun _ => nil) (fun _ => None) 12 1 Driver1D (SOLVER_TYPE false) 0 xa) s (Ok tt) s'
    (texts (gmres_output (fun _ => None) 100000 (Some 1e-7) None true None calls (Some o))
     ++ [[T "elapsed time  "; V 12; T " seconds"]; head_line E e] ++ foot_lines e ++ [[T "Memory usage in (Gb) = "; T " "; V 1]]).
Proof.
  destruct C78_smoke_nonvacuous as [E [s1 [b [lu [ext [xa [s' [t [r [t' H]]]]]]]]]]. cbv zeta in H.
  destruct H as [HR [HC [HE [HD [H1 [H2 _]]]]]].
  set (s := init_state true (fun _ => 1) (fun _ _ => 0) 0) in *.
  assert (HM : main E (reporting ext) lu (fun _ => Err NameError) (fun _ _ => 0) (fun _ => nil) (fun _ => None) Driver1D (SOLVER_TYPE false) xa s = (Ok tt, s')).
  { rewrite main_eq, reporting_same. rewrite (MarchLoops.bind_ok _ _ _ _ _ H1). exact H2. }
  destruct (C93_driver E (reporting ext) lu (fun _ => Err NameError) (fun _ _ => 0) (fun _ => nil) (fun _ => None) 12 1
    Driver1D (SOLVER_TYPE false) 0 xa s s' HM eq_refl eq_refl) as [u [e [s2 [l [M1 [L1 P1]]]]]].
  destruct L1 as [calls [o [O1 O2]]]. 
  exists E, (reporting ext), lu, xa, s, s', u, e, s2, calls, o. cbv zeta. split; [exact HC|]. split; [exact HE|]. split.
  { intros p Hp. rewrite HD in *. pose proof (mesh_1d 1 32 gauss3 ltac:(lia) ltac:(lia) gauss3_rule) as HMs.
    exact (rg_w _ _ (C75_regular _ _ _ _ _ _ (fun _ => 0) HMs ltac:(intros; lra)) Dx p Hp). }
  split; [reflexivity|]. split; [reflexivity|]. split; [exact HM|]. split; [exact M1|]. split; [exact O1|].
  rewrite O2 in P1. unfold nx_lines in P1. cbn [app] in P1.
  assert (X : rhs_lines E = []).
  { unfold rhs_lines, initial_data. rewrite (bu_wp _ _ (construct_inv _ _ HC)). reflexivity. }
  rewrite X in P1. exact P1.
Qed.

Print Assumptions C93_rows.
Print Assumptions C93_backwards.
Print Assumptions C93_nonvacuous.
