(** Props_World.v -- property C79: several SpaceTime objects in one program. *)
From Coq Require Import String Reals List ZArith Lra Lia Bool.
From Verif Require Import Base TimeModel FormModel FormSpec FormTime FormProofs SpaceTimeForms SpaceTimeModel ErrorsModel Lifecycle LifeProofs LifeFrames FormExample OpsExample Props_Life WorldModel.
Import ListNotations.
Open Scope R_scope.

Lemma upd_same {A} (f : nat -> A) i a : upd f i a i = a.
Proof. unfold upd. rewrite Nat.eqb_refl. reflexivity. Qed.
Lemma upd_other {A} (f : nat -> A) i a j : j <> i -> upd f i a j = f j.
Proof. intro H. unfold upd. destruct (Nat.eqb_spec j i); [contradiction|reflexivity]. Qed.
Lemma nth_replace_same {A} (l : list A) : forall i a b, nth_error l i = Some b -> nth_error (replace l i a) i = Some a.
Proof. induction l as [|x l IH]; intros [|i] a b H; try discriminate H; cbn; [reflexivity|]. exact (IH i a b H). Qed.
Lemma nth_replace_other {A} (l : list A) : forall i j a, i <> j -> nth_error (replace l i a) j = nth_error l j.
Proof. induction l as [|x l IH]; intros [|i] [|j] a H; try reflexivity; cbn; [lia|]. apply IH. lia. Qed.
Lemma w_om_same s : w_om (s_om s) s = s.
Proof. destruct s. reflexivity. Qed.
Lemma env_stab_same E : env_stab (c_stab (e_c E)) E = E.
Proof. destruct E as [[] ? ? ? ? ?]. reflexivity. Qed.
Lemma env_stab_eq d E : d = c_stab (e_c E) -> env_stab d E = E.
Proof. intros ->. apply env_stab_same. Qed.

(** The calls a history makes on object number i. *)
Definition own (i : nat) (ks : list wcall) : list call :=
  flat_map (fun k => match k with On j k => if Nat.eqb j i then [k] else [] | _ => [] end) ks.

(** What the rest of the program must not do to the arguments of an object with
    data domain [d], dictionary [s] and mesh [m]: assign to their attributes;
    and, if the domain is marked as fitted, build an object with it on another
    mesh.  Everything else is allowed, sharing included. *)
Definition leaves_alone (fitted : bool) (d s m : nat) (k : wcall) : Prop :=
  match k with
  | New_object _ m' _ _ _ _ _ d' _ _ _ => fitted = true -> d' = d -> m' = m
  | On _ _ => True
  | Set_indicator d' _ => d' <> d
  | Set_fitted d' _ => d' <> d
  | Set_weight s' _ _ => s' <> s
  end.

Section World.
  Variable foreign : nat -> nat -> nat -> R.
  Notation wstep := (wstep foreign).
  Notation wafter := (wafter foreign).
  Notation wreturns := (wreturns foreign).
  Notation read := (read foreign).

  (** A call on one object changes neither another object nor a shared argument. *)
  Theorem C79_isolation : forall w i k,
    let w' := snd (wstep (On i k) w) in
    w_dom w' = w_dom w /\ w_dict w' = w_dict w /\ length (w_obj w') = length (w_obj w) /\
    forall j, j <> i -> nth_error (w_obj w') j = nth_error (w_obj w) j.
  Proof.
    intros w i k. cbn [WorldModel.wstep]. destruct (nth_error (w_obj w) i) as [o|] eqn:E; [|repeat split; reflexivity].
    destruct (step _ k _) as [r s]. cbn [snd w_dom w_dict w_obj]. split; [reflexivity|]. split; [reflexivity|]. split.
    - clear. revert i. induction (w_obj w) as [|x l IH]; intros [|i]; cbn; try reflexivity. f_equal. apply IH.
    - intros j Hj. apply nth_replace_other. lia.
  Qed.

  (** a name that no constructor call has bound: NameError, and nothing changes *)
  Theorem C79_unbound : forall w i k, (length (w_obj w) <= i)%nat -> wstep (On i k) w = (Err NameError, w).
  Proof.
    intros w i k H. cbn [WorldModel.wstep]. destruct (nth_error (w_obj w) i) eqn:E; [|reflexivity].
    apply nth_error_None in H. congruence.
  Qed.

  (** the caller's own assignments change the attribute or entry named, of the domain or
      dictionary named, and no object *)
  Theorem C79_assignments : forall w d,
    (forall f, let w' := snd (wstep (Set_indicator d f) w) in
      d_ind (w_dom w' d) = Given f /\ d_fitted (w_dom w' d) = d_fitted (w_dom w d)
      /\ (forall d', d' <> d -> w_dom w' d' = w_dom w d') /\ w_dict w' = w_dict w /\ w_obj w' = w_obj w) /\
    (forall b, let w' := snd (wstep (Set_fitted d b) w) in
      d_fitted (w_dom w' d) = b /\ d_ind (w_dom w' d) = d_ind (w_dom w d)
      /\ (forall d', d' <> d -> w_dom w' d' = w_dom w d') /\ w_dict w' = w_dict w /\ w_obj w' = w_obj w) /\
    (forall n x, let w' := snd (wstep (Set_weight d n x) w) in
      w_dict w' d n = x /\ (forall m, m <> n -> w_dict w' d m = w_dict w d m)
      /\ (forall d', d' <> d -> w_dict w' d' = w_dict w d') /\ w_dom w' = w_dom w /\ w_obj w' = w_obj w).
  Proof.
    intros w d. split; [|split].
    - intros f w'. unfold w'. cbn. rewrite upd_same. repeat split. intros d' H. apply upd_other, H.
    - intros b w'. unfold w'. cbn. rewrite upd_same. repeat split. intros d' H. apply upd_other, H.
    - intros n x w'. unfold w'. cbn. rewrite upd_same. rewrite String.eqb_refl. split; [reflexivity|].
      split; [|split; [intros d' H; apply upd_other, H|split; reflexivity]].
      intros m H. destruct (String.eqb_spec m n); [congruence|reflexivity].
  Qed.

  (** a constructor that raises has changed nothing *)
  Theorem C79_failed_constructor : forall w P m D Lf Lp Lc Lb d s heap next e,
    wreturns (New_object P m D Lf Lp Lc Lb d s heap next) w = Err e ->
    snd (wstep (New_object P m D Lf Lp Lc Lb d s heap next) w) = w.
  Proof.
    intros w P m D Lf Lp Lc Lb d s heap next e. unfold WorldModel.wreturns. cbn [WorldModel.wstep]. unfold new_object.
    destruct (construct _); [discriminate|reflexivity].
  Qed.

  Definition consistent (E : env) (fitted : bool) (d s m : nat) (w : world) (i : nat) (st : state) : Prop :=
    nth_error (w_obj w) i = Some (mkObj E m d s st) /\
    d_fitted (w_dom w d) = fitted /\ (fitted = true -> d_ind (w_dom w d) = Zero_on m) /\
    s_om st = read (d_ind (w_dom w d)) m /\ w_dict w s = c_stab (e_c E).

  Lemma consistent_step E fitted d s m w i st k : consistent E fitted d s m w i st -> leaves_alone fitted d s m k ->
    consistent E fitted d s m (snd (wstep k w)) i (after E (own i [k]) st).
  Proof.
    intros [H1 [H2 [H3 [H4 H5]]]] Hk. destruct k as [P m' D Lf Lp Lc Lb d' s' heap next|j k|d' f|d' b|s' n x];
      cbn [own flat_map app leaves_alone] in *; cbn [WorldModel.wstep].
    - unfold new_object. destruct (construct _) as [c|e]; cbn [snd after fold_left]; [|repeat split; assumption].
      assert (HD : upd (w_dom w) d' (mkDom (if d_fitted (w_dom w d') then Zero_on m' else d_ind (w_dom w d')) (d_fitted (w_dom w d'))) d
        = w_dom w d).
      { destruct (Nat.eq_dec d' d) as [->|Hd].
        - rewrite upd_same. rewrite H2. destruct fitted.
          + rewrite (Hk eq_refl eq_refl). rewrite <- (H3 eq_refl). rewrite <- H2. destruct (w_dom w d); reflexivity.
          + rewrite <- H2. destruct (w_dom w d); reflexivity.
        - apply upd_other. lia. }
      unfold consistent. cbn [w_dom w_dict w_obj]. rewrite HD. split; [|repeat split; assumption].
      rewrite nth_error_app1; [exact H1|]. apply nth_error_Some. rewrite H1. discriminate.
    - destruct (Nat.eqb_spec j i) as [->|Hj].
      + rewrite H1. cbn [o_E o_mesh o_dom o_dict o_st]. rewrite <- H4, w_om_same, (env_stab_eq _ _ H5).
        cbn [after fold_left app]. pose proof (om_step E (s_om st) k st eq_refl) as Hom. unfold okat, om_is in Hom.
        destruct (step E k st) as [r s']. cbn [snd] in *. unfold consistent. cbn [w_dom w_dict w_obj].
        split; [exact (nth_replace_same _ _ _ _ H1)|]. rewrite Hom. repeat split; assumption.
      + pose proof (C79_isolation w j k) as [I1 [I2 [_ I4]]]. cbn [WorldModel.wstep] in I1, I2, I4. cbn [after fold_left].
        unfold consistent. rewrite I1, I2, (I4 i ltac:(lia)). repeat split; assumption.
    - cbn [snd after fold_left]. unfold consistent. cbn [w_dom w_dict w_obj]. rewrite upd_other by lia. repeat split; assumption.
    - cbn [snd after fold_left]. unfold consistent. cbn [w_dom w_dict w_obj]. rewrite upd_other by lia. repeat split; assumption.
    - cbn [snd after fold_left]. unfold consistent. cbn [w_dom w_dict w_obj]. rewrite upd_other by lia. repeat split; assumption.
  Qed.
  Lemma own_cons i k ks : own i (k :: ks) = own i [k] ++ own i ks.
  Proof. unfold own. cbn [flat_map]. rewrite app_nil_r. reflexivity. Qed.
  Lemma consistent_after E fitted d s m i ks : List.Forall (leaves_alone fitted d s m) ks -> forall w st,
    consistent E fitted d s m w i st -> consistent E fitted d s m (wafter ks w) i (after E (own i ks) st).
  Proof.
    induction 1 as [|k ks Hk _ IH]; intros w st H; [exact H|].
    rewrite own_cons. unfold after. rewrite fold_left_app. apply IH. apply consistent_step; assumption.
  Qed.
  Lemma consistent_new w P m D Lf Lp Lc Lb d s heap next c : construct (params_stab (w_dict w s) P) = Ok c ->
    consistent (mkEnv c D Lf Lp Lc Lb) (d_fitted (w_dom w d)) d s m
      (snd (wstep (New_object P m D Lf Lp Lc Lb d s heap next) w)) (length (w_obj w))
      (init_state (d_fitted (w_dom w d)) (read (d_ind (w_dom w d)) m) heap next).
  Proof.
    intro HC. cbn [WorldModel.wstep]. unfold new_object. rewrite HC. cbn [snd]. unfold consistent. cbn [w_dom w_dict w_obj e_c].
    rewrite upd_same. cbn [d_ind d_fitted]. split.
    { rewrite nth_error_app2 by lia. rewrite Nat.sub_diag. reflexivity. }
    split; [reflexivity|]. split; [intros ->; reflexivity|]. split.
    - cbn [s_om init_state]. destruct (d_fitted (w_dom w d)); [|reflexivity]. cbn [WorldModel.read]. rewrite Nat.eqb_refl. reflexivity.
    - rewrite (bu_stab _ _ (construct_inv _ _ HC)). reflexivity.
  Qed.

  (** As long as the rest of the program leaves its arguments alone, an object
      behaves as if it were the only one: its state is what its own calls make
      of the state the constructor left, and every call on it returns what it
      returns in the single-object model.  So whatever is proved of one object
      under every sequence of calls holds in a program with any number of them. *)
  Theorem C79_as_if_alone : forall w P m D Lf Lp Lc Lb d s heap next c ks,
    construct (params_stab (w_dict w s) P) = Ok c ->
    let E := mkEnv c D Lf Lp Lc Lb in
    let fitted := d_fitted (w_dom w d) in
    let i := length (w_obj w) in
    let s0 := init_state fitted (read (d_ind (w_dom w d)) m) heap next in
    List.Forall (leaves_alone fitted d s m) ks ->
    let w' := wafter (New_object P m D Lf Lp Lc Lb d s heap next :: ks) w in
    nth_error (w_obj w') i = Some (mkObj E m d s (after E (own i ks) s0)) /\
    forall k, wreturns (On i k) w' = returns E k (after E (own i ks) s0).
  Proof.
    intros w P m D Lf Lp Lc Lb d s heap next c ks HC E fitted i s0 HK w'.
    pose proof (consistent_after E fitted d s m i ks HK _ s0 (consistent_new w P m D Lf Lp Lc Lb d s heap next c HC)) as H.
    change (consistent E fitted d s m w' i (after E (own i ks) s0)) in H. destruct H as [H1 [_ [_ [H4 H5]]]].
    split; [exact H1|]. intro k. unfold WorldModel.wreturns. cbn [WorldModel.wstep]. rewrite H1.
    cbn [o_E o_mesh o_dom o_dict o_st]. rewrite <- H4, w_om_same, (env_stab_eq _ _ H5).
    unfold returns. destruct (step E k (after E (own i ks) s0)). reflexivity.
  Qed.

  (** The converse dangers.  First: the constructor overwrites the indicator of a
      fitted domain, and only a new assignment by the caller brings it back. *)
  Theorem C79_fitted_forgets : forall w P m D Lf Lp Lc Lb d s heap next c ks,
    construct (params_stab (w_dict w s) P) = Ok c -> d_fitted (w_dom w d) = true ->
    (forall f, ~ In (Set_indicator d f) ks) ->
    exists m', d_ind (w_dom (wafter (New_object P m D Lf Lp Lc Lb d s heap next :: ks) w) d) = Zero_on m'.
  Proof.
    intros w P m D Lf Lp Lc Lb d s heap next c ks HC Hf HK. unfold WorldModel.wafter. cbn [fold_left].
    set (w1 := snd (wstep _ w)).
    assert (H : exists m', d_ind (w_dom w1 d) = Zero_on m').
    { exists m. unfold w1. cbn [WorldModel.wstep]. unfold new_object. rewrite HC. cbn [snd w_dom]. rewrite upd_same, Hf. reflexivity. }
    clearbody w1. revert w1 H. induction ks as [|k ks IH]; intros w1 H; [exact H|]. cbn [fold_left]. apply IH.
    { intros f Hin. apply (HK f). right. exact Hin. }
    destruct H as [m' H]. destruct k as [P0 m0 D0 Lf0 Lp0 Lc0 Lb0 d0 s0 heap0 next0|j k|d0 f|d0 b|s0 n x].
    - cbn [WorldModel.wstep]. unfold new_object. destruct (construct (params_stab (w_dict w1 s0) P0)); [|exists m'; exact H]. cbn [snd w_dom].
      destruct (Nat.eq_dec d0 d) as [->|Hd]; [rewrite upd_same; cbn [d_ind]|rewrite upd_other by lia; exists m'; exact H].
      destruct (d_fitted (w_dom w1 d)); [exists m0; reflexivity|exists m'; exact H].
    - destruct (C79_isolation w1 j k) as [-> _]. exists m'. exact H.
    - destruct (Nat.eq_dec d0 d) as [->|Hd]; [exfalso; apply (HK f); left; reflexivity|].
      cbn [WorldModel.wstep snd w_dom]. rewrite upd_other by lia. exists m'. exact H.
    - cbn [WorldModel.wstep snd w_dom]. destruct (Nat.eq_dec d0 d) as [->|Hd]; [rewrite upd_same; exists m'; exact H|].
      rewrite upd_other by lia. exists m'. exact H.
    - cbn [WorldModel.wstep snd w_dom]. exists m'. exact H.
  Qed.
  (** So marking the domain as unfitted afterwards and building a second object on
      the same mesh gives an object without data, whatever the indicator was. *)
  Theorem C79_unfitted_too_late : forall w P m D Lf Lp Lc Lb d s heap next c P' D' Lf' Lp' Lc' Lb' heap' next' c',
    construct (params_stab (w_dict w s) P) = Ok c -> construct (params_stab (w_dict w s) P') = Ok c' ->
    d_fitted (w_dom w d) = true ->
    nth_error (w_obj (wafter [New_object P m D Lf Lp Lc Lb d s heap next; Set_fitted d false;
                              New_object P' m D' Lf' Lp' Lc' Lb' d s heap' next'] w)) (S (length (w_obj w)))
    = Some (mkObj (mkEnv c' D' Lf' Lp' Lc' Lb') m d s (init_state false (fun _ => 0) heap' next')).
  Proof.
    intros w P m D Lf Lp Lc Lb d s heap next c P' D' Lf' Lp' Lc' Lb' heap' next' c' HC HC' Hf.
    unfold WorldModel.wafter. cbn [fold_left WorldModel.wstep]. unfold new_object. rewrite HC, Hf. cbn [snd w_dom w_dict w_obj].
    rewrite HC'. cbn [snd w_obj w_dom]. rewrite !upd_same. cbn [d_ind d_fitted WorldModel.read].
    rewrite Nat.eqb_refl. rewrite nth_error_app2; rewrite app_length; cbn [length]; [|lia].
    replace (S (length (w_obj w)) - (length (w_obj w) + 1))%nat with 0%nat by lia. reflexivity.
  Qed.

  (** Second: building an object with the same fitted domain on another mesh
      leaves the first object with a function that lives on the other mesh. *)
  Theorem C79_two_meshes : forall w P m D Lf Lp Lc Lb d s heap next c i o,
    construct (params_stab (w_dict w s) P) = Ok c -> d_fitted (w_dom w d) = true ->
    nth_error (w_obj w) i = Some o -> o_dom o = d -> o_mesh o <> m ->
    let w' := snd (wstep (New_object P m D Lf Lp Lc Lb d s heap next) w) in
    nth_error (w_obj w') i = Some o /\ read (d_ind (w_dom w' (o_dom o))) (o_mesh o) = foreign m (o_mesh o).
  Proof.
    intros w P m D Lf Lp Lc Lb d s heap next c i o HC Hf Ho Hd Hm w'. unfold w'. cbn [WorldModel.wstep]. unfold new_object. rewrite HC.
    cbn [snd w_obj w_dom]. split.
    - rewrite nth_error_app1; [exact Ho|]. apply nth_error_Some. rewrite Ho. discriminate.
    - rewrite Hd, upd_same, Hf. cbn [d_ind WorldModel.read]. destruct (Nat.eqb_spec m (o_mesh o)); [congruence|reflexivity].
  Qed.

  (** Third: a change of the shared weights reaches an object only at its next
      assembly.  A stored matrix is handed out as it is. *)
  Theorem C79_stale_matrix : forall w s n x i o A p,
    nth_error (w_obj w) i = Some o -> s_stm (o_st o) = Some A ->
    wreturns (On i (Get_matrix p)) (snd (wstep (Set_weight s n x) w)) = Ok (AMat (Some A)).
  Proof.
    intros w s n x i o A p Ho HA. unfold WorldModel.wreturns. cbn [WorldModel.wstep snd w_obj w_dict w_dom]. rewrite Ho.
    cbn [step]. unfold answers, get_spacetime_matrix, bind, get, ret. cbn [s_stm w_om]. rewrite HA. cbn [fst s_stm w_om]. rewrite HA. reflexivity.
  Qed.
End World.

(** * The hypotheses hold in a program of three objects, two of which share a
    fitted domain, one mesh and the weights. *)
Definition exNew (d s : nat) (m : nat) (D : disc) (E : env) : wcall :=
  New_object (exP 1 0 4 false false) m D (e_Lf E) (e_Lp E) (e_Lc E) (e_Lb E) d s (fun _ => vzero) 5.
Definition exW : world :=
  mkWorld (fun _ => mkDom (Given (fun _ _ => 1)) true) (fun _ => p_stab (exP 1 0 4 false false)) [].
Example C79_nonvacuous : exists c, construct (params_stab (w_dict exW 0) (exP 1 0 4 false false)) = Ok c /\
  let E := exE exI c in
  List.Forall (leaves_alone true 0 0 7)
    [exNew 0 0 7 exI E; exNew 1 0 8 exI E; On 0 Setup_fes; On 1 Prepare; Set_indicator 1 (fun _ _ => 0);
     On 2 Setup_fes; On 1 Setup_fes; On 0 (Get_matrix false); Set_weight 1 "data" (Some 2)] /\
  own 0 [exNew 0 0 7 exI E; exNew 1 0 8 exI E; On 0 Setup_fes; On 1 Prepare; Set_indicator 1 (fun _ _ => 0);
     On 2 Setup_fes; On 1 Setup_fes; On 0 (Get_matrix false); Set_weight 1 "data" (Some 2)] = [Setup_fes; Get_matrix false].
Proof.
  destruct (exP_ok 1 0 4 false false) as [c HC]; try lia. exists c. split; [exact HC|]. cbv zeta. split; [|reflexivity].
  repeat constructor; cbn; try congruence; try lia.
Qed.

Print Assumptions C79_isolation.
Print Assumptions C79_unbound.
Print Assumptions C79_assignments.
Print Assumptions C79_failed_constructor.
Print Assumptions C79_as_if_alone.
Print Assumptions C79_fitted_forgets.
Print Assumptions C79_unfitted_too_late.
Print Assumptions C79_two_meshes.
Print Assumptions C79_stale_matrix.
