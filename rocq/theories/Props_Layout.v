(** Props_Layout.v -- property C88: the distribution of the solver's vectors. *)
From Coq Require Import Reals List ZArith Lra Lia Bool Permutation.
From Verif Require Import Base TimeModel FormModel FormSpec FormProofs SpaceTimeForms FormBlocks FormTime FormExample
  SpaceTimeModel SlabOps ApplyProofs OpsExample DriverModel DriverConfig Props_Config Space1D Injective Props_Space1D MpiModel Props_Mpi.
Import ListNotations.
Open Scope nat_scope.

(** * Counting *)
Definition nsum (n : nat) (f : nat -> nat) : nat := fold_right Nat.add 0 (map f (seq 0 n)).
Lemma nsum_ext n f g : (forall r, r < n -> f r = g r) -> nsum n f = nsum n g.
Proof. intro H. unfold nsum. f_equal. apply map_ext_in. intros a Ha. apply H. apply in_seq in Ha. lia. Qed.
Lemma fold_plus l : forall f g : nat -> nat, fold_right Nat.add 0 (map (fun r => f r + g r) l) = fold_right Nat.add 0 (map f l) + fold_right Nat.add 0 (map g l).
Proof. induction l as [|a l IH]; intros f g; cbn; [reflexivity|]. rewrite IH. lia. Qed.
Lemma fold_scal l a : forall f : nat -> nat, fold_right Nat.add 0 (map (fun r => a * f r) l) = a * fold_right Nat.add 0 (map f l).
Proof. induction l as [|b l IH]; intro f; cbn; [lia|]. rewrite IH. lia. Qed.
Lemma nsum_plus n f g : nsum n (fun r => f r + g r) = nsum n f + nsum n g.
Proof. apply fold_plus. Qed.
Lemma nsum_scal n a f : nsum n (fun r => a * f r) = a * nsum n f.
Proof. apply fold_scal. Qed.
Lemma nsum_const n m : nsum n (fun _ => m) = n * m.
Proof. unfold nsum. rewrite <- (seq_length n 0) at 2. generalize (seq 0 n). induction l as [|a l IH]; cbn; [reflexivity|]. rewrite IH. reflexivity. Qed.
Lemma nsum_one n k : k < n -> nsum n (fun r => if Nat.eqb k r then 1 else 0) = 1.
Proof.
  unfold nsum. intro H. assert (G : forall m s, fold_right Nat.add 0 (map (fun r => if Nat.eqb k r then 1 else 0) (seq s m)) = if (Nat.leb s k && Nat.ltb k (s + m))%bool then 1 else 0).
  { induction m as [|m IH]; intro s; cbn [seq map fold_right].
    - destruct (Nat.leb_spec s k), (Nat.ltb_spec k (s + 0)); cbn; try reflexivity; lia.
    - rewrite IH. destruct (Nat.eqb_spec k s), (Nat.leb_spec (S s) k), (Nat.ltb_spec k (S s + m)), (Nat.leb_spec s k), (Nat.ltb_spec k (s + S m)); cbn; try reflexivity; lia. }
  rewrite G. destruct (Nat.leb_spec 0 k), (Nat.ltb_spec k (0 + n)); cbn; try reflexivity; lia.
Qed.
Lemma filter_ranks n (rk : nat -> nat) l : (forall a, In a l -> rk a < n) -> nsum n (fun r => List.length (filter (fun a => Nat.eqb (rk a) r) l)) = List.length l.
Proof.
  induction l as [|a l IH]; intro H.
  - cbn. rewrite nsum_const. lia.
  - rewrite (nsum_ext n _ (fun r => (if Nat.eqb (rk a) r then 1 else 0) + List.length (filter (fun b => Nat.eqb (rk b) r) l))).
    + rewrite nsum_plus, nsum_one by (apply H; left; reflexivity). rewrite IH by (intros b Hb; apply H; right; exact Hb). reflexivity.
    + intros r _. cbn [filter]. destruct (Nat.eqb (rk a) r); reflexivity.
Qed.
Lemma owned_sum D S s : split_ok D S -> nsum (sp_n S) (fun r => List.length (owned D S r s)) = d_dim D s.
Proof.
  intro HS. unfold owned. rewrite (filter_ranks (sp_n S) (sp_owner S s)); [apply seq_length|].
  intros l Hl. apply (so_owner _ _ HS). apply in_seq in Hl. lia.
Qed.
Lemma flat_length {A B} (f : A -> list B) m l : (forall a, In a l -> List.length (f a) = m) -> List.length (flat_map f l) = List.length l * m.
Proof. induction l as [|a l IH]; intro H; cbn; [reflexivity|]. rewrite app_length, H, IH; [reflexivity| |left; reflexivity]. intros b Hb. apply H. right. exact Hb. Qed.
Lemma dofs_length nc L nodes : List.length (dofs_of 4 nc L nodes)
  = (nc 0 + nc 1) * List.length (nodes Vp) + (nc 2 + nc 3) * List.length (nodes Vd).
Proof.
  assert (C : forall j, List.length (flat_map (fun i => map (dof L j i) (nodes (spc j))) (seq 0 (nc j))) = nc j * List.length (nodes (spc j))).
  { intro j. rewrite (flat_length _ (List.length (nodes (spc j)))); [rewrite seq_length; reflexivity|]. intros. apply map_length. }
  unfold dofs_of. cbn [seq flat_map]. rewrite !app_length, !C. cbn. lia.
Qed.
Lemma layout_dim D nc L : lay_ok D 4 nc L -> lay_dim L = (nc 0 + nc 1) * d_dim D Vp + (nc 2 + nc 3) * d_dim D Vd.
Proof.
  intro HL. transitivity (List.length (all_dofs 4 nc L)).
  - assert (P : Permutation (all_dofs 4 nc L) (seq 0 (lay_dim L))).
    { apply NoDup_Permutation; [apply (wl_nodup _ _ _ _ HL)|apply seq_NoDup|]. intro I. rewrite (wl_range _ _ _ _ HL), in_seq. lia. }
    rewrite (Permutation_length P), seq_length. reflexivity.
  - assert (C : forall j, j < 4 -> List.length (flat_map (fun i => lay_sub L j i) (seq 0 (nc j))) = nc j * d_dim D (spc j)).
    { intros j Hj. rewrite (flat_length _ (d_dim D (spc j))); [rewrite seq_length; reflexivity|].
      intros i Hi. apply (wl_len _ _ _ _ HL); [exact Hj|]. apply in_seq in Hi. lia. }
    unfold all_dofs. cbn [seq flat_map]. rewrite !app_length, !C by lia. cbn. lia.
Qed.
(** PETSC_DECIDE is a distribution *)
Lemma share_sum n N : 1 <= n -> nsum n (petsc_share n N) = N.
Proof.
  intro Hn. unfold petsc_share. rewrite nsum_plus, nsum_const.
  assert (G : forall k m, k <= m -> nsum m (fun r => if Nat.ltb r k then 1 else 0) = k).
  { intros k m H. unfold nsum. induction m as [|m IH].
    - cbn. lia.
    - rewrite seq_S, map_app, fold_right_app. cbn [map fold_right Nat.add].
      assert (F : forall l a, fold_right Nat.add a l = fold_right Nat.add 0 l + a) by (induction l as [|b l IHl]; intro a; cbn; [reflexivity|rewrite IHl; lia]).
      rewrite F. destruct (Nat.eq_dec k (S m)) as [->|].
      + rewrite (map_ext_in _ (fun _ => 1)).
        * fold (nsum m (fun _ => 1)). rewrite nsum_const. destruct (Nat.ltb_spec m (S m)); lia.
        * intros a Ha. apply in_seq in Ha. destruct (Nat.ltb_spec a (S m)); [reflexivity|lia].
      + rewrite IH by lia. destruct (Nat.ltb_spec m k); lia. }
  rewrite G by (pose proof (Nat.mod_upper_bound N n ltac:(lia)); lia). rewrite (Nat.div_mod N n) at 3 by lia. lia.
Qed.

Section Object.
  Variables (D : disc) (S : split) (c : config) (L : layout) (nu : numbering).
  Hypotheses (HS : split_ok D S) (HL : lay_ok D 4 (nc_full c) L) (HN : numbers D S 4 (nc_full c) L nu).
  Let n := sp_n S.
  Let dp := (c_q c + 1) * c_N c.
  Let dd := (c_qs c + 1) * c_N c.

  Lemma own_len r : List.length (nu_own nu r) = 2 * (dp * List.length (owned D S r Vp) + dd * List.length (owned D S r Vd)).
  Proof.
    destruct (HN r) as [P _]. rewrite (Permutation_length P), dofs_length. unfold dp, dd, nc_full, ntime, sto. cbn. lia.
  Qed.
  Theorem C88_size : vec_size n nu = lay_dim L.
  Proof.
    change (nsum n (fun r => List.length (nu_own nu r)) = lay_dim L). rewrite (nsum_ext _ _ _ (fun r _ => own_len r)).
    rewrite nsum_scal, nsum_plus, !nsum_scal. unfold n. rewrite !(owned_sum D S) by exact HS. rewrite (layout_dim D (nc_full c) L HL).
    unfold dp, dd, nc_full, ntime, sto. cbn. lia.
  Qed.
  (** a rank raises or goes on, by its own number of entries *)
  Theorem C88_rank : forall r, solve_rank n nu r
    = if Nat.eqb (List.length (nu_own nu r)) (lay_dim L / n + (if Nat.ltb r (lay_dim L mod n) then 1 else 0)) then Ok tt else Err PETScError.
  Proof. intro r. unfold solve_rank, petsc_share. rewrite C88_size. reflexivity. Qed.

  (** Every rank goes on exactly when all ranks own equally many entries: the remainder of
      PETSc's division cannot be matched, since every node carries an even number of
      entries. *)
  Theorem C88_all_ranks : (forall r, r < n -> solve_rank n nu r = Ok tt)
    <-> (forall r, r < n -> n * List.length (nu_own nu r) = lay_dim L).
  Proof.
    assert (A : forall r, solve_rank n nu r = Ok tt <-> List.length (nu_own nu r) = lay_dim L / n + (if Nat.ltb r (lay_dim L mod n) then 1 else 0)).
    { intro r. rewrite C88_rank. split; intro H; [|rewrite H, Nat.eqb_refl; reflexivity].
      destruct (Nat.eqb_spec (List.length (nu_own nu r)) (lay_dim L / n + (if Nat.ltb r (lay_dim L mod n) then 1 else 0))); [assumption|discriminate]. }
    split; intros H r Hr.
    - pose proof (Nat.div_mod (lay_dim L) n ltac:(lia)) as E. pose proof (Nat.mod_upper_bound (lay_dim L) n ltac:(lia)) as U.
      set (Q := lay_dim L / n) in *. set (M := lay_dim L mod n) in *.
      assert (M = 0) as Z.
      { destruct (Nat.eq_dec M 0) as [|Hm]; [assumption|exfalso].
        pose proof (proj1 (A 0) (H 0 ltac:(lia))) as A0. pose proof (proj1 (A M) (H M ltac:(lia))) as A1. rewrite own_len in A0, A1.
        destruct (Nat.ltb_spec 0 M); [|lia]. destruct (Nat.ltb_spec M M); [lia|]. lia. }
      pose proof (proj1 (A r) (H r Hr)) as Ar. rewrite Z in *. destruct (Nat.ltb_spec r 0); [lia|]. rewrite Ar. lia.
    - apply A. pose proof (H r Hr) as E. assert (Q : lay_dim L / n = List.length (nu_own nu r)) by (symmetry; apply Nat.div_unique_exact; lia).
      assert (M : lay_dim L mod n = 0) by (apply Nat.mod_divides; [lia|]; eexists; symmetry; exact E). rewrite Q, M. destruct (Nat.ltb_spec r 0); lia.
  Qed.
  (** so the number of processes divides the number of unknowns *)
  Theorem C88_divides : (forall r, r < n -> solve_rank n nu r = Ok tt) -> Nat.divide n (lay_dim L).
  Proof.
    intro H. destruct (Nat.eq_dec n 0) as [Z|Z].
    - rewrite <- C88_size, Z. cbn. exists 0. reflexivity.
    - pose proof (proj1 C88_all_ranks H 0 ltac:(lia)) as E. exists (List.length (nu_own nu 0)). lia.
  Qed.
  (** same polynomial degrees for the primal and the dual variables *)
  Theorem C88_same_orders : c_q c = c_qs c -> 1 <= c_N c -> d_dim D Vp = d_dim D Vd -> (forall l, sp_owner S Vp l = sp_owner S Vd l) ->
    ((forall r, r < n -> solve_rank n nu r = Ok tt) <-> (forall r, r < n -> n * List.length (owned D S r Vp) = d_dim D Vp)).
  Proof.
    intros Eq H1 Ed Eo. rewrite C88_all_ranks, (layout_dim D (nc_full c) L HL).
    assert (EO : forall r, owned D S r Vd = owned D S r Vp).
    { intro r. unfold owned. rewrite Ed. apply filter_ext. intro l. rewrite Eo. reflexivity. }
    assert (DP : 1 <= dp) by (unfold dp; nia).
    split; intros H r Hr; specialize (H r Hr); rewrite own_len, EO in *.
    - unfold nc_full, ntime, sto in H. cbn [Nat.ltb Nat.leb] in H. rewrite <- Ed, <- Eq in H. unfold dp, dd in H. rewrite <- Eq in H.
      apply (Nat.mul_cancel_l _ _ (4 * dp)); [lia|]. unfold dp. nia.
    - unfold nc_full, ntime, sto. cbn [Nat.ltb Nat.leb]. rewrite <- Ed, <- Eq. unfold dp, dd. rewrite <- Eq. rewrite <- H. nia.
  Qed.
  (** one process *)
  Theorem C88_partial : n = 1 -> solve_rank n nu 0 = Ok tt.
  Proof.
    intro H1. assert (G : forall r, r < n -> solve_rank n nu r = Ok tt); [|apply G; lia]. apply C88_all_ranks. intros r Hr.
    rewrite <- C88_size, H1. assert (r = 0) as -> by lia. unfold vec_size. cbn. lia.
  Qed.
End Object.

(** * solve_1d.py *)
Theorem C88_driver_1d : forall N qp S c L nu, construct (st_params (setting_1d 1 N)) = Ok c ->
  let D := disc_1d 1 N qp in
  split_ok D S -> lay_ok D 4 (nc_full c) L -> numbers D S 4 (nc_full c) L nu -> (forall l, sp_owner S Vp l = sp_owner S Vd l) ->
  (forall r, r < sp_n S -> solve_rank (sp_n S) nu r = Ok tt) -> Nat.divide (sp_n S) (5 * N + 1).
Proof.
  intros N qp S c L nu HC D HS HL HN Eo H. pose proof (construct_inv _ _ HC) as HB.
  assert (Eq : c_q c = c_qs c) by (rewrite (bu_cq _ _ HB), (bu_cqs _ _ HB); reflexivity).
  assert (Ed : d_dim D Vp = d_dim D Vd) by reflexivity.
  pose proof (proj1 (C88_same_orders D S c L nu HS HL HN Eq (bu_N _ _ HB) Ed Eo) H) as G.
  assert (DV : d_dim D Vp = 5 * N + 1) by (unfold D, disc_1d; cbn [d_dim disc1]; cbn; lia).
  destruct (Nat.eq_dec (sp_n S) 0) as [Z|Z].
  - exfalso. assert (X : 0 < d_dim D Vp) by (rewrite DV; lia). pose proof (so_owner _ _ HS Vp 0 X). lia.
  - exists (List.length (owned D S 0 Vp)). rewrite <- DV, <- (G 0) by lia. lia.
Qed.
(** with the constants of the driver (N = 32): 7, 23 or 161 processes at most *)
Theorem C88_driver_1d_shipped : forall qp S c L nu, construct (st_params (setting_1d 1 32)) = Ok c ->
  let D := disc_1d 1 32 qp in
  split_ok D S -> lay_ok D 4 (nc_full c) L -> numbers D S 4 (nc_full c) L nu -> (forall l, sp_owner S Vp l = sp_owner S Vd l) ->
  (forall r, r < sp_n S -> solve_rank (sp_n S) nu r = Ok tt) -> sp_n S = 1 \/ sp_n S = 7 \/ sp_n S = 23 \/ sp_n S = 161.
Proof.
  intros qp S c L nu HC D HS HL HN Eo H. pose proof (C88_driver_1d 32 qp S c L nu HC HS HL HN Eo H) as DV.
  change (5 * 32 + 1) with 161 in DV. revert DV. generalize (sp_n S). intros n [m Hm].
  assert (n <= 161) by (destruct m; [lia|nia]).
  assert (T : forallb (fun k => negb (Nat.eqb (161 mod k) 0) || (Nat.eqb k 1 || Nat.eqb k 7 || Nat.eqb k 23 || Nat.eqb k 161)) (seq 1 161) = true) by (vm_compute; reflexivity).
  assert (n <> 0) by lia. rewrite forallb_forall in T. specialize (T n ltac:(apply in_seq; lia)).
  assert (Z : 161 mod n = 0) by (apply Nat.mod_divides; [assumption|]; exists m; lia). rewrite Z in T. cbn [Nat.eqb negb orb] in T.
  repeat (apply orb_true_iff in T; destruct T as [T|T]); apply Nat.eqb_eq in T; auto.
Qed.
(** solve_3d.py: 17 nodes in each direction *)
Theorem C88_driver_3d : forall D S c L nu st, setting_3d 1 3 = Ok st -> construct (st_params st) = Ok c ->
  (forall s, d_dim D s = (st_cells st + 1) * (st_cells st + 1) * (st_cells st + 1)) ->
  split_ok D S -> lay_ok D 4 (nc_full c) L -> numbers D S 4 (nc_full c) L nu -> (forall l, sp_owner S Vp l = sp_owner S Vd l) ->
  (forall r, r < sp_n S -> solve_rank (sp_n S) nu r = Ok tt) -> Nat.divide (sp_n S) (17 * 17 * 17).
Proof.
  intros D S c L nu st Hst HC HD HS HL HN Eo H. pose proof (construct_inv _ _ HC) as HB.
  assert (P1 : st_cells st = 16 /\ p_q (st_params st) = 1%Z /\ p_qstar (st_params st) = 1%Z) by (injection Hst as <-; repeat split; reflexivity).
  destruct P1 as [Ec [Q1 Q2]].
  assert (Eq : c_q c = c_qs c) by (rewrite (bu_cq _ _ HB), (bu_cqs _ _ HB), Q1, Q2; reflexivity).
  assert (Ed : d_dim D Vp = d_dim D Vd) by (rewrite !HD; reflexivity).
  pose proof (proj1 (C88_same_orders D S c L nu HS HL HN Eq (bu_N _ _ HB) Ed Eo) H) as G.
  assert (DV : d_dim D Vp = 17 * 17 * 17) by (rewrite HD, Ec; reflexivity).
  destruct (Nat.eq_dec (sp_n S) 0) as [Z|Z].
  - exfalso. assert (X : 0 < d_dim D Vp) by (rewrite DV; lia). pose proof (so_owner _ _ HS Vp 0 X). lia.
  - exists (List.length (owned D S 0 Vp)). rewrite <- DV, <- (G 0) by lia. lia.
Qed.

(** * The interval with two cells: two processes fail, three would pass *)
Theorem C88_refuted : forall c L nu, 1 <= c_N c -> lay_ok exI 4 (nc_full c) L -> numbers exI exSplit 4 (nc_full c) L nu ->
  solve_rank 2 nu 0 = Err PETScError /\ solve_rank 2 nu 1 = Err PETScError.
Proof.
  intros c L nu H1 HL HN. pose proof (C88_rank exI exSplit c L nu exSplit_ok HL HN) as R. cbn [exSplit sp_n] in R.
  pose proof (own_len exI exSplit c L nu HN) as O. cbn in O.
  assert (LD : lay_dim L = 2 * (3 * ((c_q c + 1) * c_N c + (c_qs c + 1) * c_N c))).
  { rewrite (layout_dim exI (nc_full c) L HL). unfold nc_full, ntime, sto. cbn. lia. }
  set (e := (c_q c + 1) * c_N c + (c_qs c + 1) * c_N c) in *. assert (He : 1 <= e) by (unfold e; nia).
  assert (Q : lay_dim L / 2 = 3 * e) by (rewrite LD; symmetry; apply Nat.div_unique_exact; lia).
  assert (M : lay_dim L mod 2 = 0) by (apply Nat.mod_divides; [lia|]; exists (3 * e); exact LD).
  split; rewrite R, Q, M; cbn [Nat.ltb Nat.leb].
  - rewrite (O 0). cbn. destruct (Nat.eqb_spec ((c_q c + 1) * c_N c * 2 + (c_qs c + 1) * c_N c * 2 + ((c_q c + 1) * c_N c * 2 + (c_qs c + 1) * c_N c * 2 + 0)) (e + (e + (e + 0)) + 0)) as [X|X]; [exfalso; unfold e in *; lia|reflexivity].
  - rewrite (O 1). cbn. destruct (Nat.eqb_spec ((c_q c + 1) * c_N c * 1 + (c_qs c + 1) * c_N c * 1 + ((c_q c + 1) * c_N c * 1 + (c_qs c + 1) * c_N c * 1 + 0)) (e + (e + (e + 0)) + 0)) as [X|X]; [exfalso; unfold e in *; lia|reflexivity].
Qed.
Definition exSplit3 : split := {| sp_n := 3;
  sp_cell := fun m p => match m with Dx => if Nat.ltb p 2 then 0 else 1 | Ds => p | DS => 0 end;
  sp_owner := fun _ l => l;
  sp_ghost := fun r _ => match r with 0 => [1; 2] | 1 => [2] | _ => [] end |}.
Lemma exSplit3_ok : split_ok exI exSplit3.
Proof.
  constructor.
  - intros m p Hp. destruct m; cbn in Hp; cbn [exSplit3 sp_cell sp_n]; [destruct (Nat.ltb p 2)| |]; lia.
  - intros s l Hl. cbn in *. lia.
  - intros r s l H. destruct r as [|[|r]]; cbn in H; cbn; lia.
  - intros r s. destruct r as [|[|r]]; cbn; repeat constructor; cbn; intuition lia.
  - intros m s o l p k Hp Hl HT. cbn [exI d_dim] in Hl. assert (l = 0 \/ l = 1 \/ l = 2) as Q by lia.
    destruct m; cbn in Hp; repeat destruct Hp as [<-|Hp]; try destruct Hp;
      destruct Q as [->|[->| ->]]; cbn in *; auto; exfalso; apply HT; destruct o; reflexivity.
Qed.
Theorem C88_nonvacuous : exists c L nu2 nu3, 1 <= c_N c /\ c_q c = c_qs c /\ lay_ok exI 4 (nc_full c) L
  /\ numbers exI exSplit 4 (nc_full c) L nu2 /\ numbers exI exSplit3 4 (nc_full c) L nu3
  /\ (forall r, r < 3 -> solve_rank 3 nu3 r = Ok tt).
Proof.
  destruct (exP_ok 1 1 2 false false) as [c HC]; try lia. pose proof (construct_inv _ _ HC) as HB.
  set (E := exE exI c). exists c, (e_Lf E), (exNum exI exSplit 4 (nc_full c) (e_Lf E)), (exNum exI exSplit3 4 (nc_full c) (e_Lf E)).
  pose proof (exE_ok exI c (bu_N _ _ HB)) as HE.
  split; [apply (bu_N _ _ HB)|]. split; [rewrite (bu_cq _ _ HB), (bu_cqs _ _ HB); reflexivity|]. split; [apply (eo_f _ HE)|].
  split; [intro r; split; apply Permutation_refl|]. split; [intro r; split; apply Permutation_refl|].
  apply (C88_same_orders exI exSplit3 c (e_Lf E)); auto.
  - exact exSplit3_ok.
  - apply (eo_f _ HE).
  - intro r; split; apply Permutation_refl.
  - rewrite (bu_cq _ _ HB), (bu_cqs _ _ HB); reflexivity.
  - apply (bu_N _ _ HB).
  - intros r Hr. cbn in Hr. destruct r as [|[|[|r]]]; [reflexivity|reflexivity|reflexivity|lia].
Qed.
(** the hypotheses on solve_1d.py hold on one process *)
Definition alone : split := {| sp_n := 1; sp_cell := fun _ _ => 0; sp_owner := fun _ _ => 0; sp_ghost := fun _ _ => [] |}.
Lemma alone_ok D : split_ok D alone.
Proof. constructor; cbn; intros; try lia; try contradiction; try constructor. Qed.
Example C88_driver_nonvacuous : forall N qp, 1 <= N -> exists c L nu, construct (st_params (setting_1d 1 N)) = Ok c
  /\ lay_ok (disc_1d 1 N qp) 4 (nc_full c) L /\ numbers (disc_1d 1 N qp) alone 4 (nc_full c) L nu /\ solve_rank 1 nu 0 = Ok tt.
Proof.
  intros N qp HN. pose proof (shipped_1d 1 N (conj (le_n 1) (le_S 1 2 (le_S 1 1 (le_n 1)))) HN) as HS. destruct (shipped_good Driver1D _ HS) as [c [HC _]].
  exists c, (std_layout 4 (nc_full c) (fun j => d_dim (disc_1d 1 N qp) (spc j))), (exNum (disc_1d 1 N qp) alone 4 (nc_full c) (std_layout 4 (nc_full c) (fun j => d_dim (disc_1d 1 N qp) (spc j)))).
  split; [exact HC|]. split; [apply std_layout_ok|]. split; [intro r; split; apply Permutation_refl|].
  apply (C88_partial (disc_1d 1 N qp) alone c (std_layout 4 (nc_full c) (fun j => d_dim (disc_1d 1 N qp) (spc j)))); [apply alone_ok|apply std_layout_ok|intro r; split; apply Permutation_refl|reflexivity].
Qed.

Print Assumptions C88_size.
Print Assumptions C88_rank.
Print Assumptions C88_all_ranks.
Print Assumptions C88_divides.
Print Assumptions C88_same_orders.
Print Assumptions C88_partial.
Print Assumptions C88_driver_1d.
Print Assumptions C88_driver_1d_shipped.
Print Assumptions C88_driver_3d.
Print Assumptions C88_refuted.
