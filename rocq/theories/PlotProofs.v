(** PlotProofs.v -- what the loops of plot and plot_error leave in the arrays. *)
From Coq Require Import Reals List ZArith Lra Lia Bool String Sorted.
From Coquelicot Require Import Coquelicot.
From Verif Require Import Base TimeModel TimeSpec FormModel FormSpec FormProofs SpaceTimeForms FormBlocks FormTime SpaceTimeModel ErrorsModel.
Import ListNotations.
Open Scope R_scope.

(** * Writing a rectangle of an array *)
Section Cells.
  Context {A : Type}.
  Variables (st : A -> arr2) (cell : nat -> nat -> A -> A) (row : nat) (V : nat -> nat -> R).
  Hypothesis Hcell : forall j m d, st (cell j m d) = set2 (st d) (row + m) j (V m j).
  Lemma inner_cells j ms : forall d r k, st (fold_left (fun d m => cell j m d) ms d) r k
    = if existsb (fun m => Nat.eqb r (row + m) && Nat.eqb k j) ms then V (r - row)%nat k else st d r k.
  Proof.
    induction ms as [|m ms IH]; intros d r k; [reflexivity|]. cbn [fold_left existsb]. rewrite IH.
    destruct (existsb _ ms); [rewrite orb_true_r; reflexivity|]. rewrite orb_false_r, Hcell. unfold set2.
    destruct (Nat.eqb_spec r (row + m)) as [->|]; [|reflexivity]. destruct (Nat.eqb_spec k j) as [->|]; [|reflexivity].
    cbn. f_equal. lia.
  Qed.
  Lemma outer_cells nt js : forall d r k, st (fold_left (fun d j => fold_left (fun d m => cell j m d) (seq 0 nt) d) js d) r k
    = if existsb (fun j => Nat.eqb k j) js && (Nat.leb row r && Nat.ltb r (row + nt)) then V (r - row)%nat k else st d r k.
  Proof.
    induction js as [|j js IH]; intros d r k; [reflexivity|]. cbn [fold_left existsb]. rewrite IH, inner_cells.
    assert (Ex : existsb (fun m => Nat.eqb r (row + m) && Nat.eqb k j) (seq 0 nt) = Nat.eqb k j && (Nat.leb row r && Nat.ltb r (row + nt))).
    { apply eq_true_iff_eq. rewrite existsb_exists, !andb_true_iff, Nat.leb_le, Nat.ltb_lt, Nat.eqb_eq. split.
      - intros [m [H1 H2]]. apply in_seq in H1. apply andb_true_iff in H2. rewrite !Nat.eqb_eq in H2. lia.
      - intros [-> H]. exists (r - row)%nat. split; [apply in_seq; lia|]. rewrite Nat.eqb_refl, andb_true_r, Nat.eqb_eq. lia. }
    rewrite Ex. destruct (existsb (fun j0 => Nat.eqb k j0) js), (Nat.eqb k j), (Nat.leb row r && Nat.ltb r (row + nt))%bool; reflexivity.
  Qed.
  Lemma rect_cells nt ns d r k : st (fold_left (fun d j => fold_left (fun d m => cell j m d) (seq 0 nt) d) (seq 0 ns) d) r k
    = if Nat.ltb k ns && (Nat.leb row r && Nat.ltb r (row + nt)) then V (r - row)%nat k else st d r k.
  Proof.
    rewrite outer_cells. replace (existsb (fun j => Nat.eqb k j) (seq 0 ns)) with (Nat.ltb k ns); [reflexivity|].
    apply eq_true_iff_eq. rewrite existsb_exists, Nat.ltb_lt. split.
    - intro H. exists k. split; [apply in_seq; lia|apply Nat.eqb_refl].
    - intros [j [H1 H2]]. apply in_seq in H1. apply Nat.eqb_eq in H2. lia.
  Qed.
End Cells.

(** fold over enumerate = fold over the positions *)
Lemma enum_fold {A B} (f : A -> nat -> B -> A) (l : list B) (d : B) (a : A) :
  fold_left (fun a '(j, x) => f a j x) (enum l) a = fold_left (fun a j => f a j (nth j l d)) (seq 0 (List.length l)) a.
Proof.
  unfold enum.
  assert (G : forall l k a, fold_left (fun a '(j, x) => f a j x) (combine (seq k (List.length l)) l) a
    = fold_left (fun a j => f a j (nth (j - k) l d)) (seq k (List.length l)) a).
  { clear. induction l as [|x l IH]; intros k a; [reflexivity|]. cbn [List.length seq combine fold_left].
    rewrite IH. rewrite Nat.sub_diag. cbn [nth].
    assert (Hext : forall js a0, (forall j, In j js -> (k < j)%nat) ->
      fold_left (fun a1 j => f a1 j (nth (j - S k) l d)) js a0 = fold_left (fun a1 j => f a1 j (nth (j - k) (x :: l) d)) js a0).
    { induction js as [|j js IHj]; intros a0 Hj; [reflexivity|]. cbn [fold_left].
      assert (k < j)%nat by (apply Hj; left; reflexivity).
      replace (j - k)%nat with (S (j - S k)) by lia. cbn [nth]. apply IHj. intros j' Hj'. apply Hj. right. exact Hj'. }
    apply Hext. intros j Hj. apply in_seq in Hj. lia. }
  rewrite G. assert (Hext : forall js a0, fold_left (fun a1 j => f a1 j (nth (j - 0) l d)) js a0 = fold_left (fun a1 j => f a1 j (nth j l d)) js a0).
  { induction js as [|j js IHj]; intro a0; [reflexivity|]. cbn [fold_left]. rewrite Nat.sub_0_r. apply IHj. }
  apply Hext.
Qed.

Lemma seq_off a n : seq a n = map (fun m => (a + m)%nat) (seq 0 n).
Proof.
  revert a. induction n as [|n IH]; intro a; [reflexivity|]. cbn [seq map]. rewrite Nat.add_0_r. f_equal.
  rewrite IH, (IH 1%nat), map_map. apply map_ext. intro m. lia.
Qed.

Section Plot.
  Variables (E : env) (ev : vec -> R -> R) (trafo : R -> R) (uh : vec) (nsp nsub : nat).
  Notation c := (e_c E).
  Notation xs := (linspace01 nsp).
  Notation taus := (linspace_open nsub).
  Lemma len_xs : List.length xs = nsp.
  Proof. unfold linspace01. destruct (Nat.eqb_spec nsp 1) as [->|]; [reflexivity|]. rewrite map_length, seq_length. reflexivity. Qed.
  Lemma len_taus : List.length taus = nsub.
  Proof. unfold linspace_open. rewrite map_length, seq_length. reflexivity. Qed.
  Definition cell_t (n m : nat) : R := INR n * c_dt c + c_dt c * nth m taus 0.
  Definition slab_us (n ell : nat) : vec := comp_of (e_Lf E) uh 0 (n * S (c_q c) + ell).
  Definition cell_u (n m k : nat) : R :=
    sumn (S (c_q c)) (fun ell => nth ell (c_phi c) (fun _ => 0) ((cell_t n m - INR n * c_dt c) / c_dt c) * ev (slab_us n ell) (nth k xs 0)).
  Definition cell_du (n m k : nat) : R :=
    sumn (S (c_q c)) (fun ell => 1 / c_dt c * nth ell (c_dphi c) (fun _ => 0) ((cell_t n m - INR n * c_dt c) / c_dt c) * ev (slab_us n ell) (nth k xs 0)).

  Lemma slab_unfold n d : plot_slab E ev trafo uh nsp nsub n d
    = fold_left (fun d j => fold_left (fun d m => plot_cell E ev trafo (slab_us n) (INR n * c_dt c) (n * nsub) j (nth j xs 0) m (nth m taus 0) d) (seq 0 nsub) d) (seq 0 nsp) d.
  Proof.
    unfold plot_slab. fold (slab_us n).
    rewrite (enum_fold (fun d j x => fold_left (fun d '(m, tau) => plot_cell E ev trafo (slab_us n) (INR n * c_dt c) (n * nsub) j x m tau d) (enum taus) d) xs 0).
    rewrite len_xs.
    assert (Hext : forall js a0, fold_left (fun a1 j => fold_left (fun d0 '(m, tau) => plot_cell E ev trafo (slab_us n) (INR n * c_dt c) (n * nsub) j (nth j xs 0) m tau d0) (enum taus) a1) js a0
      = fold_left (fun d0 j => fold_left (fun d1 m => plot_cell E ev trafo (slab_us n) (INR n * c_dt c) (n * nsub) j (nth j xs 0) m (nth m taus 0) d1) (seq 0 nsub) d0) js a0).
    { induction js as [|j js IH]; intro a0; [reflexivity|]. cbn [fold_left]. rewrite IH. f_equal.
      rewrite (enum_fold (fun d0 m tau => plot_cell E ev trafo (slab_us n) (INR n * c_dt c) (n * nsub) j (nth j xs 0) m tau d0) taus 0).
      rewrite len_taus. reflexivity. }
    apply Hext.
  Qed.

  (** all four arrays are filled in the same way *)
  Definition slab_fills (st : plotdata -> arr2) (V : nat -> nat -> nat -> R) : Prop :=
    forall n j m d, st (plot_cell E ev trafo (slab_us n) (INR n * c_dt c) (n * nsub) j (nth j xs 0) m (nth m taus 0) d)
      = set2 (st d) (n * nsub + m) j (V n m j).
  Lemma fills_val : slab_fills pd_val (fun n m k => trafo (cell_u n m k)).
  Proof. intros n j m d. reflexivity. Qed.
  Lemma fills_dval : slab_fills pd_dval (fun n m k => trafo (cell_du n m k)).
  Proof. intros n j m d. reflexivity. Qed.
  Lemma fills_err : slab_fills pd_err (fun n m k => Rabs (cell_u n m k - c_v c (cell_t n m) [nth k xs 0])).
  Proof. intros n j m d. reflexivity. Qed.
  Lemma fills_derr : slab_fills pd_derr (fun n m k => Rabs (cell_du n m k - c_dv c (cell_t n m) [nth k xs 0])).
  Proof. intros n j m d. reflexivity. Qed.
  Lemma slab_rows st V n d r k : slab_fills st V -> st (plot_slab E ev trafo uh nsp nsub n d) r k
    = if Nat.ltb k nsp && (Nat.leb (n * nsub) r && Nat.ltb r (n * nsub + nsub)) then V n (r - n * nsub)%nat k else st d r k.
  Proof. intro H. rewrite slab_unfold. apply (rect_cells st _ (n * nsub) (V n)). intros. apply H. Qed.
  Lemma all_rows st V ns : slab_fills st V -> NoDup ns -> forall d n m k, (m < nsub)%nat -> (k < nsp)%nat ->
    st (fold_left (fun d n => plot_slab E ev trafo uh nsp nsub n d) ns d) (n * nsub + m)%nat k
    = if existsb (Nat.eqb n) ns then V n m k else st d (n * nsub + m)%nat k.
  Proof.
    intros HV. induction ns as [|a ns IH]; intros Hd d n m k Hm Hk; [reflexivity|]. cbn [fold_left existsb].
    apply NoDup_cons_iff in Hd. destruct Hd as [Ha Hd]. rewrite (IH Hd) by assumption. rewrite (slab_rows _ _ _ _ _ _ HV).
    destruct (Nat.eqb_spec n a) as [->|Hn].
    - replace (existsb (Nat.eqb a) ns) with false.
      + destruct (Nat.ltb_spec k nsp); [|lia]. destruct (Nat.leb_spec (a * nsub) (a * nsub + m)); [|lia].
        destruct (Nat.ltb_spec (a * nsub + m) (a * nsub + nsub)); [|lia]. cbn. f_equal. lia.
      + symmetry. apply not_true_is_false. intro H. apply existsb_exists in H. destruct H as [x [Hx Hy]]. apply Nat.eqb_eq in Hy. subst x. contradiction.
    - destruct (existsb (Nat.eqb n) ns); [reflexivity|]. cbn [orb].
      destruct (Nat.ltb k nsp); [|reflexivity]. destruct (Nat.leb_spec (a * nsub) (n * nsub + m)); [|reflexivity].
      destruct (Nat.ltb_spec (n * nsub + m) (a * nsub + nsub)); [|reflexivity]. exfalso. apply Hn. nia.
  Qed.
  Lemma array_at st V n m k : slab_fills st V -> (n < c_N c)%nat -> (m < nsub)%nat -> (k < nsp)%nat ->
    st (plot_arrays E ev trafo uh nsp nsub) (n * nsub + m)%nat k = V n m k.
  Proof.
    intros HV Hn Hm Hk. unfold plot_arrays. rewrite (all_rows _ _ _ HV (seq_NoDup _ _)) by assumption.
    replace (existsb (Nat.eqb n) (seq 0 (c_N c))) with true; [reflexivity|]. symmetry. apply existsb_exists.
    exists n. split; [apply in_seq; lia|apply Nat.eqb_refl].
  Qed.

  (** * The list of times *)
  Lemma ts_inner n j ms : forall d, pd_ts (fold_left (fun d m => plot_cell E ev trafo (slab_us n) (INR n * c_dt c) (n * nsub) j (nth j xs 0) m (nth m taus 0) d) ms d)
    = pd_ts d ++ (if Nat.eqb j 0 then map (cell_t n) ms else []).
  Proof.
    induction ms as [|m ms IH]; intro d; cbn [fold_left].
    - destruct (Nat.eqb j 0); rewrite app_nil_r; reflexivity.
    - rewrite IH. cbn [plot_cell pd_ts]. destruct (Nat.eqb j 0); [|reflexivity]. cbn [map]. rewrite <- app_assoc. reflexivity.
  Qed.
  Lemma ts_outer n js : forall d, pd_ts (fold_left (fun d j => fold_left (fun d m => plot_cell E ev trafo (slab_us n) (INR n * c_dt c) (n * nsub) j (nth j xs 0) m (nth m taus 0) d) (seq 0 nsub) d) js d)
    = pd_ts d ++ flat_map (fun j => if Nat.eqb j 0 then map (cell_t n) (seq 0 nsub) else []) js.
  Proof.
    induction js as [|j js IH]; intro d; cbn [fold_left flat_map]; [rewrite app_nil_r; reflexivity|].
    rewrite IH, ts_inner, <- app_assoc. reflexivity.
  Qed.
  Lemma ts_slab n d : (1 <= nsp)%nat -> pd_ts (plot_slab E ev trafo uh nsp nsub n d) = pd_ts d ++ map (cell_t n) (seq 0 nsub).
  Proof.
    intro H. rewrite slab_unfold, ts_outer. destruct nsp as [|k]; [lia|]. cbn [seq flat_map Nat.eqb].
    assert (G : forall a b, flat_map (fun j => if Nat.eqb j 0 then map (cell_t n) (seq 0 nsub) else []) (seq (S a) b) = []).
    { intros a b. revert a. induction b as [|b IH]; intro a; [reflexivity|]. cbn [seq flat_map Nat.eqb app]. apply IH. }
    rewrite G, app_nil_r. reflexivity.
  Qed.
  Lemma ts_all ns d : (1 <= nsp)%nat -> pd_ts (fold_left (fun d n => plot_slab E ev trafo uh nsp nsub n d) ns d)
    = pd_ts d ++ flat_map (fun n => map (cell_t n) (seq 0 nsub)) ns.
  Proof.
    intro H. revert d. induction ns as [|n ns IH]; intro d; cbn [fold_left flat_map]; [rewrite app_nil_r; reflexivity|].
    rewrite IH, ts_slab by exact H. rewrite <- app_assoc. reflexivity.
  Qed.
  Lemma tau_at m : (m < nsub)%nat -> nth m taus 0 = INR m / INR nsub.
  Proof.
    intro H. unfold linspace_open. rewrite (nth_indep _ 0 (INR 0 / INR nsub)) by (rewrite map_length, seq_length; exact H).
    rewrite (map_nth (fun i => INR i / INR nsub)). rewrite seq_nth by exact H. reflexivity.
  Qed.
  (** row r belongs to the time r * (delta_t / nsub) *)
  Lemma ts_eq : (1 <= nsp)%nat -> pd_ts (plot_arrays E ev trafo uh nsp nsub) = map (fun r => INR r * (c_dt c / INR nsub)) (seq 0 (c_N c * nsub)).
  Proof.
    intro H. unfold plot_arrays. rewrite ts_all by exact H. cbn [pd_ts app].
    assert (G : forall k, flat_map (fun n => map (cell_t n) (seq 0 nsub)) (seq 0 k) = map (fun r => INR r * (c_dt c / INR nsub)) (seq 0 (k * nsub))).
    { induction k as [|k IH]; [reflexivity|]. rewrite seq_S, flat_map_app, IH. cbn [flat_map]. rewrite app_nil_r, Nat.add_0_l.
      replace (S k * nsub)%nat with (k * nsub + nsub)%nat by lia. rewrite seq_app, map_app. f_equal. rewrite Nat.add_0_l.
      rewrite (seq_off (k * nsub) nsub), map_map. apply map_ext_in. intros m Hm. apply in_seq in Hm.
      unfold cell_t. rewrite tau_at by lia. rewrite plus_INR, mult_INR. field. apply not_0_INR. lia. }
    apply G.
  Qed.
End Plot.
