(** Base.v -- shared vocabulary of the model: Python exceptions as values, the
    state-and-exception monad, finite sums, and numpy gather / scatter.
    Nothing here models a particular file of /repo; the definitions give a
    meaning to the Python constructs (raise, arr[idx], arr[idx] = v,
    arr[idx] += v, sum, range) that the modelled files use. *)
From Coq Require Import Reals List Arith ZArith Lra Lia Bool.
Import ListNotations.
Open Scope R_scope.

(** * Exceptions and results *)

Inductive exn : Type :=
| KeyError | ZeroDivisionError | AttributeError | TypeError | ValueError
| RuntimeError | NameError | IndexError | UFLError | PETScError
| GmshError.

Inductive res (A : Type) : Type :=
| Ok (a : A)
| Err (e : exn).
Arguments Ok {A} a.
Arguments Err {A} e.

Definition rbind {A B} (r : res A) (f : A -> res B) : res B :=
  match r with Ok a => f a | Err e => Err e end.

(** State-and-exception monad: the state reached when an exception is raised
    is kept, as for attributes of a Python object. *)
Definition M (S A : Type) : Type := S -> res A * S.
Definition ret {S A} (a : A) : M S A := fun s => (Ok a, s).
Definition raise {S A} (e : exn) : M S A := fun s => (Err e, s).
Definition bind {S A B} (m : M S A) (f : A -> M S B) : M S B :=
  fun s => match m s with
           | (Ok a, s') => f a s'
           | (Err e, s') => (Err e, s')
           end.
Definition get {S} : M S S := fun s => (Ok s, s).
Definition modify {S} (f : S -> S) : M S unit := fun s => (Ok tt, f s).
Definition lift {S A} (r : res A) : M S A := fun s => (r, s).
(** Reading an attribute that may be None (or missing) and using it. *)
Definition need {S A} (o : option A) (e : exn) : M S A :=
  match o with Some a => ret a | None => raise e end.

Declare Scope monad_scope.
Notation "'do' x <- m ; k" := (bind m (fun x => k))
  (at level 200, x pattern, m at level 100, k at level 200, right associativity) : monad_scope.
Notation "m ;; k" := (bind m (fun _ => k))
  (at level 100, right associativity) : monad_scope.
Open Scope monad_scope.

(** [for x in l: body] *)
Fixpoint for_each {S A} (l : list A) (body : A -> M S unit) : M S unit :=
  match l with
  | [] => ret tt
  | a :: l' => body a ;; for_each l' body
  end.

(** * Finite sums *)

Definition Rsum {A : Type} (l : list A) (f : A -> R) : R :=
  fold_right (fun a s => f a + s) 0 l.
Notation sumn n f := (Rsum (seq 0 n) f).
Arguments Rsum {A} l f : simpl never.

(** * Vectors and numpy indexing *)

(** A PETSc vector / numpy array: entry number -> value.  Only the entries
    below the size are meaningful. *)
Definition vec : Type := nat -> R.
Definition vzero : vec := fun _ => 0.
Definition upd (v : vec) (i : nat) (x : R) : vec :=
  fun k => if Nat.eqb k i then x else v k.

(** [v[idx]] *)
Definition gather (v : vec) (idx : list nat) : list R := map v idx.
(** [v[idx] = vals], assigned in order *)
Fixpoint scatter (v : vec) (idx : list nat) (vals : list R) : vec :=
  match idx, vals with
  | i :: idx', x :: vals' => scatter (upd v i x) idx' vals'
  | _, _ => v
  end.
Fixpoint map2 {A B C} (f : A -> B -> C) (la : list A) (lb : list B) : list C :=
  match la, lb with
  | a :: la', b :: lb' => f a b :: map2 f la' lb'
  | _, _ => []
  end.
(** [v[idx] += vals]: gather, add, scatter (numpy does not accumulate over
    repeated indices) *)
Definition scatter_add (v : vec) (idx : list nat) (vals : list R) : vec :=
  scatter v idx (map2 Rplus (gather v idx) vals).
(** a whole array given by a list of values: [arr[:] = vals] *)
Definition of_list (vals : list R) : vec := fun k => nth k vals 0.

(** * Lemmas on sums *)

Lemma Rsum_nil {A} (f : A -> R) : Rsum [] f = 0.
Proof. reflexivity. Qed.
Lemma Rsum_cons {A} a (l : list A) f : Rsum (a :: l) f = f a + Rsum l f.
Proof. reflexivity. Qed.
Lemma Rsum_app {A} (l1 l2 : list A) f : Rsum (l1 ++ l2) f = Rsum l1 f + Rsum l2 f.
Proof. induction l1 as [|a l1 IH]; cbn [app]; rewrite ?Rsum_cons, ?Rsum_nil; [ring|]. rewrite IH; ring. Qed.
Lemma Rsum_ext_in {A} (l : list A) f g :
  (forall a, In a l -> f a = g a) -> Rsum l f = Rsum l g.
Proof.
  induction l as [|a l IH]; intro H; rewrite ?Rsum_cons; [reflexivity|].
  rewrite (H a) by (left; reflexivity).
  f_equal. apply IH. intros b Hb; apply H; right; exact Hb.
Qed.
Lemma Rsum_ext {A} (l : list A) f g : (forall a, f a = g a) -> Rsum l f = Rsum l g.
Proof. intro H; apply Rsum_ext_in; intros; apply H. Qed.
Lemma Rsum_plus {A} (l : list A) f g : Rsum l (fun a => f a + g a) = Rsum l f + Rsum l g.
Proof. induction l as [|a l IH]; cbn [map flat_map]; rewrite ?Rsum_cons, ?Rsum_nil; [ring|]. rewrite IH; ring. Qed.
Lemma Rsum_minus {A} (l : list A) f g : Rsum l (fun a => f a - g a) = Rsum l f - Rsum l g.
Proof. induction l as [|a l IH]; cbn [map flat_map]; rewrite ?Rsum_cons, ?Rsum_nil; [ring|]. rewrite IH; ring. Qed.
Lemma Rsum_opp {A} (l : list A) f : Rsum l (fun a => - f a) = - Rsum l f.
Proof. induction l as [|a l IH]; cbn [map flat_map]; rewrite ?Rsum_cons, ?Rsum_nil; [ring|]. rewrite IH; ring. Qed.
Lemma Rsum_scal {A} (l : list A) c f : Rsum l (fun a => c * f a) = c * Rsum l f.
Proof. induction l as [|a l IH]; cbn [map flat_map]; rewrite ?Rsum_cons, ?Rsum_nil; [ring|]. rewrite IH; ring. Qed.
Lemma Rsum_scal_r {A} (l : list A) c f : Rsum l (fun a => f a * c) = Rsum l f * c.
Proof. induction l as [|a l IH]; cbn [map flat_map]; rewrite ?Rsum_cons, ?Rsum_nil; [ring|]. rewrite IH; ring. Qed.
Lemma Rsum_0 {A} (l : list A) : Rsum l (fun _ => 0) = 0.
Proof. induction l as [|a l IH]; cbn [map flat_map]; rewrite ?Rsum_cons, ?Rsum_nil; [ring|]. rewrite IH; ring. Qed.
Lemma Rsum_zero {A} (l : list A) f : (forall a, In a l -> f a = 0) -> Rsum l f = 0.
Proof. intro H. rewrite (Rsum_ext_in l f (fun _ => 0) H). apply Rsum_0. Qed.
Lemma Rsum_map {A B} (g : A -> B) (l : list A) f :
  Rsum (map g l) f = Rsum l (fun a => f (g a)).
Proof. induction l as [|a l IH]; cbn [map flat_map]; rewrite ?Rsum_cons, ?Rsum_nil; [reflexivity|]. rewrite IH; reflexivity. Qed.
Lemma Rsum_flat_map {A B} (g : A -> list B) (l : list A) f :
  Rsum (flat_map g l) f = Rsum l (fun a => Rsum (g a) f).
Proof. induction l as [|a l IH]; cbn [map flat_map]; rewrite ?Rsum_cons, ?Rsum_nil; [reflexivity|]. rewrite Rsum_app, IH; reflexivity. Qed.
Lemma Rsum_swap {A B} (la : list A) (lb : list B) (f : A -> B -> R) :
  Rsum la (fun a => Rsum lb (fun b => f a b)) = Rsum lb (fun b => Rsum la (fun a => f a b)).
Proof.
  induction la as [|a la IH].
  - rewrite Rsum_nil. symmetry. apply Rsum_0.
  - rewrite Rsum_cons, IH, <- Rsum_plus. reflexivity.
Qed.
Lemma Rsum_nonneg {A} (l : list A) f : (forall a, In a l -> 0 <= f a) -> 0 <= Rsum l f.
Proof.
  induction l as [|a l IH]; intro H; rewrite ?Rsum_cons, ?Rsum_nil; [lra|].
  assert (0 <= f a) by (apply H; left; reflexivity).
  assert (0 <= Rsum l f) by (apply IH; intros b Hb; apply H; right; exact Hb).
  lra.
Qed.
Lemma Rsum_nonneg_zero {A} (l : list A) f :
  (forall a, In a l -> 0 <= f a) -> Rsum l f = 0 -> forall a, In a l -> f a = 0.
Proof.
  induction l as [|b l IH]; intros H H0 a Ha; [destruct Ha|].
  rewrite Rsum_cons in H0.
  assert (0 <= f b) by (apply H; left; reflexivity).
  assert (0 <= Rsum l f) by (apply Rsum_nonneg; intros c Hc; apply H; right; exact Hc).
  destruct Ha as [->|Ha]; [lra|].
  apply IH; [intros c Hc; apply H; right; exact Hc | lra | exact Ha].
Qed.
Lemma Rsum_Rabs {A} (l : list A) f : Rabs (Rsum l f) <= Rsum l (fun a => Rabs (f a)).
Proof.
  induction l as [|a l IH]; cbn [map flat_map]; rewrite ?Rsum_cons, ?Rsum_nil; [rewrite Rabs_R0; lra|].
  eapply Rle_trans; [apply Rabs_triang|]. lra.
Qed.
Lemma Rsum_le {A} (l : list A) f g :
  (forall a, In a l -> f a <= g a) -> Rsum l f <= Rsum l g.
Proof.
  induction l as [|a l IH]; intro H; rewrite ?Rsum_cons, ?Rsum_nil; [lra|].
  assert (f a <= g a) by (apply H; left; reflexivity).
  assert (Rsum l f <= Rsum l g) by (apply IH; intros b Hb; apply H; right; exact Hb).
  lra.
Qed.
Lemma Rsum_mult {A B} (la : list A) (lb : list B) f g :
  Rsum la f * Rsum lb g = Rsum la (fun a => Rsum lb (fun b => f a * g b)).
Proof.
  rewrite <- Rsum_scal_r. apply Rsum_ext; intro a. rewrite <- Rsum_scal. reflexivity.
Qed.
Lemma sumn_S n f : sumn (S n) f = sumn n f + f n.
Proof. rewrite seq_S, Rsum_app, Rsum_cons, Rsum_nil; cbn; ring. Qed.
Lemma sumn_S_l n (f : nat -> R) : sumn (S n) f = f 0%nat + sumn n (fun i => f (S i)).
Proof. cbn [seq]. rewrite Rsum_cons, <- seq_shift, Rsum_map. reflexivity. Qed.
Lemma Rsum_seq_shift a n (f : nat -> R) :
  Rsum (seq a n) f = sumn n (fun i => f (a + i)%nat).
Proof.
  revert a; induction n as [|n IH]; intro a; [reflexivity|].
  rewrite !seq_S, !Rsum_app, IH, !Rsum_cons, !Rsum_nil. reflexivity.
Qed.
Lemma sumn_ext n f g : (forall i, (i < n)%nat -> f i = g i) -> sumn n f = sumn n g.
Proof. intro H; apply Rsum_ext_in; intros a Ha; apply in_seq in Ha; apply H; lia. Qed.
(** a double index [n * m + l] enumerates [0 .. N*m) *)
Lemma sumn_mult N m (f : nat -> R) :
  sumn (N * m) f = sumn N (fun n => sumn m (fun l => f (n * m + l)%nat)).
Proof.
  induction N as [|N IH]; [reflexivity|].
  rewrite sumn_S, <- IH.
  replace (S N * m)%nat with (N * m + m)%nat by lia.
  rewrite seq_app, Rsum_app. f_equal.
  rewrite Rsum_seq_shift. apply Rsum_ext; intro i. f_equal. 
Qed.

(** Kronecker delta *)
Definition delta (i j : nat) : R := if Nat.eqb i j then 1 else 0.
Lemma delta_same i : delta i i = 1.
Proof. unfold delta; rewrite Nat.eqb_refl; reflexivity. Qed.
Lemma delta_diff i j : i <> j -> delta i j = 0.
Proof. intro H; unfold delta; destruct (Nat.eqb_spec i j); [contradiction|reflexivity]. Qed.
Lemma delta_sym i j : delta i j = delta j i.
Proof. unfold delta; rewrite Nat.eqb_sym; reflexivity. Qed.
Lemma sumn_delta n f i : (i < n)%nat -> sumn n (fun j => delta i j * f j) = f i.
Proof.
  revert i; induction n as [|n IH]; intros i Hi; [lia|].
  rewrite sumn_S. destruct (Nat.eq_dec i n) as [->|Hne].
  - rewrite delta_same, Rsum_zero; [ring|].
    intros a Ha; apply in_seq in Ha; rewrite delta_diff by lia; ring.
  - rewrite IH by lia. rewrite delta_diff by exact Hne; ring.
Qed.
Lemma sumn_delta_out n f i : (n <= i)%nat -> sumn n (fun j => delta i j * f j) = 0.
Proof.
  intro H; apply Rsum_zero; intros a Ha; apply in_seq in Ha.
  rewrite delta_diff by lia; ring.
Qed.

(** * Lemmas on gather / scatter *)

Lemma upd_same v i x : upd v i x i = x.
Proof. unfold upd; rewrite Nat.eqb_refl; reflexivity. Qed.
Lemma upd_other v i x k : k <> i -> upd v i x k = v k.
Proof. intro H; unfold upd; destruct (Nat.eqb_spec k i); [contradiction|reflexivity]. Qed.

Lemma scatter_out idx : forall v vals k, ~ In k idx -> scatter v idx vals k = v k.
Proof.
  induction idx as [|i idx IH]; intros v vals k Hk; [reflexivity|].
  destruct vals as [|x vals]; [reflexivity|].
  cbn. rewrite IH by (intro H; apply Hk; right; exact H).
  apply upd_other. intro H; apply Hk; left; symmetry; exact H.
Qed.
Lemma scatter_nth idx : forall v vals l,
  NoDup idx -> length vals = length idx -> (l < length idx)%nat ->
  scatter v idx vals (nth l idx 0%nat) = nth l vals 0.
Proof.
  induction idx as [|i idx IH]; intros v vals l Hnd Hlen Hl; [cbn in Hl; lia|].
  destruct vals as [|x vals]; [discriminate|].
  inversion Hnd as [|? ? Hni Hnd']; subst.
  destruct l as [|l]; cbn [nth scatter].
  - rewrite scatter_out by exact Hni. apply upd_same.
  - apply IH; [exact Hnd' | cbn in Hlen; lia | cbn in Hl; lia].
Qed.
Lemma length_map2 {A B C} (f : A -> B -> C) la : forall lb,
  length la = length lb -> length (map2 f la lb) = length la.
Proof.
  induction la as [|a la IH]; intros [|b lb] H; cbn in *; try lia.
  rewrite IH; lia.
Qed.
Lemma nth_map2 {A B C} (f : A -> B -> C) la : forall lb l da db dc,
  length la = length lb -> (l < length la)%nat ->
  nth l (map2 f la lb) dc = f (nth l la da) (nth l lb db).
Proof.
  induction la as [|a la IH]; intros [|b lb] l da db dc H Hl; cbn in *; try lia.
  destruct l; [reflexivity|]. apply IH; lia.
Qed.
Lemma length_gather v idx : length (gather v idx) = length idx.
Proof. apply map_length. Qed.
Lemma nth_gather v idx l : (l < length idx)%nat -> nth l (gather v idx) 0 = v (nth l idx 0%nat).
Proof.
  intro H. unfold gather. rewrite nth_indep with (d' := v 0%nat) by (rewrite map_length; exact H).
  apply map_nth.
Qed.
Lemma gather_ext v w idx : (forall k, In k idx -> v k = w k) -> gather v idx = gather w idx.
Proof. intro H; apply map_ext_in; exact H. Qed.

Lemma scatter_add_nth v idx vals l :
  NoDup idx -> length vals = length idx -> (l < length idx)%nat ->
  scatter_add v idx vals (nth l idx 0%nat) = v (nth l idx 0%nat) + nth l vals 0.
Proof.
  intros Hnd Hlen Hl. unfold scatter_add.
  rewrite scatter_nth; [|exact Hnd| rewrite length_map2; rewrite length_gather; lia |exact Hl].
  rewrite nth_map2 with (da := 0) (db := 0); rewrite ?length_gather; try lia.
  rewrite nth_gather by exact Hl. reflexivity.
Qed.
Lemma scatter_add_out v idx vals k : ~ In k idx -> scatter_add v idx vals k = v k.
Proof. apply scatter_out. Qed.

(** scatter-add as a sum of Kronecker deltas *)
Lemma scatter_add_delta v idx vals k :
  NoDup idx -> length vals = length idx ->
  scatter_add v idx vals k
  = v k + sumn (length idx) (fun l => delta k (nth l idx 0%nat) * nth l vals 0).
Proof.
  intros Hnd Hlen. destruct (in_dec Nat.eq_dec k idx) as [Hin|Hout].
  - destruct (In_nth _ _ 0%nat Hin) as [l [Hl Hk]]. subst k.
    rewrite scatter_add_nth by assumption. f_equal.
    rewrite sumn_ext with (g := fun m => delta l m * nth m vals 0).
    + rewrite sumn_delta by exact Hl; reflexivity.
    + intros m Hm. f_equal. unfold delta.
      destruct (Nat.eqb_spec (nth l idx 0%nat) (nth m idx 0%nat)) as [E|E];
        destruct (Nat.eqb_spec l m) as [E'|E']; try reflexivity.
      * exfalso. apply E'. eapply NoDup_nth; eauto.
      * subst; contradiction.
  - rewrite scatter_add_out by exact Hout.
    rewrite Rsum_zero; [ring|].
    intros l Hl; apply in_seq in Hl. rewrite delta_diff; [ring|].
    intro E; apply Hout. rewrite E. apply nth_In. lia.
Qed.

Lemma of_list_gather v idx l :
  (l < length idx)%nat -> of_list (gather v idx) l = v (nth l idx 0%nat).
Proof. intro H; unfold of_list; apply nth_gather; exact H. Qed.
