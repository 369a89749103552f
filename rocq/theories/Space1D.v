(** Space1D.v -- the spatial discretisation of solve_1d.py: an interval cut into
    cells (dolfinx create_unit_interval, solve_1d.py:79), continuous piecewise
    polynomials of degree k (ufl VectorElement "CG", space_time.py:244-283), the
    rule of degree 2k+3 in every cell (space_time.py:127-128), facets are points.
    A [disc] (FormModel.v) is built from these and shown to compute integrals.

    Simplifications: dofs are numbered from left to right; the nodes inside a cell
    are equispaced (the spanned space does not depend on this).  The quadrature rule
    of the reference cell comes from basix and is any list of points and weights. *)
From Coq Require Import Reals List ZArith Lra Lia Bool.
From Coquelicot Require Import Coquelicot.
From Verif Require Import Base TimeModel TimeSpec TimeProofs FormModel FormSpec FormProofs FormSym.
Import ListNotations.
Open Scope R_scope.

(** * Lagrange functions as polynomials, any order *)
Definition lagp (k i : nat) : poly :=
  fold_right (fun m acc => if Nat.eqb m i then acc
    else pmul (pscale (/ (node k i - node k m)) [- node k m; 1]) acc) [1] (seq 0 (S k)).
Lemma lagp_eval k i t : peval (lagp k i) t = lagrange k i t.
Proof.
  unfold lagp, lagrange. induction (seq 0 (S k)) as [|m l IH]; cbn [fold_right].
  - cbn. ring.
  - destruct (Nat.eqb m i); [exact IH|]. rewrite peval_pmul, IH, peval_pscale. cbn [peval]. unfold Rdiv. ring.
Qed.
Lemma node_inj k i j : (1 <= k)%nat -> node k i = node k j -> i = j.
Proof.
  intros Hk H. unfold node in H. apply INR_eq. assert (0 < INR k) by (apply lt_0_INR; lia).
  apply (Rmult_eq_reg_r (/ INR k)); [exact H|]. apply Rinv_neq_0_compat. lra.
Qed.
Lemma lagrange_node k i j : (1 <= k)%nat -> (i <= k)%nat -> (j <= k)%nat -> lagrange k i (node k j) = delta i j.
Proof.
  intros Hk Hi Hj. unfold lagrange.
  assert (G : forall l, NoDup l -> (In j l -> i <> j -> fold_right (fun m acc => if Nat.eqb m i then acc
      else (node k j - node k m) / (node k i - node k m) * acc) 1 l = 0)
    /\ (i = j -> fold_right (fun m acc => if Nat.eqb m i then acc
      else (node k j - node k m) / (node k i - node k m) * acc) 1 l = 1)).
  { induction l as [|m l IH]; intro ND; [split; [intros []|reflexivity]|]. inversion ND; subst.
    destruct (IH H2) as [A B]. cbn [fold_right]. split.
    - intros [->|Hin] Hne.
      + destruct (Nat.eqb_spec j i); [congruence|]. unfold Rdiv. rewrite Rminus_eq_0. ring.
      + destruct (Nat.eqb m i); [apply A; assumption|]. rewrite (A Hin Hne). ring.
    - intro Hij. destruct (Nat.eqb_spec m i); [apply B, Hij|]. rewrite (B Hij), Hij, Rmult_1_r.
      apply Rinv_r. intro Z. apply n. rewrite Hij. symmetry. apply (node_inj k); [exact Hk|lra]. }
  destruct (G (seq 0 (S k)) (seq_NoDup _ _)) as [A B]. destruct (Nat.eq_dec i j) as [->|Hne].
  - rewrite delta_same. apply B. reflexivity.
  - rewrite delta_diff by exact Hne. apply A; [apply in_seq; lia|exact Hne].
Qed.
Lemma length_padd p : forall q, length (padd p q) = Nat.max (length p) (length q).
Proof. induction p as [|a p IH]; intros [|b q]; cbn; try reflexivity. rewrite IH. reflexivity. Qed.
Lemma length_pscale c p : length (pscale c p) = length p.
Proof. apply map_length. Qed.
Lemma length_pmul p : forall q, (length (pmul p q) <= length p + length q)%nat /\
  ((1 <= length p)%nat -> (1 <= length q)%nat -> (length (pmul p q) <= length p + length q - 1)%nat).
Proof.
  induction p as [|a p IH]; intro q; cbn [pmul length]; [lia|]. rewrite length_padd, length_pscale. cbn [length].
  destruct (IH q) as [A B]. split; [lia|]. intros _ Hq. destruct p as [|b p]; [cbn; lia|]. specialize (B ltac:(cbn; lia) Hq). cbn [length] in *. lia.
Qed.
Lemma length_pdiff_from p : forall n, length (pdiff_from n p) = length p.
Proof. induction p as [|a p IH]; intro n; cbn; [reflexivity|]. rewrite IH. reflexivity. Qed.
Lemma length_pdiff p : length (pdiff p) = (length p - 1)%nat.
Proof. destruct p; cbn; [reflexivity|]. rewrite length_pdiff_from. lia. Qed.
Lemma lagp_length k i : (i <= k)%nat -> (length (lagp k i) <= S k)%nat /\ (1 <= length (lagp k i))%nat.
Proof.
  intro Hi. unfold lagp.
  assert (G : forall l, NoDup l -> let p := fold_right (fun m acc => if Nat.eqb m i then acc
      else pmul (pscale (/ (node k i - node k m)) [- node k m; 1]) acc) [1] l in
    (1 <= length p)%nat /\ (length p <= S (length l))%nat /\ (In i l -> (length p <= length l)%nat)).
  { induction l as [|m l IH]; intro ND; cbn [fold_right length]; [split; [lia|split; [lia|intros []]]|].
    inversion ND; subst. destruct (IH H2) as [A [B C]].
    set (p := fold_right _ _ l) in *. destruct (Nat.eqb_spec m i) as [->|Hne].
    - split; [exact A|]. split; [lia|]. intros _. exact B.
    - destruct (length_pmul (pscale (/ (node k i - node k m)) [- node k m; 1]) p) as [_ L].
      rewrite length_pscale in L. cbn [length] in L. specialize (L ltac:(lia) A).
      split.
      + cbn [pmul pscale map]. rewrite !length_padd. cbn [length]. lia.
      + split; [lia|]. intros [E|Hin]; [congruence|]. specialize (C Hin). lia. }
  destruct (G (seq 0 (S k)) (seq_NoDup _ _)) as [A [B C]]. split; [|exact A].
  rewrite seq_length in C. apply C, in_seq. lia.
Qed.
Lemma pdiff_padd p q x : peval (pdiff (padd p q)) x = peval (pdiff p) x + peval (pdiff q) x.
Proof.
  rewrite <- !Derive_peval. rewrite <- Derive_plus by apply ex_derive_peval. apply Derive_ext. intro t. apply peval_padd.
Qed.
Lemma pdiff_pscale c p x : peval (pdiff (pscale c p)) x = c * peval (pdiff p) x.
Proof. rewrite <- !Derive_peval. rewrite <- Derive_scal. apply Derive_ext. intro t. apply peval_pscale. Qed.
Lemma pdiff_ext p q : (forall x, peval p x = peval q x) -> forall x, peval (pdiff p) x = peval (pdiff q) x.
Proof. intros H x. rewrite <- !Derive_peval. apply Derive_ext. exact H. Qed.
(** 0-, 1- or 2-fold derivative *)
Fixpoint dpow (r : nat) (p : poly) : poly := match r with O => p | S r => pdiff (dpow r p) end.
Lemma dpow_padd r : forall p q x, peval (dpow r (padd p q)) x = peval (dpow r p) x + peval (dpow r q) x.
Proof.
  induction r as [|r IH]; intros p q x; cbn [dpow]; [apply peval_padd|].
  rewrite <- pdiff_padd. apply pdiff_ext. intro t. rewrite IH, peval_padd. reflexivity.
Qed.
Lemma dpow_pscale r : forall c p x, peval (dpow r (pscale c p)) x = c * peval (dpow r p) x.
Proof.
  induction r as [|r IH]; intros c p x; cbn [dpow]; [apply peval_pscale|].
  rewrite <- pdiff_pscale. apply pdiff_ext. intro t. rewrite IH, peval_pscale. reflexivity.
Qed.
Lemma dpow_nil r x : peval (dpow r []) x = 0.
Proof. assert (E : dpow r [] = []) by (induction r as [|r IH]; cbn; [reflexivity|rewrite IH; reflexivity]). rewrite E. reflexivity. Qed.
Lemma length_dpow r p : (length (dpow r p) <= length p)%nat.
Proof. induction r as [|r IH]; cbn [dpow]; [lia|]. rewrite length_pdiff. lia. Qed.
Definition psum {A} (l : list A) (f : A -> poly) : poly := fold_right (fun a acc => padd (f a) acc) [] l.
Lemma dpow_psum {A} r (l : list A) f x : peval (dpow r (psum l f)) x = Rsum l (fun a => peval (dpow r (f a)) x).
Proof.
  induction l as [|a l IH]; [apply dpow_nil|]. cbn [psum fold_right]. fold (psum l f). rewrite dpow_padd, IH, Rsum_cons. reflexivity.
Qed.
Lemma length_psum {A} (l : list A) f d : (forall a, In a l -> (length (f a) <= d)%nat) -> (length (psum l f) <= d)%nat.
Proof.
  induction l as [|a l IH]; intro H; cbn [psum fold_right length]; [lia|]. fold (psum l f). rewrite length_padd.
  apply Nat.max_lub; [apply H; left; reflexivity|apply IH; intros; apply H; right; assumption].
Qed.

(** * The discretisation *)
Section Mesh.
  Variables (n : nat) (xs : nat -> R).          (* cells [xs c, xs (S c)], c < n *)
  Variables (kp kd : nat).                      (* OrderSpace(k, kstar) *)
  Variable qp : list (R * R).                   (* points and weights on [0,1] *)
  Definition ks (s : fsp) : nat := match s with Vp => kp | Vd => kd end.
  Definition len (c : nat) : R := xs (S c) - xs c.
  Notation m := (length qp).
  Definition qs (j : nat) : R := fst (nth j qp (0, 0)).
  Definition qw (j : nat) : R := snd (nth j qp (0, 0)).
  (** basis function l on cell c *)
  Definition cellb (s : fsp) (l c : nat) : poly :=
    if (Nat.leb (c * ks s) l && Nat.leb l (c * ks s + ks s))%bool then lagp (ks s) (l - c * ks s) else [].
  Definition tab1 (me : meas) (s : fsp) (o : op) (l p comp : nat) : R :=
    match me with
    | Dx => let c := (p / m)%nat in let t := qs (p mod m) in
        match o with
        | Val => peval (cellb s l c) t
        | Grad => peval (pdiff (cellb s l c)) t / len c
        | Lap => peval (pdiff (pdiff (cellb s l c))) t / len c ^ 2
        | _ => 0
        end
    | Ds => let c := if Nat.eqb p 0 then 0%nat else (n - 1)%nat in let t := if Nat.eqb p 0 then 0 else 1 in
        let nrm := if Nat.eqb p 0 then -1 else 1 in
        match o with
        | Val => peval (cellb s l c) t
        | Grad => peval (pdiff (cellb s l c)) t / len c
        | NGrad => nrm * (peval (pdiff (cellb s l c)) t / len c)
        | Lap => peval (pdiff (pdiff (cellb s l c))) t / len c ^ 2
        | _ => 0
        end
    | DS => match o with
        | JumpGrad => peval (pdiff (cellb s l (p - 1))) 1 / len (p - 1) - peval (pdiff (cellb s l p)) 0 / len p
        | _ => 0
        end
    end.
  Definition disc1 : disc := {|
    d_gd := 1;
    d_pts := fun me => match me with Dx => seq 0 (n * m) | Ds => [0; 1]%nat | DS => seq 1 (n - 1) end;
    d_w := fun me p => match me with Dx => len (p / m) * qw (p mod m) | _ => 1 end;
    d_x := fun p => [xs (p / m) + len (p / m) * qs (p mod m)];
    d_h := fun me p => match me with Dx => len (p / m) | Ds => if Nat.eqb p 0 then len 0 else len (n - 1) | DS => len p end;
    d_hp := fun p => len (p - 1);
    d_hm := fun p => len p;
    d_dim := fun s => S (n * ks s);
    d_tab := tab1 |}.
  Notation D := disc1.

  (** ** finite element functions *)
  (** the function with coefficients a, on cell c *)
  Definition on_cell (s : fsp) (a : vec) (c : nat) (x : R) : R :=
    sumn (S (ks s)) (fun i => a (c * ks s + i)%nat * lagrange (ks s) i ((x - xs c) / len c)).
  Definition loc (s : fsp) (a : vec) (c : nat) : poly :=
    psum (seq 0 (S (ks s))) (fun i => pscale (a (c * ks s + i)%nat) (lagp (ks s) i)).
  Lemma loc_eval s a c t : peval (loc s a c) t = sumn (S (ks s)) (fun i => a (c * ks s + i)%nat * lagrange (ks s) i t).
  Proof.
    change (peval (loc s a c) t) with (peval (dpow 0 (loc s a c)) t). unfold loc. rewrite dpow_psum. apply Rsum_ext; intro i.
    cbn [dpow]. rewrite peval_pscale, lagp_eval. reflexivity.
  Qed.
  Lemma on_cell_loc s a c x : on_cell s a c x = peval (loc s a c) ((x - xs c) / len c).
  Proof. rewrite loc_eval. reflexivity. Qed.
  Lemma loc_length s a c : (length (loc s a c) <= S (ks s))%nat.
  Proof.
    apply length_psum. intros i Hi. apply in_seq in Hi. rewrite length_pscale. apply lagp_length. lia.
  Qed.

  Hypothesis Hx : forall c, (c < n)%nat -> xs c < xs (S c).
  Lemma len_pos c : (c < n)%nat -> 0 < len c.
  Proof. intro H. unfold len. specialize (Hx c H). lra. Qed.
  Lemma on_cell_derive s a c x : (c < n)%nat -> is_derive (on_cell s a c) x (peval (pdiff (loc s a c)) ((x - xs c) / len c) / len c).
  Proof.
    intro Hc. pose proof (len_pos c Hc).
    apply (is_derive_ext (fun x => peval (loc s a c) ((x - xs c) / len c))); [intro; symmetry; apply on_cell_loc|].
    replace (peval (pdiff (loc s a c)) ((x - xs c) / len c) / len c) with (scal (1 / len c) (peval (pdiff (loc s a c)) ((x - xs c) / len c))).
    - apply (is_derive_comp (peval (loc s a c)) (fun x => (x - xs c) / len c)); [apply is_derive_peval|].
      auto_derive; [lra|]. field. lra.
    - unfold scal; cbn; unfold mult; cbn. field. lra.
  Qed.
  Lemma on_cell_Derive s a c x : (c < n)%nat -> Derive (on_cell s a c) x = peval (pdiff (loc s a c)) ((x - xs c) / len c) / len c.
  Proof. intro Hc. apply is_derive_unique, on_cell_derive, Hc. Qed.
  Lemma on_cell_Derive2 s a c x : (c < n)%nat ->
    Derive (Derive (on_cell s a c)) x = peval (pdiff (pdiff (loc s a c))) ((x - xs c) / len c) / len c ^ 2.
  Proof.
    intro Hc. pose proof (len_pos c Hc) as Hl.
    rewrite (Derive_ext _ (fun x => peval (pdiff (loc s a c)) ((x - xs c) / len c) / len c)) by (intro t; apply on_cell_Derive, Hc).
    apply is_derive_unique.
    replace (peval (pdiff (pdiff (loc s a c))) ((x - xs c) / len c) / len c ^ 2)
      with (/ len c * scal (1 / len c) (peval (pdiff (pdiff (loc s a c))) ((x - xs c) / len c))).
    - apply (is_derive_ext (fun x => / len c * peval (pdiff (loc s a c)) ((x - xs c) / len c))); [intro t; apply Rmult_comm|].
      apply is_derive_scal.
      apply (is_derive_comp (peval (pdiff (loc s a c))) (fun x => (x - xs c) / len c)); [apply is_derive_peval|].
      auto_derive; [lra|]. field. lra.
    - unfold scal; cbn; unfold mult; cbn. field. lra.
  Qed.

  (** a sum over all dofs sees only those of the cell *)
  Lemma window k N c (F : nat -> nat -> R) (a : vec) : (c < N)%nat ->
    sumn (S (N * k)) (fun l => a l * (if (Nat.leb (c * k) l && Nat.leb l (c * k + k))%bool then F (l - c * k)%nat 0%nat else 0))
    = sumn (S k) (fun i => a (c * k + i)%nat * F i 0%nat).
  Proof.
    intro Hc. assert (E : (S (N * k) = c * k + (S k + (N - c - 1) * k))%nat) by nia. rewrite E, !seq_app, !Rsum_app.
    rewrite (Rsum_zero (seq 0 (c * k))).
    2: { intros l Hl. apply in_seq in Hl. destruct (Nat.leb_spec (c * k) l); [lia|]. cbn. ring. }
    rewrite (Rsum_zero (seq (0 + c * k + S k) _)).
    2: { intros l Hl. apply in_seq in Hl. destruct (Nat.leb_spec l (c * k + k)); [lia|]. rewrite andb_false_r. ring. }
    rewrite Rsum_seq_shift. rewrite Rplus_0_l, Rplus_0_r. apply sumn_ext. intros i Hi. cbn [Nat.add].
    replace (c * k + i - c * k)%nat with i by lia.
    destruct (Nat.leb_spec (c * k) (c * k + i)); [|lia]. destruct (Nat.leb_spec (c * k + i) (c * k + k)); [|lia]. reflexivity.
  Qed.
  Lemma sum_cellb s a c r t : (c < n)%nat ->
    sumn (S (n * ks s)) (fun l => a l * peval (dpow r (cellb s l c)) t) = peval (dpow r (loc s a c)) t.
  Proof.
    intro Hc. unfold loc. rewrite dpow_psum.
    rewrite (Rsum_ext _ _ (fun l => a l * (if (Nat.leb (c * ks s) l && Nat.leb l (c * ks s + ks s))%bool
        then (fun i _ => peval (dpow r (lagp (ks s) i)) t) (l - c * ks s)%nat 0%nat else 0))).
    - rewrite (window (ks s) n c (fun i _ => peval (dpow r (lagp (ks s) i)) t) a Hc). apply Rsum_ext; intro i.
      rewrite dpow_pscale. reflexivity.
    - intro l. unfold cellb. destruct (_ && _)%bool; [reflexivity|]. rewrite dpow_nil. ring.
  Qed.

  (** values at the quadrature points are values of the function *)
  Hypothesis Hqp : qp <> [].
  Lemma m_pos : (0 < m)%nat. Proof. destruct qp; [contradiction|cbn; lia]. Qed.
  Lemma pt_cell c j : (j < m)%nat -> ((c * m + j) / m)%nat = c /\ ((c * m + j) mod m)%nat = j.
  Proof.
    intro Hj. pose proof m_pos. split.
    - rewrite Nat.div_add_l by lia. rewrite Nat.div_small by lia. lia.
    - rewrite Nat.add_comm, Nat.mod_add by lia. apply Nat.mod_small, Hj.
  Qed.
  Lemma pt_div p : (p < n * m)%nat -> (p / m < n)%nat.
  Proof. intro H. pose proof m_pos. apply Nat.div_lt_upper_bound; lia. Qed.
  Lemma fev_val s a p k : (p < n * m)%nat -> fev D Dx s Val a p k = peval (loc s a (p / m)) (qs (p mod m)).
  Proof. intro Hp. unfold fev. cbn [d_dim d_tab disc1 tab1]. apply (sum_cellb s a (p / m) 0), pt_div, Hp. Qed.
  Lemma fev_grad s a p k : (p < n * m)%nat -> fev D Dx s Grad a p k = peval (pdiff (loc s a (p / m))) (qs (p mod m)) / len (p / m).
  Proof.
    intro Hp. unfold fev. cbn [d_dim d_tab disc1 tab1]. unfold Rdiv.
    rewrite <- (sum_cellb s a (p / m) 1 _ (pt_div p Hp)), <- Rsum_scal_r. apply Rsum_ext; intro l. cbn [dpow]. ring.
  Qed.
  Lemma fev_lap s a p k : (p < n * m)%nat -> fev D Dx s Lap a p k = peval (pdiff (pdiff (loc s a (p / m)))) (qs (p mod m)) / len (p / m) ^ 2.
  Proof.
    intro Hp. unfold fev. cbn [d_dim d_tab disc1 tab1]. unfold Rdiv.
    rewrite <- (sum_cellb s a (p / m) 2 _ (pt_div p Hp)), <- Rsum_scal_r. apply Rsum_ext; intro l. cbn [dpow]. ring.
  Qed.
  (** a point of the mesh in its cell *)
  Definition xpt (p : nat) : R := xs (p / m) + len (p / m) * qs (p mod m).
  Lemma xpt_ref p : (p < n * m)%nat -> (xpt p - xs (p / m)) / len (p / m) = qs (p mod m).
  Proof. intro Hp. pose proof (len_pos _ (pt_div p Hp)). unfold xpt. field. lra. Qed.

  (** ** quadrature *)
  Definition exact_rule (d : nat) : Prop :=
    forall p : poly, (length p <= S d)%nat -> Rsum qp (fun '(t, w) => w * peval p t) = RInt (peval p) 0 1.
  Lemma rule_sum f : Rsum qp (fun '(t, w) => w * f t) = sumn m (fun j => qw j * f (qs j)).
  Proof.
    clear Hqp. unfold qw, qs. induction qp as [|[t w] l IH]; [reflexivity|]. cbn [length]. rewrite Rsum_cons, sumn_S_l, IH. reflexivity.
  Qed.
  Lemma cell_int d c p : exact_rule d -> (c < n)%nat -> (length p <= S d)%nat ->
    sumn m (fun j => len c * qw j * peval p (qs j)) = RInt (fun x => peval p ((x - xs c) / len c)) (xs c) (xs (S c)).
  Proof.
    intros He Hc Hp. pose proof (len_pos c Hc) as Hl.
    rewrite (Rsum_ext _ _ (fun j => len c * (qw j * peval p (qs j)))) by (intro; ring).
    rewrite Rsum_scal, <- (rule_sum (peval p)), (He p Hp).
    assert (C : is_RInt (fun x => peval p ((x - xs c) / len c)) (xs c) (xs (S c)) (len c * RInt (peval p) 0 1)).
    { apply (is_RInt_ext (fun x => scal (len c) (scal (/ len c) (peval p (/ len c * x + - xs c / len c))))).
      - intros x _. replace (/ len c * x + - xs c / len c) with ((x - xs c) / len c) by (field; lra).
        unfold scal; cbn; unfold mult; cbn. field. lra.
      - apply (is_RInt_scal (V := R_NormedModule)). apply (is_RInt_comp_lin (V := R_NormedModule) (peval p)).
        replace (/ len c * xs c + - xs c / len c) with 0 by (field; lra).
        replace (/ len c * xs (S c) + - xs c / len c) with 1 by (unfold len in *; field; lra).
        apply (RInt_correct (V := R_CompleteNormedModule)). eexists. apply is_RInt_pint. }
    symmetry. apply (is_RInt_unique (V := R_CompleteNormedModule)), C.
  Qed.

  Lemma integ_cells w f g : (forall c j, (c < n)%nat -> (j < m)%nat -> wval D Dx w (c * m + j) = 1) ->
    integ D Dx w 1 f g = sumn n (fun c => sumn m (fun j => len c * qw j * (f (c * m + j)%nat 0%nat * g (c * m + j)%nat 0%nat))).
  Proof.
    intro Hw. unfold integ. cbn [d_pts disc1]. rewrite sumn_mult. apply sumn_ext; intros c Hc. apply sumn_ext; intros j Hj.
    destruct (pt_cell c j Hj) as [E1 E2]. rewrite Hw by assumption. cbn [d_w disc1]. rewrite E1, E2.
    cbn [seq]. rewrite Rsum_cons, Rsum_nil. ring.
  Qed.
  Lemma pt_lt c j : (c < n)%nat -> (j < m)%nat -> (c * m + j < n * m)%nat.
  Proof. intros; nia. Qed.

  (** ** spatial products are integrals *)
  Theorem L2_integral d s1 s2 a b : exact_rule d -> (ks s1 + ks s2 <= d)%nat ->
    L2 D s1 s2 a b = sumn n (fun c => RInt (fun x => on_cell s1 a c x * on_cell s2 b c x) (xs c) (xs (S c))).
  Proof.
    intros He Hd. unfold L2, sp. cbn [ncomp]. rewrite integ_cells by (intros; reflexivity). apply sumn_ext; intros c Hc.
    rewrite (RInt_ext _ (fun x => peval (pmul (loc s1 a c) (loc s2 b c)) ((x - xs c) / len c))).
    2: { intros x _. rewrite peval_pmul, <- !on_cell_loc. reflexivity. }
    rewrite <- (cell_int d c _ He Hc).
    - apply sumn_ext; intros j Hj. destruct (pt_cell c j Hj) as [E1 E2].
      rewrite !fev_val by (apply pt_lt; assumption). rewrite E1, E2, peval_pmul. reflexivity.
    - pose proof (loc_length s1 a c) as A. pose proof (loc_length s2 b c) as B.
      destruct (length_pmul (loc s1 a c) (loc s2 b c)) as [_ G].
      destruct (loc s1 a c) as [|u p]; [cbn; lia|]. destruct (loc s2 b c) as [|v q].
      + assert (Z : (length (pmul (u :: p) []) <= length (u :: p))%nat) by (pose proof (proj1 (length_pmul (u :: p) [])); cbn in *; lia). cbn [length] in *. lia.
      + specialize (G ltac:(cbn; lia) ltac:(cbn; lia)). cbn [length] in *. lia.
  Qed.
  Lemma length_mul_le p q a b : (length p <= S a)%nat -> (length q <= S b)%nat -> (length (pmul p q) <= S (a + b))%nat.
  Proof.
    intros A B. destruct (length_pmul p q) as [G0 G].
    destruct p as [|u p]; [cbn; lia|]. destruct q as [|v q]; [cbn [length] in *; lia|].
    specialize (G ltac:(cbn; lia) ltac:(cbn; lia)). cbn [length] in *. lia.
  Qed.
  Theorem H1_integral d s1 s2 a b : exact_rule d -> (ks s1 + ks s2 <= d)%nat ->
    H1 D s1 s2 a b = sumn n (fun c => RInt (fun x => Derive (on_cell s1 a c) x * Derive (on_cell s2 b c) x) (xs c) (xs (S c))).
  Proof.
    intros He Hd. unfold H1, sp. cbn [ncomp]. change (d_gd D) with 1%nat. rewrite integ_cells by (intros; reflexivity). apply sumn_ext; intros c Hc.
    pose proof (len_pos c Hc) as Hl.
    rewrite (RInt_ext _ (fun x => peval (pscale (/ len c ^ 2) (pmul (pdiff (loc s1 a c)) (pdiff (loc s2 b c)))) ((x - xs c) / len c))).
    2: { intros x _. rewrite peval_pscale, peval_pmul, !on_cell_Derive by exact Hc. match goal with |- ?a = ?b => change (@eq R a b) end. field. lra. }
    rewrite <- (cell_int d c _ He Hc).
    - apply sumn_ext; intros j Hj. destruct (pt_cell c j Hj) as [E1 E2].
      rewrite !fev_grad by (apply pt_lt; assumption). rewrite E1, E2, peval_pscale, peval_pmul. field. lra.
    - rewrite length_pscale. apply Nat.le_trans with (S (ks s1 + ks s2)); [|lia].
      apply length_mul_le; rewrite length_pdiff; [pose proof (loc_length s1 a c)|pose proof (loc_length s2 b c)]; lia.
  Qed.
  (** boundary and facet terms are point evaluations *)
  Hypothesis Hn : (1 <= n)%nat.
  Lemma fev_ds s a p : fev D Ds s Val a p 0 = if Nat.eqb p 0 then on_cell s a 0 (xs 0%nat) else on_cell s a (n - 1) (xs n).
  Proof.
    unfold fev. cbn [d_dim d_tab disc1 tab1]. destruct (Nat.eqb p 0).
    - rewrite (sum_cellb s a 0 0) by lia. rewrite on_cell_loc. f_equal. unfold Rdiv. ring.
    - rewrite (sum_cellb s a (n - 1) 0) by lia. rewrite on_cell_loc. f_equal.
      pose proof (len_pos (n - 1) ltac:(lia)) as Hl. unfold len in *. replace (S (n - 1)) with n in * by lia. field. lra.
  Qed.
  Lemma fev_ngrad s a p : fev D Ds s NGrad a p 0
    = if Nat.eqb p 0 then - Derive (on_cell s a 0) (xs 0%nat) else Derive (on_cell s a (n - 1)) (xs n).
  Proof.
    unfold fev. cbn [d_dim d_tab disc1 tab1]. destruct (Nat.eqb p 0).
    - rewrite on_cell_Derive by lia. replace ((xs 0%nat - xs 0%nat) / len 0) with 0 by (unfold Rdiv; ring).
      rewrite <- (sum_cellb s a 0 1) by lia. unfold Rdiv. rewrite <- Rsum_scal_r, <- Rsum_opp. apply Rsum_ext; intro l. cbn [dpow]. ring.
    - rewrite on_cell_Derive by lia. pose proof (len_pos (n - 1) ltac:(lia)) as Hl.
      replace ((xs n - xs (n - 1)%nat) / len (n - 1)) with 1 by (unfold len in *; replace (S (n - 1)) with n in * by lia; field; lra).
      rewrite <- (sum_cellb s a (n - 1) 1) by lia. unfold Rdiv. rewrite <- Rsum_scal_r. apply Rsum_ext; intro l. cbn [dpow]. ring.
  Qed.
  Theorem flux_ends s1 s2 a b : flux D s1 s2 a b
    = Derive (on_cell s1 a (n - 1)) (xs n) * on_cell s2 b (n - 1) (xs n) - Derive (on_cell s1 a 0) (xs 0%nat) * on_cell s2 b 0 (xs 0%nat).
  Proof.
    unfold flux, sp, integ. cbn [ncomp d_pts d_w wval disc1]. rewrite !Rsum_cons, Rsum_nil. cbn [seq]. rewrite !Rsum_cons, !Rsum_nil.
    rewrite !fev_ds, !fev_ngrad. cbn [Nat.eqb]. ring.
  Qed.
  Theorem bndw_ends lam s a b : bndw D lam s a b
    = lam / len 0 * (on_cell s a 0 (xs 0%nat) * on_cell s b 0 (xs 0%nat))
      + lam / len (n - 1) * (on_cell s a (n - 1) (xs n) * on_cell s b (n - 1) (xs n)).
  Proof.
    unfold bndw, sp, integ. cbn [ncomp d_pts d_w wval disc1]. rewrite !Rsum_cons, Rsum_nil. cbn [seq]. rewrite !Rsum_cons, !Rsum_nil.
    rewrite !fev_ds. cbn [d_h disc1 Nat.eqb]. ring.
  Qed.
  (** jump of the derivative at vertex v *)
  Definition djump (s : fsp) (a : vec) (v : nat) : R := Derive (on_cell s a (v - 1)) (xs v) - Derive (on_cell s a v) (xs v).
  Lemma fev_jump s a v k : (1 <= v < n)%nat -> fev D DS s JumpGrad a v k = djump s a v.
  Proof.
    intro Hv. unfold fev, djump. cbn [d_dim d_tab disc1 tab1].
    pose proof (len_pos (v - 1) ltac:(lia)) as H1'. pose proof (len_pos v ltac:(lia)) as H2'.
    rewrite !on_cell_Derive by lia.
    replace ((xs v - xs (v - 1)%nat) / len (v - 1)) with 1 by (unfold len in *; replace (S (v - 1)) with v in * by lia; field; lra).
    replace ((xs v - xs v) / len v) with 0 by (unfold Rdiv; ring).
    rewrite <- (sum_cellb s a (v - 1) 1) by lia. rewrite <- (sum_cellb s a v 1) by lia. unfold Rdiv.
    rewrite <- !Rsum_scal_r, <- Rsum_minus. apply Rsum_ext; intro l. cbn [dpow]. ring.
  Qed.
  Theorem facet_jumps s a b : facet D s a b
    = sumn (n - 1) (fun v => (len v + len (S v)) / 2 * (djump s a (S v) * djump s b (S v))).
  Proof.
    unfold facet, sp, integ. cbn [ncomp d_pts d_w wval disc1 d_gd d_hp d_hm]. rewrite Rsum_seq_shift. apply sumn_ext; intros v Hv.
    cbn [seq]. rewrite Rsum_cons, Rsum_nil. rewrite !fev_jump by lia. cbn [Nat.add]. replace (S v - 1)%nat with v by lia. 
    replace 0.5 with (/ 2) by lra. field.
  Qed.

  (** ** continuity, regularity, definiteness *)
  Hypothesis Hkp : (1 <= kp)%nat.
  Hypothesis Hkd : (1 <= kd)%nat.
  Lemma ks_pos s : (1 <= ks s)%nat. Proof. destruct s; assumption. Qed.
  Lemma node_0 k : node k 0 = 0. Proof. unfold node, Rdiv. cbn. ring. Qed.
  Lemma node_k k : (1 <= k)%nat -> node k k = 1.
  Proof. intro H. unfold node. field. apply not_0_INR. lia. Qed.
  Lemma loc_node s a c i : (i <= ks s)%nat -> peval (loc s a c) (node (ks s) i) = a (c * ks s + i)%nat.
  Proof.
    intro Hi. rewrite loc_eval. rewrite (sumn_ext _ _ (fun j => delta i j * a (c * ks s + j)%nat)).
    - apply (sumn_delta (S (ks s)) (fun j => a (c * ks s + j)%nat)). lia.
    - intros j Hj. rewrite lagrange_node by (try apply ks_pos; lia). rewrite delta_sym. ring.
  Qed.
  Theorem at_left s a c : on_cell s a c (xs c) = a (c * ks s)%nat.
  Proof.
    rewrite on_cell_loc. replace ((xs c - xs c) / len c) with (node (ks s) 0) by (rewrite node_0; unfold Rdiv; ring).
    rewrite loc_node by lia. f_equal. lia.
  Qed.
  Theorem at_right s a c : (c < n)%nat -> on_cell s a c (xs (S c)) = a (S c * ks s)%nat.
  Proof.
    intro Hc. pose proof (len_pos c Hc) as Hl. rewrite on_cell_loc.
    replace ((xs (S c) - xs c) / len c) with (node (ks s) (ks s)) by (rewrite node_k by apply ks_pos; unfold len in *; field; lra).
    rewrite loc_node by lia. f_equal. lia.
  Qed.
  Hypothesis Hw : forall j, (j < m)%nat -> 0 < qw j.
  Lemma regular1 om : (forall p, In p (d_pts D Dx) -> 0 <= om p) -> regular D om.
  Proof.
    intro Hom. constructor.
    - intros [| |] p Hp; cbn [d_w disc1]; [|lra|lra]. cbn [d_pts disc1] in Hp. apply in_seq in Hp.
      assert (Hp' : (p < n * m)%nat) by lia. pose proof (len_pos _ (pt_div p Hp')).
      apply Rmult_le_pos; [lra|]. left. apply Hw, Nat.mod_upper_bound. pose proof m_pos. lia.
    - intros [| |] p Hp; cbn [d_pts d_h disc1] in *.
      + apply in_seq in Hp. apply len_pos, pt_div. lia.
      + destruct (Nat.eqb p 0); apply len_pos; lia.
      + apply in_seq in Hp. apply len_pos. lia.
    - intros p Hp. cbn [d_pts d_hp disc1] in *. apply in_seq in Hp. left. apply len_pos. lia.
    - intros p Hp. cbn [d_pts d_hm disc1] in *. apply in_seq in Hp. left. apply len_pos. lia.
    - exact Hom.
  Qed.
  Theorem definite1 d s : exact_rule d -> (2 * ks s <= d)%nat ->
    forall a, L2 D s s a a = 0 -> forall l, (l < d_dim D s)%nat -> a l = 0.
  Proof.
    intros He Hd a H0 l Hl. rewrite (L2_integral d s s a a He ltac:(lia)) in H0.
    assert (P0 : forall c, In c (seq 0 n) -> 0 <= RInt (fun x => on_cell s a c x * on_cell s a c x) (xs c) (xs (S c))).
    { intros c Hc. apply in_seq in Hc. pose proof (len_pos c ltac:(lia)) as Hlc. unfold len in Hlc.
      apply RInt_ge_0; [lra| |intros; apply Rle_0_sqr].

      apply (ex_RInt_continuous (V := R_CompleteNormedModule)). intros x _.
      apply (ex_derive_continuous (V := R_NormedModule)). apply ex_derive_mult; eexists; apply on_cell_derive; lia. }
    assert (Z0 : forall c, (c < n)%nat -> RInt (fun x => on_cell s a c x * on_cell s a c x) (xs c) (xs (S c)) = 0).
    { intros c Hc. apply (Rsum_nonneg_zero (seq 0 n) (fun c => RInt (fun x => on_cell s a c x * on_cell s a c x) (xs c) (xs (S c)))); [exact P0|exact H0|apply in_seq; lia]. }
    (* the function vanishes on every cell *)
    assert (V : forall c x, (c < n)%nat -> xs c <= x <= xs (S c) -> on_cell s a c x = 0).
    { intros c x Hc Hxc. pose proof (len_pos c Hc) as Hlc. unfold len in Hlc.
      assert (Hsq : on_cell s a c x * on_cell s a c x = 0).
      { apply (RInt_zero_cont (fun x => on_cell s a c x * on_cell s a c x) (xs c) (xs (S c))); try assumption; [lra| | |apply Z0, Hc].
        - intros t. apply (ex_derive_continuous (V := R_NormedModule)). apply ex_derive_mult; eexists; apply on_cell_derive; lia.
        - intros t _. apply Rle_0_sqr. }
      apply Rmult_integral in Hsq. tauto. }
    cbn [d_dim disc1] in Hl. pose proof (ks_pos s) as Hk.
    (* dof l is node i of cell c *)
    set (c := if Nat.eqb l (n * ks s) then (n - 1)%nat else (l / ks s)%nat).
    set (i := (l - c * ks s)%nat).
    assert (Hc : (c < n)%nat /\ (i <= ks s)%nat /\ (c * ks s + i = l)%nat).
    { unfold i, c. destruct (Nat.eqb_spec l (n * ks s)) as [E|E].
      - subst l. nia.
      - pose proof (Nat.div_mod l (ks s) ltac:(lia)) as DM. pose proof (Nat.mod_upper_bound l (ks s) ltac:(lia)).
        assert (l / ks s < n)%nat by (apply Nat.div_lt_upper_bound; nia). nia. }
    destruct Hc as [Hc [Hi El]]. rewrite <- El, <- (loc_node s a c i Hi).
    pose proof (len_pos c Hc) as Hlc.
    specialize (V c (xs c + len c * node (ks s) i) Hc). rewrite on_cell_loc in V.
    replace ((xs c + len c * node (ks s) i - xs c) / len c) with (node (ks s) i) in V by (field; lra).
    apply V. assert (N01 : 0 <= node (ks s) i <= 1).
    { unfold node. assert (0 < INR (ks s)) by (apply lt_0_INR; lia). split.
      - apply Rmult_le_pos; [apply pos_INR|left; apply Rinv_0_lt_compat; assumption].
      - apply (Rmult_le_reg_r (INR (ks s))); [assumption|]. unfold Rdiv. rewrite Rmult_assoc, Rinv_l, Rmult_1_r, Rmult_1_l by lra. apply le_INR, Hi. }
    unfold len in *. nra.
  Qed.
End Mesh.
