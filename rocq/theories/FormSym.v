(** FormSym.v -- symmetry, signs, slab structure and consistency of the
    space-time form (C13, C14, C17, C19). *)
From Coq Require Import Reals List ZArith Lra Lia Bool String.
From Coquelicot Require Import Coquelicot.
From Verif Require Import Base TimeModel TimeSpec TimeProofs QuadProofs FormModel FormSpec FormProofs
  SpaceTimeForms FormBlocks GuardProofs FormTime FormC12.
Import ListNotations.
Open Scope R_scope.

(** * Algebra of the specification forms *)
Lemma L2_comm D s s' a b : L2 D s s' a b = L2 D s' s b a.
Proof. unfold L2. rewrite sp_comm; reflexivity. Qed.
Lemma H1_comm D s s' a b : H1 D s s' a b = H1 D s' s b a.
Proof. unfold H1. rewrite sp_comm; reflexivity. Qed.
Lemma bndw_comm D l s a b : bndw D l s a b = bndw D l s b a.
Proof. unfold bndw. rewrite sp_comm; reflexivity. Qed.
Lemma L2w_comm D l s a b : L2w D l s a b = L2w D l s b a.
Proof. unfold L2w. rewrite sp_comm; reflexivity. Qed.
Lemma facet_comm D s a b : facet D s a b = facet D s b a.
Proof. unfold facet. rewrite sp_comm; reflexivity. Qed.

Lemma over_slab_ext d n f h : (forall t, f t = h t) -> over_slab d n f = over_slab d n h.
Proof. intro H. unfold over_slab. apply RInt_ext; intros; apply H. Qed.

Section Sym.
  Variables (D : disc) (d : tdisc) (lam : R) (om : nat -> R).
  Lemma data_comm U W n : data D d om U W n = data D d om W U n.
  Proof. unfold data. apply over_slab_ext; intro t. apply L2w_comm. Qed.
  Lemma dual_comm U W n : dual D d lam U W n = dual D d lam W U n.
  Proof.
    unfold dual. apply over_slab_ext; intro t. cbn zeta.
    rewrite L2_comm, H1_comm, (L2_comm _ _ _ (at_time d U 3 n t)), bndw_comm. reflexivity.
  Qed.
  Lemma primal_comm U W n : primal D d lam U W n = primal D d lam W U n.
  Proof.
    unfold primal. apply over_slab_ext; intro t. cbn zeta.
    rewrite L2_comm, integ_comm, bndw_comm, facet_comm. reflexivity.
  Qed.
  Lemma energy_comm a1 a2 b1 b2 : energy D d a1 a2 b1 b2 = energy D d b1 b2 a1 a2.
  Proof. unfold energy. rewrite L2_comm, H1_comm, (L2_comm _ _ _ a2). reflexivity. Qed.
  Lemma dualjumps_comm Y Z n : dualjumps D d Y Z n = dualjumps D d Z Y n.
  Proof. unfold dualjumps. rewrite L2_comm, (L2_comm _ _ _ (upper d Y 2 n)). reflexivity. Qed.

  (** change of sign of the dual blocks *)
  Definition flip (X : field) : field := fun j i l => if Nat.ltb j 2 then X j i l else - X j i l.
  Lemma at_flip_p X j n t l : (j < 2)%nat -> at_time d (flip X) j n t l = at_time d X j n t l.
  Proof. intro H. unfold at_time, flip. destruct (Nat.ltb_spec j 2); [reflexivity|lia]. Qed.
  Lemma at_flip_d X j n t l : (2 <= j)%nat -> at_time d (flip X) j n t l = - at_time d X j n t l.
  Proof.
    intro H. unfold at_time, flip. destruct (Nat.ltb_spec j 2); [lia|].
    match goal with |- ?a = - ?b => replace (- b) with (-1 * b) by ring end.
    rewrite <- Rsum_scal. apply Rsum_ext; intro i. ring.
  Qed.
  Lemma ddt_flip_p X j n t l : (j < 2)%nat -> ddt (at_time d (flip X) j n) t l = ddt (at_time d X j n) t l.
  Proof. intro H. unfold ddt. apply Derive_ext; intro s. apply at_flip_p; exact H. Qed.
  Lemma sp_opp1 m w o1 s1 o2 s2 a b : sp D m w o1 s1 o2 s2 (fun l => - a l) b = - sp D m w o1 s1 o2 s2 a b.
  Proof.
    rewrite (sp_ext D m w o1 s1 o2 s2 (fun l => - a l) b (fun l => -1 * a l) b)
      by (intros; ring). rewrite sp_scal1. ring.
  Qed.
  Lemma sp_opp2 m w o1 s1 o2 s2 a b : sp D m w o1 s1 o2 s2 a (fun l => - b l) = - sp D m w o1 s1 o2 s2 a b.
  Proof.
    rewrite (sp_ext D m w o1 s1 o2 s2 a (fun l => - b l) a (fun l => -1 * b l))
      by (intros; ring). rewrite sp_scal2. ring.
  Qed.
End Sym.

(** * Continuity in time *)
Lemma cont_ext_R (f h : R -> R) x : (forall t, f t = h t) -> continuous f x -> continuous h x.
Proof. intros H Hf. apply (continuous_ext f h); [intro t; apply H|exact Hf]. Qed.
Lemma cont_sumn n (f : nat -> R -> R) x :
  (forall i, (i < n)%nat -> continuous (f i) x) -> continuous (fun t => sumn n (fun i => f i t)) x.
Proof.
  induction n as [|n IH]; intro H.
  - apply (cont_ext_R (fun _ => 0)); [intro; reflexivity|apply continuous_const].
  - apply (cont_ext_R (fun t => plus (sumn n (fun i => f i t)) (f n t))).
    + intro t. rewrite sumn_S. reflexivity.
    + apply (continuous_plus (V := R_NormedModule)); [apply IH; intros; apply H; lia|apply H; lia].
Qed.
Lemma cont_mult_R (f g : R -> R) x : continuous f x -> continuous g x -> continuous (fun t => f t * g t) x.
Proof. intros. apply (continuous_mult (K := R_AbsRing) f g); assumption. Qed.
Lemma cont_plus_R (f g : R -> R) x : continuous f x -> continuous g x -> continuous (fun t => f t + g t) x.
Proof. intros. apply (continuous_plus (V := R_NormedModule) f g); assumption. Qed.
Lemma cont_minus_R (f g : R -> R) x : continuous f x -> continuous g x -> continuous (fun t => f t - g t) x.
Proof. intros. apply (continuous_minus (V := R_NormedModule) f g); assumption. Qed.
Lemma cont_affine a dt x : continuous (fun t => (t - a) / dt) x.
Proof.
  apply (cont_ext_R (fun t => / dt * (t - a))); [intro; unfold Rdiv; ring|].
  apply cont_mult_R; [apply continuous_const|].
  apply cont_minus_R; [apply continuous_id|apply continuous_const].
Qed.
Lemma cont_comp_affine (f : R -> R) a dt x : (forall y, continuous f y) -> continuous (fun t => f ((t - a) / dt)) x.
Proof. intro H. apply (continuous_comp (fun t => (t - a) / dt) f); [apply cont_affine|apply H]. Qed.
Lemma cont_sp D m w o1 s1 o2 s2 (F G : R -> vec) na nb (f g : nat -> R -> R) A B x :
  (forall i, (i < na)%nat -> continuous (f i) x) -> (forall i, (i < nb)%nat -> continuous (g i) x) ->
  (forall t l, F t l = sumn na (fun i => f i t * A i l)) ->
  (forall t l, G t l = sumn nb (fun i => g i t * B i l)) ->
  continuous (fun t => sp D m w o1 s1 o2 s2 (F t) (G t)) x.
Proof.
  intros Hf Hg HF HG.
  apply (cont_ext_R (fun t => sumn na (fun j => sumn nb (fun k =>
     sp D m w o1 s1 o2 s2 (A j) (B k) * (f j t * g k t))))).
  - intro t.
    rewrite (sp_ext D m w o1 s1 o2 s2 (F t) (G t) _ _ (fun l _ => HF t l) (fun l _ => HG t l)).
    rewrite sp_sum1. apply Rsum_ext; intro j. rewrite sp_sum2, <- Rsum_scal.
    apply Rsum_ext; intro k. ring.
  - apply cont_sumn; intros j Hj. apply cont_sumn; intros k Hk.
    apply cont_mult_R; [apply continuous_const|apply cont_mult_R; auto].
Qed.

(** a continuous nonnegative function with zero integral vanishes *)
Lemma RInt_zero_cont (f : R -> R) a b : a < b ->
  (forall x, continuous f x) -> (forall x, a <= x <= b -> 0 <= f x) -> RInt f a b = 0 ->
  forall x, a <= x <= b -> f x = 0.
Proof.
  intros Hab Hc Hp Hi.
  assert (Ex : forall u v, ex_RInt f u v)
    by (intros; apply (ex_RInt_continuous (V := R_CompleteNormedModule)); intros; apply Hc).
  assert (G : forall x, a < x < b -> f x = 0).
  { intros x Hx. destruct (Req_dec (f x) 0) as [|Hne]; [assumption|exfalso].
    assert (Hpos : 0 < f x) by (pose proof (Hp x ltac:(lra)); lra).
    pose proof (Hc x) as Hcx. apply continuity_pt_filterlim in Hcx.
    destruct (Hcx (f x) Hpos) as [e [He Hn]].
    set (u := Rmax a (x - e / 2)). set (v := Rmin b (x + e / 2)).
    assert (Huv : a <= u /\ u < x /\ x < v /\ v <= b).
    { unfold u, v, Rmax, Rmin. destruct (Rle_dec _ _), (Rle_dec _ _); lra. }
    assert (I1 : 0 <= RInt f a u).
    { apply RInt_ge_0; [lra|apply Ex|]. intros y Hy; apply Hp; lra. }
    assert (I3 : 0 <= RInt f v b).
    { apply RInt_ge_0; [lra|apply Ex|]. intros y Hy; apply Hp; lra. }
    assert (I2 : 0 < RInt f u v).
    { apply RInt_gt_0; [lra| |intros; apply Hc]. intros y Hy.
      destruct (Req_dec y x) as [->|Hyx]; [exact Hpos|].
      assert (Hd : Rabs (f y - f x) < f x).
      { apply Hn. split; [split; [exact I|auto]|]. cbn. unfold R_dist.
        assert (u >= x - e / 2) by (unfold u; apply Rle_ge, Rmax_r).
        assert (v <= x + e / 2) by (unfold v; apply Rmin_r).
        apply Rabs_def1; lra. }
      apply Rabs_def2 in Hd. lra. }
    pose proof (RInt_Chasles f a u v (Ex _ _) (Ex _ _)) as C1.
    pose proof (RInt_Chasles f a v b (Ex _ _) (Ex _ _)) as C2.
    change (RInt f a u + RInt f u v = RInt f a v) in C1. change (RInt f a v + RInt f v b = RInt f a b) in C2.
    rewrite Hi in C2. lra. }
  intros x Hx. destruct (Req_dec (f x) 0) as [|Hne]; [assumption|exfalso].
  assert (Hpos : 0 < f x) by (pose proof (Hp x ltac:(lra)); lra).
  pose proof (Hc x) as Hcx. apply continuity_pt_filterlim in Hcx.
  destruct (Hcx (f x) Hpos) as [e [He Hn]].
  set (y := if Rlt_dec x ((a + b) / 2) then x + Rmin (e / 2) ((b - a) / 4) else x - Rmin (e / 2) ((b - a) / 4)).
  assert (Hm : 0 < Rmin (e / 2) ((b - a) / 4) <= e / 2 /\ Rmin (e / 2) ((b - a) / 4) <= (b - a) / 4).
  { unfold Rmin; destruct (Rle_dec _ _); lra. }
  assert (Hy : a < y < b /\ x <> y /\ Rabs (y - x) < e).
  { unfold y; destruct (Rlt_dec _ _); (split; [lra|split; [lra|apply Rabs_def1; lra]]). }
  assert (Hd : Rabs (f y - f x) < f x).
  { apply Hn. split; [split; [exact I|tauto]|]. cbn. unfold R_dist. tauto. }
  rewrite (G y) in Hd by tauto. apply Rabs_def2 in Hd. lra.
Qed.

(** nonnegative quadrature weights and cell sizes *)
Record regular (D : disc) (om : nat -> R) : Prop := {
  rg_w : forall m p, In p (d_pts D m) -> 0 <= d_w D m p;
  rg_h : forall m p, In p (d_pts D m) -> 0 < d_h D m p;
  rg_hp : forall p, In p (d_pts D DS) -> 0 <= d_hp D p;
  rg_hm : forall p, In p (d_pts D DS) -> 0 <= d_hm D p;
  rg_om : forall p, In p (d_pts D Dx) -> 0 <= om p }.

Lemma integ_nonneg D m w nc f : nonneg_disc D m w -> 0 <= integ D m w nc f f.
Proof.
  intro H. unfold integ. apply Rsum_nonneg. intros p Hp.
  apply Rmult_le_pos; [apply H; exact Hp|]. apply Rsum_nonneg; intros k _. apply Rle_0_sqr.
Qed.
Lemma reg_one D om m : regular D om -> nonneg_disc D m WOne.
Proof. intros H p Hp. cbn. rewrite Rmult_1_r. apply (rg_w _ _ H m p Hp). Qed.
Lemma reg_om D om : regular D om -> nonneg_disc D Dx (WOm om).
Proof. intros H p Hp. cbn. apply Rmult_le_pos; [apply (rg_w _ _ H _ p Hp)|apply (rg_om _ _ H p Hp)]. Qed.
Lemma reg_h2 D om m : regular D om -> nonneg_disc D m WH2.
Proof. intros H p Hp. cbn. apply Rmult_le_pos; [apply (rg_w _ _ H _ p Hp)|]. rewrite Rmult_1_r. apply Rle_0_sqr. Qed.
Lemma reg_lamh D om m lam : 0 <= lam -> regular D om -> nonneg_disc D m (WLamH lam).
Proof.
  intros Hl H p Hp. cbn. apply Rmult_le_pos; [apply (rg_w _ _ H _ p Hp)|].
  apply Rmult_le_pos; [exact Hl|]. left. apply Rinv_0_lt_compat, (rg_h _ _ H m p Hp).
Qed.
Lemma reg_havg D om : regular D om -> nonneg_disc D DS WHavg.
Proof.
  intros H p Hp. cbn [wval]. apply Rmult_le_pos; [apply (rg_w _ _ H _ p Hp)|].
  pose proof (rg_hp _ _ H p Hp). pose proof (rg_hm _ _ H p Hp). decimals. lra.
Qed.

Section Signs.
  Variables (P : params) (c : config) (g : gammas) (om : nat -> R) (D : disc).
  Hypothesis HB : built P c.
  Hypothesis Hdt : 0 < c_dt c.
  Let d := td c.
  Let Hq := q_le P c HB.
  Let Hqs := qs_le P c HB.
  Notation r n X := (restr (ntime c) n X).

  Ltac cont :=
    intros i Hi;
    lazymatch goal with
    | |- continuous (fun t => _ * Derive _ _) _ =>
        apply cont_mult_R; [apply continuous_const|];
        apply (cont_comp_affine (Derive _)); intro; apply dlag_cont
    | |- continuous (fun t => lagrange _ _ _) _ =>
        apply (cont_comp_affine (lagrange _ _)); intro; apply lag_cont
    end; [apply (ord_le c Hq Hqs) | lia].
  Lemma cont_vv m w o1 s1 o2 s2 X j Y k n x :
    continuous (fun t => sp D m w o1 s1 o2 s2 (at_time d X j n t) (at_time d Y k n t)) x.
  Proof.
    apply (cont_sp D m w o1 s1 o2 s2 (at_time d X j n) (at_time d Y k n) _ _ _ _ _ _ x) with
      (3 := fun t l => at_time_rep c X j n t l) (4 := fun t l => at_time_rep c Y k n t l); cont.
  Qed.
  Lemma cont_dv m w o1 s1 o2 s2 X j Y k n x :
    continuous (fun t => sp D m w o1 s1 o2 s2 (ddt (at_time d X j n) t) (at_time d Y k n t)) x.
  Proof.
    apply (cont_sp D m w o1 s1 o2 s2 (ddt (at_time d X j n)) (at_time d Y k n) _ _ _ _ _ _ x) with
      (3 := fun t l => ddt_rep c Hdt Hq Hqs X j n t l) (4 := fun t l => at_time_rep c Y k n t l); cont.
  Qed.
  Lemma cont_vd m w o1 s1 o2 s2 X j Y k n x :
    continuous (fun t => sp D m w o1 s1 o2 s2 (at_time d X j n t) (ddt (at_time d Y k n) t)) x.
  Proof.
    apply (cont_sp D m w o1 s1 o2 s2 (at_time d X j n) (ddt (at_time d Y k n)) _ _ _ _ _ _ x) with
      (3 := fun t l => at_time_rep c X j n t l) (4 := fun t l => ddt_rep c Hdt Hq Hqs Y k n t l); cont.
  Qed.
  Lemma cont_dd m w o1 s1 o2 s2 X j Y k n x :
    continuous (fun t => sp D m w o1 s1 o2 s2 (ddt (at_time d X j n) t) (ddt (at_time d Y k n) t)) x.
  Proof.
    apply (cont_sp D m w o1 s1 o2 s2 (ddt (at_time d X j n)) (ddt (at_time d Y k n)) _ _ _ _ _ _ x) with
      (3 := fun t l => ddt_rep c Hdt Hq Hqs X j n t l) (4 := fun t l => ddt_rep c Hdt Hq Hqs Y k n t l); cont.
  Qed.
  Ltac conts :=
    lazymatch goal with
    | |- continuous (fun t => _ + _) _ => apply cont_plus_R; conts
    | |- continuous (fun t => _ - _) _ => apply cont_minus_R; conts
    | |- continuous (fun t => sp _ _ _ _ _ _ _ (ddt _ _) (ddt _ _)) _ => apply cont_dd
    | |- continuous (fun t => sp _ _ _ _ _ _ _ (ddt _ _) _) _ => apply cont_dv
    | |- continuous (fun t => sp _ _ _ _ _ _ _ _ (ddt _ _)) _ => apply cont_vd
    | |- continuous (fun t => sp _ _ _ _ _ _ _ _ _) _ => apply cont_vv
    end.

  (** integrands of the quadratic forms *)
  Definition data_at U W n t := L2w D om Vp (at_time d U 0 n t) (at_time d W 0 n t).
  Definition dual_at Y Z n t :=
    L2 D Vd Vd (at_time d Y 2 n t) (at_time d Z 2 n t) + H1 D Vd Vd (at_time d Y 2 n t) (at_time d Z 2 n t)
    + L2 D Vd Vd (at_time d Y 3 n t) (at_time d Z 3 n t) + bndw D (c_lam c) Vd (at_time d Y 2 n t) (at_time d Z 2 n t).
  Definition primal_at U W n t :=
    L2 D Vp Vp (vsub (ddt (at_time d U 0 n) t) (at_time d U 1 n t)) (vsub (ddt (at_time d W 0 n) t) (at_time d W 1 n t))
    + integ D Dx WH2 1 (fun p _ => res2 D d U n t p) (fun p _ => res2 D d W n t p)
    + bndw D (c_lam c) Vp (at_time d U 0 n t) (at_time d W 0 n t) + facet D Vp (at_time d U 0 n t) (at_time d W 0 n t).
  Lemma data_cont U W n x : continuous (data_at U W n) x.
  Proof. unfold data_at, L2w. conts. Qed.
  Lemma dual_cont U W n x : continuous (dual_at U W n) x.
  Proof. unfold dual_at, L2, H1, bndw. conts. Qed.
  Lemma primal_cont U W n x : continuous (primal_at U W n) x.
  Proof.
    apply (cont_ext_R (fun t =>
         sp D Dx WOne Val Vp Val Vp (ddt (at_time d U 0 n) t) (ddt (at_time d W 0 n) t)
         - sp D Dx WOne Val Vp Val Vp (ddt (at_time d U 0 n) t) (at_time d W 1 n t)
         - sp D Dx WOne Val Vp Val Vp (at_time d U 1 n t) (ddt (at_time d W 0 n) t)
         + sp D Dx WOne Val Vp Val Vp (at_time d U 1 n t) (at_time d W 1 n t)
         + sp D Dx WH2 Val Vp Val Vp (ddt (at_time d U 1 n) t) (ddt (at_time d W 1 n) t)
         - sp D Dx WH2 Val Vp Lap Vp (ddt (at_time d U 1 n) t) (at_time d W 0 n t)
         - sp D Dx WH2 Lap Vp Val Vp (at_time d U 0 n t) (ddt (at_time d W 1 n) t)
         + sp D Dx WH2 Lap Vp Lap Vp (at_time d U 0 n t) (at_time d W 0 n t)
         + sp D Ds (WLamH (c_lam c)) Val Vp Val Vp (at_time d U 0 n t) (at_time d W 0 n t)
         + sp D DS WHavg JumpGrad Vp JumpGrad Vp (at_time d U 0 n t) (at_time d W 0 n t))); [|conts].
    intro t. unfold primal_at, L2, vsub, bndw, facet, res2.
    rewrite sp_sub1, !sp_sub2, integ_sub_l, !integ_sub_r, !integ_one by reflexivity. ring.
  Qed.

  Hypothesis HR : regular D om.
  Lemma lam_pos : 0 <= c_lam c.
  Proof. rewrite (bu_lam _ _ HB). pose proof (pow2_ge_0 (INR (p_k P))). lra. Qed.
  Lemma data_at_pos U n t : 0 <= data_at U U n t.
  Proof. apply sp_nonneg. apply reg_om. exact HR. Qed.
  Lemma dual_at_pos Z n t :
    0 <= L2 D Vd Vd (at_time d Z 2 n t) (at_time d Z 2 n t)
    /\ 0 <= H1 D Vd Vd (at_time d Z 2 n t) (at_time d Z 2 n t)
    /\ 0 <= L2 D Vd Vd (at_time d Z 3 n t) (at_time d Z 3 n t)
    /\ 0 <= bndw D (c_lam c) Vd (at_time d Z 2 n t) (at_time d Z 2 n t).
  Proof.
    pose proof (reg_one D om Dx HR). pose proof (reg_lamh D om Ds (c_lam c) lam_pos HR).
    repeat split; apply sp_nonneg; assumption.
  Qed.
  Lemma primal_at_pos U n t :
    0 <= L2 D Vp Vp (vsub (ddt (at_time d U 0 n) t) (at_time d U 1 n t)) (vsub (ddt (at_time d U 0 n) t) (at_time d U 1 n t))
    /\ 0 <= integ D Dx WH2 1 (fun p _ => res2 D d U n t p) (fun p _ => res2 D d U n t p)
    /\ 0 <= bndw D (c_lam c) Vp (at_time d U 0 n t) (at_time d U 0 n t)
    /\ 0 <= facet D Vp (at_time d U 0 n t) (at_time d U 0 n t).
  Proof.
    repeat split; try apply sp_nonneg; try apply integ_nonneg;
    eauto using reg_one, reg_h2, reg_lamh, reg_havg, lam_pos.
  Qed.
  Lemma slab_nonneg f n : (forall x, continuous f x) -> (forall x, 0 <= f x) -> 0 <= over_slab d n f.
  Proof.
    intros Hc Hp. unfold over_slab. cbn. apply RInt_ge_0; [lra| |intros; apply Hp].
    apply (ex_RInt_continuous (V := R_CompleteNormedModule)); intros; apply Hc.
  Qed.
  Lemma slab_zero f n : (forall x, continuous f x) -> (forall x, 0 <= f x) -> over_slab d n f = 0 ->
    forall t, INR n * c_dt c <= t <= INR n * c_dt c + c_dt c -> f t = 0.
  Proof.
    intros Hc Hp H t Ht. apply (RInt_zero_cont f (INR n * c_dt c) (INR n * c_dt c + c_dt c)); auto. lra.
  Qed.
  Lemma data_pos U n : 0 <= data D d om U U n.
  Proof. apply slab_nonneg; [apply (data_cont U U n)|apply (data_at_pos U n)]. Qed.
  Lemma dual_pos U n : 0 <= dual D d (c_lam c) U U n.
  Proof.
    apply (slab_nonneg (dual_at U U n)); [apply (dual_cont U U n)|].
    intro x. pose proof (dual_at_pos U n x). unfold dual_at. lra.
  Qed.
  Lemma primal_pos U n : 0 <= primal D d (c_lam c) U U n.
  Proof.
    apply (slab_nonneg (primal_at U U n)); [apply (primal_cont U U n)|].
    intro x. pose proof (primal_at_pos U n x). unfold primal_at. lra.
  Qed.
  Lemma energy_pos a1 a2 : 0 <= energy D d a1 a2 a1 a2.
  Proof.
    unfold energy. cbn [t_dt td d].
    assert (Hi : 0 < 1 / c_dt c) by (apply Rdiv_lt_0_compat; lra).
    pose proof (reg_one D om Dx HR) as HN.
    pose proof (Rmult_le_pos (1 / c_dt c) _ ltac:(lra) (sp_nonneg D Dx WOne Val Vp a1 HN)).
    pose proof (Rmult_le_pos (c_dt c) _ ltac:(lra) (sp_nonneg D Dx WOne Grad Vp a1 HN)).
    pose proof (Rmult_le_pos (1 / c_dt c) _ ltac:(lra) (sp_nonneg D Dx WOne Val Vp a2 HN)).
    unfold L2, FormSpec.H1. lra.
  Qed.
  Lemma dualjumps_pos Z n : 0 <= dualjumps D d Z Z n.
  Proof.
    unfold dualjumps. cbn. pose proof (reg_one D om Dx HR) as H1'.
    apply Rmult_le_pos; [lra|]. apply Rplus_le_le_0_compat; apply sp_nonneg; exact H1'.
  Qed.

  (** ** change of sign of the dual part *)
  Lemma restr_flip n X : forall j i l, r n (flip X) j i l = flip (r n X) j i l.
  Proof. intros. unfold restr, flip. reflexivity. Qed.
  Lemma wave_flip2 X Y n : wave D d X (flip Y) n = - wave D d X Y n.
  Proof.
    rewrite !(wave_slab P c D HB Hdt), !(eval_fw P c D HB).
    match goal with |- ?a = - ?b => replace (- b) with (-1 * b) by ring end.
    rewrite dsum_scal. apply dsum_ext; intros j k Hj Hk. cbn zeta. unfold restr, flip; cbn [Nat.ltb Nat.leb].
    change (fun l => Y 2%nat (n * ntime c 2 + k)%nat l) with (Y 2%nat (n * ntime c 2 + k)%nat).
    change (fun l => Y 3%nat (n * ntime c 3 + k)%nat l) with (Y 3%nat (n * ntime c 3 + k)%nat).
    rewrite !sp_opp2. ring.
  Qed.
  Lemma wave_flip1 X Y n : wave D d (flip X) Y n = wave D d X Y n.
  Proof.
    rewrite !(wave_slab P c D HB Hdt), !(eval_fw P c D HB).
    apply dsum_ext; intros j k Hj Hk. cbn zeta. unfold restr, flip; cbn [Nat.ltb Nat.leb]. reflexivity.
  Qed.
  Lemma data_flip X Y n : data D d om X (flip Y) n = data D d om X Y n.
  Proof.
    unfold data. apply over_slab_ext; intro t. unfold L2w. apply sp_ext; intros; [reflexivity|].
    apply at_flip_p; lia.
  Qed.
  Lemma primal_flip X Y n : primal D d (c_lam c) X (flip Y) n = primal D d (c_lam c) X Y n.
  Proof.
    unfold primal. apply over_slab_ext; intro t. cbn zeta. unfold L2, bndw, facet. apply f_equal2; [apply f_equal2; [apply f_equal2|]|].
    - apply sp_ext; intros; [reflexivity|]. unfold vsub. rewrite ddt_flip_p, at_flip_p by lia. reflexivity.
    - apply integ_ext; intros; [reflexivity|]. unfold res2. apply f_equal2; apply fev_ext; intros;
      first [apply ddt_flip_p; lia | apply at_flip_p; lia].
    - apply sp_ext; intros; [reflexivity|]. apply at_flip_p; lia.
    - apply sp_ext; intros; [reflexivity|]. apply at_flip_p; lia.
  Qed.
  Lemma dual_flip X Y n : dual D d (c_lam c) (flip X) Y n = - dual D d (c_lam c) X Y n.
  Proof.
    unfold dual, over_slab.
    rewrite <- (RInt_opp (V := R_CompleteNormedModule) (dual_at X Y n)).
    - apply RInt_ext; intros t _. unfold dual_at, opp; cbn. unfold L2, H1, bndw.
      rewrite !(fun m w o1 s1 o2 s2 b => sp_ext D m w o1 s1 o2 s2 (at_time d (flip X) 2 n t) b
         (fun l => - at_time d X 2 n t l) b (fun l _ => at_flip_d d X 2 n t l ltac:(lia)) (fun _ _ => eq_refl)).
      rewrite !(fun m w o1 s1 o2 s2 b => sp_ext D m w o1 s1 o2 s2 (at_time d (flip X) 3 n t) b
         (fun l => - at_time d X 3 n t l) b (fun l _ => at_flip_d d X 3 n t l ltac:(lia)) (fun _ _ => eq_refl)).
      rewrite !sp_opp1. ring.
    - apply (ex_RInt_continuous (V := R_CompleteNormedModule)); intros; apply dual_cont.
  Qed.
  Lemma jumpv_flip X j n l : (j < 2)%nat -> jumpv d (flip X) j n l = jumpv d X j n l.
  Proof. intro H. unfold jumpv, vsub, upper, lower. rewrite !at_flip_p by exact H. reflexivity. Qed.
  Lemma jumps_flip X Y n : jumps D d X (flip Y) n = jumps D d X Y n.
  Proof.
    unfold jumps, energy, L2, H1. apply f_equal2; [apply f_equal2|]; f_equal; apply sp_ext; intros; try reflexivity;
    apply jumpv_flip; lia.
  Qed.
  Lemma init_flip X Y : init D d X (flip Y) = init D d X Y.
  Proof.
    unfold init, energy, L2, H1. apply f_equal2; [apply f_equal2|]; f_equal; apply sp_ext; intros; try reflexivity;
    apply at_flip_p; lia.
  Qed.
  Lemma fwjumps_flip1 X Y n : fwjumps D d (flip X) Y n = fwjumps D d X Y n.
  Proof. unfold fwjumps, L2. f_equal; apply sp_ext; intros; try reflexivity; apply jumpv_flip; lia. Qed.
  Lemma fwjumps_flip2 X Y n : fwjumps D d X (flip Y) n = - fwjumps D d X Y n.
  Proof.
    unfold fwjumps, L2.
    rewrite (sp_ext _ _ _ _ _ _ _ (jumpv d X 1 n) (upper d (flip Y) 2 n) (jumpv d X 1 n) (fun l => - upper d Y 2 n l)),
      (sp_ext _ _ _ _ _ _ _ (jumpv d X 0 n) (upper d (flip Y) 3 n) (jumpv d X 0 n) (fun l => - upper d Y 3 n l)),
      !sp_opp2 by (intros; try reflexivity; apply at_flip_d; lia). ring.
  Qed.
  Lemma dualjumps_flip X Y n : dualjumps D d (flip X) Y n = - dualjumps D d X Y n.
  Proof.
    unfold dualjumps, L2.
    rewrite (sp_ext _ _ _ _ _ _ _ (upper d (flip X) 3 n) (upper d Y 3 n) (fun l => - upper d X 3 n l) (upper d Y 3 n)),
      (sp_ext _ _ _ _ _ _ _ (upper d (flip X) 2 n) (upper d Y 2 n) (fun l => - upper d X 2 n l) (upper d Y 2 n)),
      !sp_opp1 by (intros; try reflexivity; apply at_flip_d; lia). ring.
  Qed.
  (** the energy identity *)
  Definition quad_spec (X : field) (n : nat) : R :=
    g_data g * data D d om X X n + g_dual g * dual D d (c_lam c) X X n + g_primal g * primal D d (c_lam c) X X n
    + (if Nat.ltb 0 n then g_jump g * jumps D d X X n + (if c_jumps c then g_dual g * dualjumps D d X X n else 0)
       else if c_wp c then g_jump g * init D d X X else 0).
  Lemma signs X :
    eval D (st_form c g om false) X (flip X)
    = - (1e-20 * L2 D Vp Vd (X 0%nat 0%nat) (X 2%nat 0%nat)) + sumn (c_N c) (quad_spec X).
  Proof.
    rewrite (st_form_spec P c g om D HB Hdt). f_equal.
    - unfold L2, flip. cbn [Nat.ltb Nat.leb]. rewrite sp_opp2. ring.
    - apply Rsum_ext; intro n. unfold slab_spec, extra_spec, quad_spec. fold d.
      rewrite wave_flip2, wave_flip1, data_flip, primal_flip, dual_flip, jumps_flip, init_flip,
        fwjumps_flip1, fwjumps_flip2, dualjumps_flip.
      destruct (Nat.ltb 0 n), (c_jumps c), (c_wp c); ring.
  Qed.
  Lemma quad_spec_pos X n : 0 <= g_data g -> 0 <= g_dual g -> 0 <= g_primal g -> 0 <= g_jump g ->
    0 <= g_data g * data D d om X X n /\ 0 <= g_dual g * dual D d (c_lam c) X X n
    /\ 0 <= g_primal g * primal D d (c_lam c) X X n
    /\ 0 <= g_jump g * jumps D d X X n /\ 0 <= g_dual g * dualjumps D d X X n
    /\ 0 <= g_jump g * init D d X X /\ 0 <= quad_spec X n.
  Proof.
    intros G1 G2 G3 G4.
    assert (A1 := Rmult_le_pos _ _ G1 (data_pos X n)).
    assert (A2 := Rmult_le_pos _ _ G2 (dual_pos X n)).
    assert (A3 := Rmult_le_pos _ _ G3 (primal_pos X n)).
    assert (A4 : 0 <= g_jump g * jumps D d X X n) by (apply Rmult_le_pos; [exact G4|apply energy_pos]).
    assert (A5 := Rmult_le_pos _ _ G2 (dualjumps_pos X n)).
    assert (A6 : 0 <= g_jump g * init D d X X) by (apply Rmult_le_pos; [exact G4|apply energy_pos]).
    repeat (split; [assumption|]). unfold quad_spec. destruct (Nat.ltb 0 n), (c_jumps c), (c_wp c); lra.
  Qed.
End Signs.
