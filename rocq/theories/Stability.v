(** Stability.v -- the energy norm of the discrete solution is bounded by the
    residual, and by the measured data (C69, C70). *)
From Coq Require Import Reals List ZArith Lra Lia Bool String.
From Coquelicot Require Import Coquelicot.
From Verif Require Import Base TimeModel TimeSpec TimeProofs QuadProofs FormModel FormSpec FormProofs
  SpaceTimeForms FormBlocks GuardProofs FormTime FormC12 FormSym RhsProofs FormStruct FormCons WellPosed Injective.
Import ListNotations.
Open Scope R_scope.

(** the rule of setup_rhs on squares of polynomials of degree three *)
Lemma radau_sq a qr zs : QuadRule "Gauss-Radau" 4 = Ok qr -> zip_rule qr = Ok zs ->
  Rsum zs (fun '(tau, w) => w * (cub a tau * cub a tau)) <= 2 * cub_sq a.
Proof.
  intros E1 E2. cbn in E1. injection E1; intros <-; clear E1. cbn in E2. injection E2; intros <-; clear E2.
  rewrite !Rsum_cons, Rsum_nil. unfold cub, cub_sq.
  set (a0 := a 0%nat). set (a1 := a 1%nat). set (a2 := a 2%nat). set (a3 := a 3%nat). cbn zeta.
  set (b3 := a3 / 20). set (b2 := (a2 + 30 * b3) / 6). set (b1 := (a1 + 6 * b2 - 12 * b3) / 2).
  set (b0 := a0 + b1 - b2 + b3).
  assert (E3 : a3 = 20 * b3) by (unfold b3; field).
  assert (E2 : a2 = 6 * b2 - 30 * b3) by (unfold b2; field).
  assert (E1 : a1 = 2 * b1 - 6 * b2 + 12 * b3) by (unfold b1; field).
  assert (E0 : a0 = b0 - b1 + b2 - b3) by (unfold b0; ring).
  rewrite E0, E1, E2, E3. clearbody b0 b1 b2 b3. clear.
  pose proof (Rle_0_sqr (b0 + b1)) as P1. pose proof (Rle_0_sqr (b0 - b1)) as N1.
  pose proof (Rle_0_sqr (b0 + b2)) as P2. pose proof (Rle_0_sqr (b0 - b2)) as N2.
  pose proof (Rle_0_sqr (b0 + b3)) as P3. pose proof (Rle_0_sqr (b0 - b3)) as N3.
  pose proof (Rle_0_sqr (b1 + b2)) as P4. pose proof (Rle_0_sqr (b1 - b2)) as N4.
  pose proof (Rle_0_sqr (b1 + b3)) as P5. pose proof (Rle_0_sqr (b1 - b3)) as N5.
  pose proof (Rle_0_sqr (b2 + b3)) as P6. pose proof (Rle_0_sqr (b2 - b3)) as N6.
  pose proof (Rle_0_sqr b0) as S0. pose proof (Rle_0_sqr b1) as S1.
  pose proof (Rle_0_sqr b2) as S2. pose proof (Rle_0_sqr b3) as S3.
  unfold Rsqr in *. decimals. lra.
Qed.
Lemma radau_pos qr zs tau w : QuadRule "Gauss-Radau" 4 = Ok qr -> zip_rule qr = Ok zs -> In (tau, w) zs -> 0 <= w.
Proof.
  intros E1 E2. cbn in E1. injection E1; intros <-; clear E1. cbn in E2. injection E2; intros <-; clear E2. cbn [In].
  intros H. decompose [or] H; clear H; try contradiction;
  match goal with E : (_, _) = _ |- _ => injection E; intros; subst end; decimals; lra.
Qed.

Section Stab.
  Variables (P : params) (c : config) (g : gammas) (om : nat -> R) (D : disc).
  Hypothesis HB : built P c.
  Hypothesis Hdt : 0 < c_dt c.
  Let d := td c.
  Let Hq := q_le P c HB.
  Let Hqs := qs_le P c HB.
  Hypothesis HR : regular D om.
  Notation r := (restr (ntime c)).

  (** squares in time, by quadrature point *)
  Lemma time_sq m w s o C X j n :
    (forall t l, at_time d X j n t l = vcub C ((t - INR n * c_dt c) / c_dt c) l) ->
    is_RInt (fun t => sp D m w o s o s (at_time d X j n t) (at_time d X j n t))
      (INR n * c_dt c) (INR n * c_dt c + c_dt c)
      (c_dt c * Rsum (d_pts D m) (fun p => d_w D m p * wval D m w p *
         sumn (ncomp D o) (fun k => cub_sq (fun i => fev D m s o (C i) p k)))).
  Proof.
    intro HC. set (a := INR n * c_dt c).
    rewrite <- Rsum_scal.
    apply is_RInt_ext_R with (f := fun t => Rsum (d_pts D m) (fun p =>
       (d_w D m p * wval D m w p) * sumn (ncomp D o) (fun k =>
          cub (fun i => fev D m s o (C i) p k) ((t - a) / c_dt c) * cub (fun i => fev D m s o (C i) p k) ((t - a) / c_dt c)))).
    - intro t. unfold sp, integ. apply Rsum_ext; intro p. f_equal. apply Rsum_ext; intro k.
      rewrite (fev_ext D m s o (at_time d X j n t) (vcub C ((t - a) / c_dt c))) by (intros l _; apply HC).
      rewrite fev_cub. reflexivity.
    - apply is_RInt_Rsum. intro p.
      apply is_RInt_eq with (I := (d_w D m p * wval D m w p) * sumn (ncomp D o) (fun k => c_dt c * cub_sq (fun i => fev D m s o (C i) p k))).
      + apply is_RInt_scal_R. apply is_RInt_sumn. intros k _.
        set (co := fun i => fev D m s o (C i) p k).
        pose proof (prod_int a (c_dt c) (cub co) (cub co) Hdt (cub_continuous _) (cub_continuous _)) as E.
        rewrite (is_RInt_unique _ _ _ _ (cub_sq_int co)) in E. exact E.
      + rewrite Rsum_scal. ring.
  Qed.

  (** measurement against a discrete function on one slab, at the quadrature times *)
  Definition slab_noise (dl : R -> nat -> R) (n : nat) : R :=
    c_dt c * Rsum (c_qr c) (fun '(tau, w) => w * Rsum (d_pts D Dx) (fun p =>
      d_w D Dx p * om p * (dl (INR n * c_dt c + c_dt c * tau) p * dl (INR n * c_dt c + c_dt c * tau) p))).
  Lemma slab_noise_young dl Y n mu : 0 < mu ->
    c_dt c * Rsum (c_qr c) (fun '(tau, w) => w * sumn (S (c_q c)) (fun k =>
        lagrange (c_q c) k tau
        * integ D Dx (WOm om) 1 (fun p _ => dl (INR n * c_dt c + c_dt c * tau) p)
             (fev D Dx Vp Val (Y 0%nat (n * S (c_q c) + k)%nat))))
    <= mu / 2 * slab_noise dl n + 1 / mu * data D d om Y Y n.
  Proof.
    intro Hmu. destruct (at_cub P c HB Hdt Y 0 n) as [C HC]. fold d in HC.
    set (co := fun p i => fev D Dx Vp Val (C i) p 0).
    assert (ED : data D d om Y Y n = c_dt c * Rsum (d_pts D Dx) (fun p => d_w D Dx p * om p * cub_sq (co p))).
    { unfold data, over_slab. cbn [t_dt td d]. unfold L2w.
      rewrite (is_RInt_unique _ _ _ _ (time_sq Dx (WOm om) Vp Val C Y 0 n (fun t l => proj1 (HC t l)))).
      f_equal. apply Rsum_ext; intro p. cbn [wval ncomp seq]. rewrite Rsum_cons, Rsum_nil. unfold co. ring. }
    rewrite ED. unfold slab_noise.
    destruct (bu_qr _ _ HB) as [qr [E1 E2]].
    rewrite <- !Rmult_assoc, (Rmult_comm (mu / 2)), (Rmult_comm (1 / mu)), !Rmult_assoc, <- Rmult_plus_distr_l.
    apply Rmult_le_compat_l; [lra|].
    apply Rle_trans with (Rsum (c_qr c) (fun '(tau, w) => w * Rsum (d_pts D Dx) (fun p =>
        d_w D Dx p * om p * (mu / 2 * (dl (INR n * c_dt c + c_dt c * tau) p * dl (INR n * c_dt c + c_dt c * tau) p)
          + 1 / (2 * mu) * (cub (co p) tau * cub (co p) tau))))).
    - apply Rsum_le_in. intros [tau w] Hin. apply Rmult_le_compat_l; [apply (radau_pos _ _ _ _ E1 E2 Hin)|].
      set (t := INR n * c_dt c + c_dt c * tau).
      assert (EI : sumn (S (c_q c)) (fun k => lagrange (c_q c) k tau
          * integ D Dx (WOm om) 1 (fun p _ => dl t p) (fev D Dx Vp Val (Y 0%nat (n * S (c_q c) + k)%nat)))
        = Rsum (d_pts D Dx) (fun p => d_w D Dx p * om p * (dl t p * cub (co p) tau))).
      { unfold integ. rewrite (Rsum_ext (seq 0 (S (c_q c))) _ (fun k => Rsum (d_pts D Dx) (fun p =>
           lagrange (c_q c) k tau * (d_w D Dx p * om p * (dl t p * fev D Dx Vp Val (Y 0%nat (n * S (c_q c) + k)%nat) p 0))))).
        2: { intro k. rewrite <- Rsum_scal. apply Rsum_ext; intro p. cbn [wval seq]. rewrite Rsum_cons, Rsum_nil. ring. }
        rewrite Rsum_swap. apply Rsum_ext; intro p.
        assert (EC : cub (co p) tau = sumn (S (c_q c)) (fun k => lagrange (c_q c) k tau * fev D Dx Vp Val (Y 0%nat (n * S (c_q c) + k)%nat) p 0)).
        { unfold co. rewrite <- fev_cub.
          rewrite (fev_ext D Dx Vp Val (vcub C tau) (at_time d Y 0 n t)).
          - unfold at_time. rewrite <- fev_sum. apply fev_ext. intros l _. cbn [ord Nat.ltb Nat.leb t_q t_dt td d].
            apply Rsum_ext; intro k. replace ((t - INR n * c_dt c) / c_dt c) with tau by (unfold t; field; lra). reflexivity.
          - intros l _. rewrite (proj1 (HC t l)). f_equal. unfold t. field. lra. }
        rewrite EC, <- !Rsum_scal. apply Rsum_ext; intro k. ring. }
      rewrite EI. apply Rsum_le_in. intros p Hp.
      pose proof (Rmult_le_pos _ _ (rg_w _ _ HR Dx p Hp) (rg_om _ _ HR p Hp)) as Hw.
      apply Rmult_le_compat_l; [exact Hw|].
      set (x := dl t p). set (y := cub (co p) tau).
      assert (Q : 0 <= / (2 * mu) * Rsqr (mu * x - y)) by (apply Rmult_le_pos; [left; apply Rinv_0_lt_compat; lra|apply Rle_0_sqr]).
      assert (E : / (2 * mu) * Rsqr (mu * x - y) = mu / 2 * (x * x) - x * y + 1 / (2 * mu) * (y * y)) by (unfold Rsqr; field; lra).
      lra.
    - assert (ES : Rsum (c_qr c) (fun '(tau, w) => w * Rsum (d_pts D Dx) (fun p =>
        d_w D Dx p * om p * (mu / 2 * (dl (INR n * c_dt c + c_dt c * tau) p * dl (INR n * c_dt c + c_dt c * tau) p)
          + 1 / (2 * mu) * (cub (co p) tau * cub (co p) tau))))
        = mu / 2 * Rsum (c_qr c) (fun '(tau, w) => w * Rsum (d_pts D Dx) (fun p =>
            d_w D Dx p * om p * (dl (INR n * c_dt c + c_dt c * tau) p * dl (INR n * c_dt c + c_dt c * tau) p)))
          + 1 / (2 * mu) * Rsum (d_pts D Dx) (fun p => d_w D Dx p * om p *
              Rsum (c_qr c) (fun '(tau, w) => w * (cub (co p) tau * cub (co p) tau)))).
      { rewrite <- Rsum_scal.
        rewrite (Rsum_ext (d_pts D Dx) (fun p => d_w D Dx p * om p * Rsum (c_qr c) (fun '(tau, w) => w * (cub (co p) tau * cub (co p) tau)))
          (fun p => Rsum (c_qr c) (fun x => let '(tau, w) := x in d_w D Dx p * om p * (w * (cub (co p) tau * cub (co p) tau))))).
        2: { intro p. rewrite <- Rsum_scal. apply Rsum_ext; intros [tau w]. reflexivity. }
        rewrite Rsum_swap, <- Rsum_scal, <- Rsum_plus. apply Rsum_ext; intros [tau w].
        rewrite (Rsum_ext (d_pts D Dx) (fun p => d_w D Dx p * om p * (w * (cub (co p) tau * cub (co p) tau)))
          (fun p => w * (d_w D Dx p * om p * (cub (co p) tau * cub (co p) tau)))) by (intro; ring).
        rewrite Rsum_scal.
        rewrite (Rsum_ext (d_pts D Dx) _ (fun p => mu / 2 * (d_w D Dx p * om p * (dl (INR n * c_dt c + c_dt c * tau) p * dl (INR n * c_dt c + c_dt c * tau) p))
          + 1 / (2 * mu) * (d_w D Dx p * om p * (cub (co p) tau * cub (co p) tau)))) by (intro; ring).
        rewrite Rsum_plus, !Rsum_scal. ring. }
      rewrite ES. apply Rplus_le_compat_l.
      assert (H2 : Rsum (d_pts D Dx) (fun p => d_w D Dx p * om p * Rsum (c_qr c) (fun '(tau, w) => w * (cub (co p) tau * cub (co p) tau)))
        <= 2 * Rsum (d_pts D Dx) (fun p => d_w D Dx p * om p * cub_sq (co p))).
      { rewrite <- Rsum_scal. apply Rsum_le_in. intros p Hp.
        pose proof (Rmult_le_pos _ _ (rg_w _ _ HR Dx p Hp) (rg_om _ _ HR p Hp)) as Hw.
        pose proof (radau_sq (co p) qr (c_qr c) E1 E2) as Q.
        pose proof (Rmult_le_compat_l _ _ _ Hw Q). lra. }
      assert (Hi : 0 <= 1 / (2 * mu)) by (apply Rlt_le, Rdiv_lt_0_compat; lra).
      pose proof (Rmult_le_compat_l _ _ _ Hi H2) as H3.
      replace (1 / mu) with (2 * (1 / (2 * mu))) by (field; lra). lra.
  Qed.
  Lemma slab_noise_nonneg dl n : 0 <= slab_noise dl n.
  Proof.
    unfold slab_noise. destruct (bu_qr _ _ HB) as [qr [E1 E2]]. apply Rmult_le_pos; [lra|].
    apply Rsum_nonneg. intros [tau w] Hin. apply Rmult_le_pos; [apply (radau_pos _ _ _ _ E1 E2 Hin)|].
    apply Rsum_nonneg. intros p Hp. apply Rmult_le_pos; [|apply Rle_0_sqr].
    apply Rmult_le_pos; [apply (rg_w _ _ HR Dx p Hp)|apply (rg_om _ _ HR p Hp)].
  Qed.

  Hypothesis Gd : 0 <= g_data g.
  Hypothesis Gz : 0 < g_dual g.
  Hypothesis Gp : 0 <= g_primal g.
  Hypothesis Gj : 0 <= g_jump g.
  Definition qsum (X : field) : R := sumn (c_N c) (quad_spec c g om D X).

  Lemma qsum_ge X : g_dual g * dual D d (c_lam c) X X 0 <= qsum X
    /\ sumn (c_N c) (fun n => g_data g * data D d om X X n) <= qsum X.
  Proof.
    assert (QP : forall n, let '(a, b) := (g_data g * data D d om X X n, g_dual g * dual D d (c_lam c) X X n) in
        0 <= a /\ 0 <= b /\ a <= quad_spec c g om D X n /\ b <= quad_spec c g om D X n).
    { intro n. pose proof (quad_spec_pos P c g om D HB Hdt HR X n Gd (Rlt_le _ _ Gz) Gp Gj) as [A1 [A2 [A3 [A4 [A5 [A6 _]]]]]].
      cbv zeta. unfold quad_spec. fold d in A1, A2, A3, A4, A5, A6 |- *.
      destruct (Nat.ltb 0 n), (c_jumps c), (c_wp c); lra. }
    pose proof (bu_N _ _ HB) as HN. split.
    - unfold qsum. destruct (c_N c) as [|N]; [lia|]. cbn [seq]. rewrite Rsum_cons.
      assert (0 <= Rsum (seq 1 N) (quad_spec c g om D X)) by (apply Rsum_nonneg; intros n _; pose proof (QP n); lra).
      pose proof (QP 0%nat). lra.
    - unfold qsum. apply Rsum_le_in. intros n _. pose proof (QP n). lra.
  Qed.
  (** the regularisation term, absorbed *)
  Lemma reg_absorb X k : 0 < k -> 1e-20 * L2 D Vp Vd (X 0%nat 0%nat) (X 2%nat 0%nat)
    <= 1e-20 ^ 2 * (4 * k / (g_dual g * c_dt c)) * L2 D Vp Vp (X 0%nat 0%nat) (X 0%nat 0%nat) + 1 / k * qsum X.
  Proof.
    intro Hk. assert (Gdt : 0 < g_dual g * c_dt c) by (apply Rmult_lt_0_compat; lra).
    assert (Hb : 0 < g_dual g * c_dt c / (16 * k)) by (apply Rdiv_lt_0_compat; lra).
    pose proof (young om D HR Vp Vd 1e-20 (g_dual g * c_dt c / (16 * k)) (X 0%nat 0%nat) (X 2%nat 0%nat) Hb) as Y.
    replace (1e-20 ^ 2 / (4 * (g_dual g * c_dt c / (16 * k)))) with (1e-20 ^ 2 * (4 * k / (g_dual g * c_dt c))) in Y
      by (field; repeat split; lra).
    pose proof (dual_trace P c om D HB Hdt HR X 0) as T. change (0 * S (c_qs c))%nat with 0%nat in T. fold d in T.
    destruct (qsum_ge X) as [Q _].
    assert (H1 : g_dual g * c_dt c / (16 * k) * L2 D Vd Vd (X 2%nat 0%nat) (X 2%nat 0%nat) <= 1 / k * qsum X).
    { apply Rle_trans with (1 / k * (g_dual g * dual D d (c_lam c) X X 0)).
      - replace (g_dual g * c_dt c / (16 * k) * L2 D Vd Vd (X 2%nat 0%nat) (X 2%nat 0%nat))
          with (1 / k * (g_dual g * (c_dt c / 16 * L2 D Vd Vd (X 2%nat 0%nat) (X 2%nat 0%nat)))) by (field; lra).
        apply Rmult_le_compat_l; [apply Rlt_le, Rdiv_lt_0_compat; lra|]. apply Rmult_le_compat_l; lra.
      - apply Rmult_le_compat_l; [apply Rlt_le, Rdiv_lt_0_compat; lra|exact Q]. }
    lra.
  Qed.
  Lemma energy_identity X : qsum X
    = eval D (st_form c g om false) X (flip X) + 1e-20 * L2 D Vp Vd (X 0%nat 0%nat) (X 2%nat 0%nat).
  Proof. unfold qsum. rewrite (signs P c g om D HB Hdt X). ring. Qed.
  Lemma inf_sup X : qsum X <= 2 * eval D (st_form c g om false) X (flip X)
    + 16 * 1e-20 ^ 2 / (g_dual g * c_dt c) * L2 D Vp Vp (X 0%nat 0%nat) (X 0%nat 0%nat).
  Proof.
    pose proof (energy_identity X) as E. pose proof (reg_absorb X 2 ltac:(lra)) as A.
    assert (Gdt : 0 < g_dual g * c_dt c) by (apply Rmult_lt_0_compat; lra).
    replace (16 * 1e-20 ^ 2 / (g_dual g * c_dt c)) with (2 * (1e-20 ^ 2 * (4 * 2 / (g_dual g * c_dt c)))) by (field; split; lra).
    lra.
  Qed.
  (** solutions for different measurements *)
  Lemma noise_bound E dl :
    eval D (st_form c g om false) E (flip E)
      = sumn (c_N c) (fun n => g_data g * (c_dt c * Rsum (c_qr c) (fun '(tau, w) => w * sumn (S (c_q c)) (fun k =>
        lagrange (c_q c) k tau
        * integ D Dx (WOm om) 1 (fun p _ => dl (INR n * c_dt c + c_dt c * tau) p)
             (fev D Dx Vp Val (E 0%nat (n * S (c_q c) + k)%nat)))))) ->
    qsum E <= 4 * sumn (c_N c) (fun n => g_data g * slab_noise dl n)
      + 32 * 1e-20 ^ 2 / (g_dual g * c_dt c) * L2 D Vp Vp (E 0%nat 0%nat) (E 0%nat 0%nat).
  Proof.
    intro HE. pose proof (energy_identity E) as I. pose proof (reg_absorb E 4 ltac:(lra)) as A.
    assert (F : eval D (st_form c g om false) E (flip E) <= 2 * sumn (c_N c) (fun n => g_data g * slab_noise dl n) + 1 / 4 * qsum E).
    { rewrite HE. apply Rle_trans with (2 * sumn (c_N c) (fun n => g_data g * slab_noise dl n)
         + 1 / 4 * sumn (c_N c) (fun n => g_data g * data D d om E E n)).
      - rewrite <- !Rsum_scal, <- Rsum_plus. apply Rsum_le_in. intros n _.
        pose proof (slab_noise_young dl E n 4 ltac:(lra)) as Y.
        pose proof (Rmult_le_compat_l _ _ _ Gd Y). lra.
      - apply Rplus_le_compat_l. destruct (qsum_ge E) as [_ Q]. lra. }
    assert (Gdt : 0 < g_dual g * c_dt c) by (apply Rmult_lt_0_compat; lra).
    replace (32 * 1e-20 ^ 2 / (g_dual g * c_dt c)) with (2 * (1e-20 ^ 2 * (4 * 4 / (g_dual g * c_dt c)))) by (field; split; lra).
    lra.
  Qed.
End Stab.
