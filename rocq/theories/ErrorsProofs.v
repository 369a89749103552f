(** ErrorsProofs.v -- measured_errors computes the quantities of ErrorsSpec.v. *)
From Coq Require Import Reals List ZArith Lra Lia Bool String.
From Coquelicot Require Import Coquelicot.
From Verif Require Import QuadProofs Base TimeModel TimeSpec TimeProofs FormModel FormSpec FormProofs SpaceTimeForms FormBlocks FormTime FormC12
  FormCons SpaceTimeModel SlabOps ApplyProofs MarchProofs MarchLoops ErrorsModel ErrorsSpec Lifecycle LifeProofs OpsProofs SetupOk.
Import ListNotations.
Open Scope R_scope.
Open Scope monad_scope.

Section Rec.
  Variables (P : params) (c : config) (D : disc) (U : field).
  Hypothesis HB : built P c.
  Hypothesis Hdt : 0 < c_dt c.
  Notation d := (td c).
  Let Hq := q_le P c HB.
  Let Hqs := qs_le P c HB.

  Lemma sigma n t : (2 * t - (INR n * c_dt c + c_dt c + INR n * c_dt c)) / c_dt c = (2 * t - (2 * INR n + 1) * t_dt d) / t_dt d.
  Proof. cbn [t_dt td]. f_equal. ring. Qed.
  Lemma theta_lift x : theta_ref x = lift_pol x.
  Proof. rewrite theta_ref_eq. unfold lift_pol. field. Qed.
  Lemma jump_coef n l : (0 < n)%nat -> jumpv d U 0 n l = U 0%nat (n * S (c_q c))%nat l - U 0%nat (n * S (c_q c) - 1)%nat l.
  Proof.
    intro Hn. unfold jumpv, vsub. rewrite (upper_coef c Hdt Hq Hqs), (lower_coef c Hdt Hq Hqs) by exact Hn. reflexivity.
  Qed.

  (** * Continuity of the reconstruction *)
  Lemma rec_start n l : recon d U n (INR n * c_dt c) l = if Nat.ltb 0 n then lower d U 0 n l else upper d U 0 0 l.
  Proof.
    unfold recon. change (at_time d U 0 n (INR n * c_dt c) l) with (upper d U 0 n l). destruct (Nat.ltb_spec 0 n).
    - replace ((2 * (INR n * c_dt c) - (2 * INR n + 1) * t_dt d) / t_dt d) with (-1) by (cbn; field; lra).
      unfold jumpv, vsub, lift_pol. field.
    - replace n with 0%nat by lia. ring.
  Qed.
  Lemma rec_end n l : recon d U n (INR n * c_dt c + c_dt c) l = lower d U 0 (S n) l.
  Proof.
    unfold recon, lower. replace (S n - 1)%nat with n by lia.
    replace (INR (S n) * t_dt d) with (INR n * c_dt c + c_dt c) by (rewrite S_INR; cbn; ring).
    destruct (Nat.ltb 0 n); [|ring].
    replace ((2 * (INR n * c_dt c + c_dt c) - (2 * INR n + 1) * t_dt d) / t_dt d) with 1 by (cbn; field; lra).
    unfold lift_pol. field.
  Qed.
  Lemma rec_cont n l : recon d U (S n) (INR (S n) * c_dt c) l = recon d U n (INR n * c_dt c + c_dt c) l.
  Proof. rewrite rec_start, rec_end. reflexivity. Qed.
  Lemma rec_derive n t l : is_derive (fun s => recon d U n s l) t (ddt (recon d U n) t l).
  Proof.
    unfold ddt. apply Derive_correct. unfold recon. apply (ex_derive_minus (V := R_NormedModule) (fun s => at_time d U 0 n s l)).
    - eexists. apply (is_derive_ext_R (fun s => sumn (S (ord d 0)) (fun i => lagrange (ord d 0) i ((s - INR n * c_dt c) / c_dt c) * restr (ntime c) n U 0%nat i l))).
      { intro s. symmetry. apply at_time_rep. }
      apply Derive_correct.
      assert (G : forall m, (m <= S (ord d 0))%nat -> ex_derive (fun s => sumn m (fun i => lagrange (ord d 0) i ((s - INR n * c_dt c) / c_dt c) * restr (ntime c) n U 0%nat i l)) t).
      { induction m as [|m IH]; intro Hm.
        - apply (ex_derive_ext (fun _ => 0)); [reflexivity|apply ex_derive_const].
        - apply (ex_derive_ext (fun s => plus (sumn m (fun i => lagrange (ord d 0) i ((s - INR n * c_dt c) / c_dt c) * restr (ntime c) n U 0%nat i l))
            (lagrange (ord d 0) m ((s - INR n * c_dt c) / c_dt c) * restr (ntime c) n U 0%nat m l))).
          { intro s. rewrite sumn_S. reflexivity. }
          apply (ex_derive_plus (V := R_NormedModule)); [apply IH; lia|].
          apply (ex_derive_mult (fun s => lagrange (ord d 0) m ((s - INR n * c_dt c) / c_dt c)) (fun _ => restr (ntime c) n U 0%nat m l)); [|apply ex_derive_const].
          apply (ex_derive_comp (lagrange (ord d 0) m) (fun s => (s - INR n * c_dt c) / c_dt c)).
          + apply lag_derive; [apply (ord_le c Hq Hqs)|lia].
          + auto_derive. lra. }
      apply G. lia.
    - destruct (Nat.ltb 0 n); [|apply ex_derive_const]. unfold lift_pol. auto_derive. cbn. lra.
  Qed.
  Lemma rec_ddt n t l : ddt (recon d U n) t l = ddt (at_time d U 0 n) t l
    - (if Nat.ltb 0 n then 2 / c_dt c * jumpv d U 0 n l * d_theta_ref ((2 * t - (2 * INR n + 1) * t_dt d) / t_dt d) else 0).
  Proof.
    unfold ddt. unfold recon.
    assert (A : ex_derive (fun s => at_time d U 0 n s l) t).
    { pose proof (rec_derive n t l) as Rd. destruct (Nat.ltb_spec 0 n) as [Hn|Hn].
      - apply (ex_derive_ext (fun s => plus (recon d U n s l) (lift_pol ((2 * s - (2 * INR n + 1) * t_dt d) / t_dt d) * jumpv d U 0 n l))).
        { intro s. unfold recon. destruct (Nat.ltb_spec 0 n); [|lia]. unfold plus; cbn. match goal with |- @eq _ ?a ?b => change (@eq R a b) end. ring. }
        apply (ex_derive_plus (V := R_NormedModule)); [eexists; exact Rd|]. unfold lift_pol. auto_derive. cbn. lra.
      - apply (ex_derive_ext (fun s => recon d U n s l)); [|eexists; exact Rd].
        intro s. unfold recon. destruct (Nat.ltb_spec 0 n); [lia|]. match goal with |- @eq _ ?a ?b => change (@eq R a b) end. ring. }
    rewrite (Derive_minus (fun s => at_time d U 0 n s l)); [|exact A|].
    2: { destruct (Nat.ltb 0 n); [unfold lift_pol; auto_derive; cbn; lra|apply ex_derive_const]. }
    f_equal. destruct (Nat.ltb 0 n); [|rewrite Derive_const; reflexivity].
    rewrite d_theta_ref_eq. apply is_derive_unique. unfold lift_pol. auto_derive; [cbn; lra|]. cbn [t_dt td]. field. lra.
  Qed.

  (** * The expressions of the code *)
  Variables (us : nat -> vec) (um : vec) (n : nat).
  Hypothesis Hus : forall j l, (j < S (c_q c))%nat -> (l < d_dim D Vp)%nat -> us j l = U 0%nat (n * S (c_q c) + j)%nat l.
  Hypothesis Hum : forall l, (0 < n)%nat -> (l < d_dim D Vp)%nat -> um l = U 0%nat (n * S (c_q c) - 1)%nat l.
  Variable E : env.
  Hypothesis HEc : e_c E = c.
  Hypothesis HED : e_D E = D.
  Lemma phi_lag j x : (j < S (c_q c))%nat -> nth j (c_phi c) (fun _ => 0) x = lagrange (c_q c) j x.
  Proof.
    intro Hj. pose proof (basis_lagrange _ _ _ (bu_phi _ _ HB)) as L. rewrite <- (bu_cq _ _ HB) in L. apply (L j x). lia.
  Qed.
  Lemma dphi_lag j x : (j < S (c_q c))%nat -> nth j (c_dphi c) (fun _ => 0) x = Derive (lagrange (c_q c) j) x.
  Proof.
    intro Hj. pose proof (basis_derivative _ _ _ (bu_phi _ _ HB) j x) as L. symmetry. apply is_derive_unique.
    apply (is_derive_ext_R (fn (c_phi c) j)); [|exact L]. intro s. exact (phi_lag j s Hj).
  Qed.
  Lemma ord0 : ord d 0 = c_q c.
  Proof. reflexivity. Qed.
  Lemma uh_rec t p : uh_at E n (INR n * c_dt c) t us um p = fev D Dx Vp Val (recon d U n t) p 0.
  Proof.
    unfold uh_at, comb, val. rewrite HEc, HED. rewrite sigma, theta_lift.
    assert (A : fev D Dx Vp Val (at_time d U 0 n t) p 0
      = sumn (S (c_q c)) (fun j => 1 * nth j (c_phi c) (fun _ => 0) ((t - INR n * c_dt c) / c_dt c) * fev D Dx Vp Val (us j) p 0)).
    { rewrite (fev_ext D Dx Vp Val _ (fun l => sumn (S (c_q c)) (fun j => lagrange (c_q c) j ((t - INR n * c_dt c) / c_dt c) * us j l))).
      - etransitivity; [apply (fev_sum (A := nat) D Dx Vp Val (seq 0 (S (c_q c))) (fun j => lagrange (c_q c) j ((t - INR n * c_dt c) / c_dt c)) us)|].
        apply sumn_ext. intros j Hj. rewrite phi_lag by exact Hj. ring.
      - intros l Hl. unfold at_time. rewrite ord0. apply sumn_ext. intros j Hj. rewrite Hus by assumption. reflexivity. }
    rewrite <- A. unfold recon. destruct (Nat.ltb_spec 0 n) as [Hn|Hn].
    - set (k := lift_pol _). rewrite (fev_ext D Dx Vp Val (fun l => _ - k * _) (fun l => at_time d U 0 n t l - k * (us 0%nat l - um l))).
      + unfold fev. rewrite <- Rsum_minus. rewrite <- (Rsum_scal _ k). rewrite <- Rsum_minus. apply Rsum_ext. intro l. ring.
      + intros l Hl. rewrite jump_coef by exact Hn. rewrite Hus, Hum by (try exact Hl; try exact Hn; lia).
        rewrite Nat.add_0_r. reflexivity.
    - apply Rminus_diag_uniq. rewrite Rminus_0_r. rewrite (fev_ext D Dx Vp Val (fun l => _ - 0) (at_time d U 0 n t)) by (intros; ring). ring.
  Qed.
  Lemma duh_rec t p : duh_at E n (INR n * c_dt c) t us um p = fev D Dx Vp Val (ddt (recon d U n) t) p 0.
  Proof.
    unfold duh_at, comb, val. rewrite HEc, HED. rewrite sigma.
    assert (A : fev D Dx Vp Val (ddt (at_time d U 0 n) t) p 0
      = sumn (S (c_q c)) (fun j => 1 / c_dt c * nth j (c_dphi c) (fun _ => 0) ((t - INR n * c_dt c) / c_dt c) * fev D Dx Vp Val (us j) p 0)).
    { rewrite (fev_ext D Dx Vp Val _ (fun l => sumn (S (c_q c)) (fun j => (1 / c_dt c * Derive (lagrange (c_q c) j) ((t - INR n * c_dt c) / c_dt c)) * us j l))).
      - etransitivity; [apply (fev_sum (A := nat) D Dx Vp Val (seq 0 (S (c_q c))) (fun j => 1 / c_dt c * Derive (lagrange (c_q c) j) ((t - INR n * c_dt c) / c_dt c)) us)|].
        apply sumn_ext. intros j Hj. rewrite dphi_lag by exact Hj. ring.
      - intros l Hl. rewrite (ddt_rep c Hdt Hq Hqs). rewrite ord0. apply sumn_ext. intros j Hj. rewrite Hus by assumption. reflexivity. }
    rewrite <- A. set (k := d_theta_ref _).
    rewrite (fev_ext D Dx Vp Val (ddt (recon d U n) t) (fun l => ddt (at_time d U 0 n) t l - (if Nat.ltb 0 n then 2 / c_dt c * (us 0%nat l - um l) * k else 0))).
    - destruct (Nat.ltb_spec 0 n).
      + unfold fev. rewrite <- Rsum_minus.
        rewrite <- (Rmult_comm k), <- Rmult_assoc, <- Rsum_scal. rewrite <- Rsum_minus. apply Rsum_ext. intro l. ring.
      + unfold fev. rewrite Rminus_0_r. apply Rsum_ext. intro l. ring.
    - intros l Hl. rewrite rec_ddt. fold k. f_equal. destruct (Nat.ltb_spec 0 n) as [Hn|Hn]; [|reflexivity].
      rewrite jump_coef by exact Hn. rewrite Hus, Hum by (try exact Hl; try exact Hn; lia). rewrite Nat.add_0_r. reflexivity.
  Qed.
End Rec.

(** * Maximum of a list *)
Lemma py_max_spec l m : py_max l = Ok m -> In m l /\ forall x, In x l -> x <= m.
Proof.
  destruct l as [|a l]; [discriminate|]. cbn [py_max]. intro H. injection H as <-.
  revert a. induction l as [|b l IH]; intro a; cbn [fold_left].
  - split; [left; reflexivity|]. intros x [->|[]]. lra.
  - destruct (IH (if Rlt_dec a b then b else a)) as [A B]. split.
    + destruct A as [A|A]; [|right; right; exact A]. rewrite <- A. destruct (Rlt_dec a b); [right|]; left; reflexivity.
    + intros x [<-|[<-|Hx]].
      * assert (a <= if Rlt_dec a b then b else a) by (destruct (Rlt_dec a b); lra).
        pose proof (B _ (or_introl eq_refl)). lra.
      * assert (b <= if Rlt_dec a b then b else a) by (destruct (Rlt_dec a b); lra).
        pose proof (B _ (or_introl eq_refl)). lra.
      * apply B. right. exact Hx.
Qed.
Lemma py_max_ok l : l <> [] -> exists m, py_max l = Ok m.
Proof. destruct l; [congruence|]. intros _. eexists. reflexivity. Qed.

(** * The run *)
Section Run.
  Variables (P : params) (E : env).
  Notation c := (e_c E).
  Notation D := (e_D E).
  Notation d := (td c).
  Hypothesis HB : built P c.
  Hypothesis HE : env_ok E.
  Hypothesis Hdt : 0 < c_dt c.
  Hypothesis Hw : forall p, In p (d_pts D Dx) -> 0 <= d_w D Dx p.
  Variable uh : vec.
  Notation U := (field_of (e_Lf E) uh).
  Notation e2 := (err2 D d (c_v c) U).
  Notation de2 := (derr2 D d (c_dv c) U).

  Lemma dist2_nonneg f : 0 <= dist2 D f.
  Proof.
    unfold dist2. induction (d_pts D Dx) as [|p l IH]; [rewrite Rsum_nil; lra|]. rewrite Rsum_cons.
    assert (0 <= d_w D Dx p * f p ^ 2).
    { apply Rmult_le_pos; [apply Hw; left; reflexivity|apply pow2_ge_0]. }
    assert (0 <= Rsum l (fun p0 => d_w D Dx p0 * f p0 ^ 2)); [|lra]. apply IH. intros q Hq. apply Hw. right. exact Hq.
  Qed.
  Lemma l2sq_dist f g : (forall p, f p = g p) -> l2sq E f = dist2 D g.
  Proof.
    intro H. unfold l2sq, integ, dist2. apply Rsum_ext. intro p. cbn [seq wval]. rewrite Rsum_cons, Rsum_nil, !H. ring.
  Qed.
  Lemma sqrt_dist f g : (forall p, f p = g p) -> py_sqrt (l2sq E f) = Ok (sqrt (dist2 D g)).
  Proof.
    intro H. rewrite (l2sq_dist f g H). unfold py_sqrt. destruct (Rlt_dec (dist2 D g) 0) as [A|_]; [|reflexivity].
    pose proof (dist2_nonneg g). lra.
  Qed.
  (** the functions loaded for slab n *)
  Definition loaded (n : nat) (us : nat -> vec) (um : vec) : Prop :=
    (forall j l, (j < S (c_q c))%nat -> (l < d_dim D Vp)%nat -> us j l = U 0%nat (n * S (c_q c) + j)%nat l)
    /\ (forall l, (0 < n)%nat -> (l < d_dim D Vp)%nat -> um l = U 0%nat (n * S (c_q c) - 1)%nat l).

  Definition in_n (n : nat) (t : R) : bool := in_slab E (INR n * c_dt c) t.
  Lemma in_n_within n t : in_n n t = true <-> within d n t.
  Proof.
    unfold in_n, in_slab, within. cbn [t_dt td].
    destruct (Rle_dec (INR n * c_dt c) t), (Rle_dec t (INR n * c_dt c + c_dt c)); cbn; split; try discriminate; try tauto; lra.
  Qed.
  Lemma samples_run n us um ts acc : loaded n us um ->
    me_samples E n (INR n * c_dt c) us um ts acc
    = Ok (fst acc ++ map (fun t => sqrt (e2 n t)) (filter (in_n n) ts),
          snd acc ++ map (fun t => sqrt (de2 n t)) (filter (in_n n) ts)).
  Proof.
    intros [H1 H2]. revert acc. induction ts as [|t ts IH]; intros [a1 a2]; cbn [me_samples filter map fst snd].
    { rewrite !app_nil_r. reflexivity. }
    unfold me_sample. fold (in_n n t). destruct (in_n n t) eqn:Ei; cbn [rbind]; [|apply IH].
    rewrite (sqrt_dist _ (fun p => fev D Dx Vp Val (recon d U n t) p 0 - c_v c t (d_x D p))).
    2: { intro p. rewrite (uh_rec P c D U HB Hdt us um n H1 H2 E eq_refl eq_refl). reflexivity. }
    cbn [rbind]. rewrite (sqrt_dist _ (fun p => fev D Dx Vp Val (ddt (recon d U n) t) p 0 - c_dv c t (d_x D p))).
    2: { intro p. rewrite (duh_rec P c D U HB Hdt us um n H1 H2 E eq_refl eq_refl). reflexivity. }
    cbn [rbind]. rewrite IH. cbn [fst snd map]. rewrite <- !app_assoc. reflexivity.
  Qed.
  (** the quadrature part *)
  Definition quad_n (n : nat) : R :=
    Rsum (c_qr_ho c) (fun '(tau, om) => om * c_dt c * de2 n (INR n * c_dt c + c_dt c * tau)).
  Lemma quad_run n us um tot : loaded n us um -> me_quad E n (INR n * c_dt c) us um tot = tot + quad_n n.
  Proof.
    intros [H1 H2]. unfold me_quad, quad_n. revert tot. induction (c_qr_ho c) as [|[tau om] l IH]; intro tot; cbn [fold_left].
    - rewrite Rsum_nil. ring.
    - rewrite IH, Rsum_cons. rewrite (l2sq_dist _ (fun p => fev D Dx Vp Val (ddt (recon d U n) (INR n * c_dt c + c_dt c * tau)) p 0 - c_dv c (INR n * c_dt c + c_dt c * tau) (d_x D p))).
      + unfold derr2. ring.
      + intro p. rewrite (duh_rec P c D U HB Hdt us um n H1 H2 E eq_refl eq_refl). reflexivity.
  Qed.
  Lemma comp_at j i l : (j < 4)%nat -> (i < nc_full c j)%nat -> (l < d_dim D (spc j))%nat -> comp_of (e_Lf E) uh j i l = U j i l.
  Proof.
    intros Hj Hi Hl. unfold comp_of, of_list. apply nth_gather. rewrite (wl_len _ _ _ _ (eo_f _ HE)) by assumption. exact Hl.
  Qed.
  Lemma idx_lt n i : (n < c_N c)%nat -> (i < S (c_q c))%nat -> (n * S (c_q c) + i < nc_full c 0)%nat.
  Proof. intros Hn Hi. unfold nc_full, ntime, sto. cbn. nia. Qed.
  Lemma nz_dt : is_zero (c_dt c) = false.
  Proof. unfold is_zero. destruct (Req_EM_T (c_dt c) 0); [lra|reflexivity]. Qed.

  Lemma slab_measure n acc s : (n < c_N c)%nat -> s_uh s = uh -> exists s', me_slab E n acc s
    = (Ok ((fst (fst acc) ++ map (fun t => sqrt (e2 n t)) (filter (in_n n) (c_samples c)),
            snd (fst acc) ++ map (fun t => sqrt (de2 n t)) (filter (in_n n) (c_samples c))), snd acc + quad_n n), s')
    /\ s_uh s' = uh /\ s_heap s' = s_heap s.
  Proof.
    intros Hn Hu. unfold me_slab. rewrite bind_get.
    assert (G : exists s1, (if Nat.ltb 0 n then modify (w_u1m (comp_of (e_Lf E) (s_uh s) 0 (n * S (c_q c) - 1))) else ret tt) s = (Ok tt, s1)
      /\ s_uh s1 = uh /\ s_heap s1 = s_heap s /\ (forall l, (0 < n)%nat -> (l < d_dim D Vp)%nat -> s_u1m s1 l = U 0%nat (n * S (c_q c) - 1)%nat l)).
    { destruct (Nat.ltb_spec 0 n) as [H|H].
      - eexists. split; [reflexivity|]. split; [exact Hu|]. split; [reflexivity|]. intros l _ Hl. cbn [s_u1m w_u1m]. rewrite Hu.
        apply comp_at; [lia| |exact Hl]. replace (n * S (c_q c) - 1)%nat with ((n - 1) * S (c_q c) + c_q c)%nat by nia. apply idx_lt; lia.
      - exists s. split; [reflexivity|]. split; [exact Hu|]. split; [reflexivity|]. lia. }
    destruct G as [s1 [E1 [U1 [V1 M1]]]]. rewrite (bind_ok _ _ _ _ _ E1). rewrite bind_modify.
    set (us := fun l => if Nat.ltb l (S (c_q c)) then comp_of (e_Lf E) (s_uh s) 0 (n * S (c_q c) + l) else s_u1s s l).
    rewrite bind_err_if_ok by exact nz_dt. rewrite bind_get.
    change (s_u1s (w_u1s us s1)) with us. change (s_u1m (w_u1s us s1)) with (s_u1m s1).
    assert (HL : loaded n us (s_u1m s1)).
    { split; [|exact M1]. intros j l Hj Hl. unfold us. destruct (Nat.ltb_spec j (S (c_q c))); [|lia]. rewrite Hu.
      apply comp_at; [lia|apply idx_lt; assumption|exact Hl]. }
    rewrite (samples_run n us _ _ _ HL). cbn zeta. rewrite (bind_lift_ok _ _ _ _ eq_refl). rewrite (quad_run n us _ _ HL).
    eexists. split; [reflexivity|]. split; [exact U1|exact V1].
  Qed.
  Definition all_e (f : nat -> R -> R) (ns : list nat) : list R :=
    flat_map (fun n => map (fun t => sqrt (f n t)) (filter (in_n n) (c_samples c))) ns.
  Lemma loop_measure ns : forall acc s, (forall n, In n ns -> (n < c_N c)%nat) -> s_uh s = uh ->
    exists s', for_acc ns (me_slab E) acc s
    = (Ok ((fst (fst acc) ++ all_e (fun n t => e2 n t) ns, snd (fst acc) ++ all_e (fun n t => de2 n t) ns), snd acc + Rsum ns quad_n), s')
    /\ s_heap s' = s_heap s.
  Proof.
    induction ns as [|n ns IH]; intros [[a1 a2] tot] s Hn Hu; cbn [for_acc fst snd].
    - exists s. unfold all_e. cbn [flat_map]. rewrite !app_nil_r, Rsum_nil, Rplus_0_r. split; reflexivity.
    - destruct (slab_measure n ((a1, a2), tot) s (Hn n (or_introl eq_refl)) Hu) as [s1 [E1 [U1 V1]]].
      rewrite (bind_ok _ _ _ _ _ E1). cbn [fst snd].
      destruct (IH ((a1 ++ map (fun t => sqrt (e2 n t)) (filter (in_n n) (c_samples c)),
         a2 ++ map (fun t => sqrt (de2 n t)) (filter (in_n n) (c_samples c))), tot + quad_n n) s1) as [s2 [E2 V2]].
      + intros m Hm. apply Hn. right. exact Hm.
      + exact U1.
      + exists s2. rewrite E2. cbn [fst snd]. split; [|congruence]. unfold all_e. cbn [flat_map].
        rewrite <- !app_assoc, Rsum_cons, Rplus_assoc. reflexivity.
  Qed.
End Run.

Section Measure.
  Variables (P : params) (E : env).
  Notation c := (e_c E).
  Notation D := (e_D E).
  Notation d := (td c).
  Hypothesis HB : built P c.
  Hypothesis HE : env_ok E.
  Hypothesis HT : 0 < p_T P.
  Hypothesis Hw : forall p, In p (d_pts D Dx) -> 0 <= d_w D Dx p.
  Lemma m_dt : 0 < c_dt c.
  Proof.
    rewrite (bu_dt _ _ HB). apply Rmult_lt_0_compat; [exact HT|]. apply Rinv_0_lt_compat. apply lt_0_INR.
    rewrite <- (bu_NP _ _ HB). pose proof (bu_N _ _ HB). lia.
  Qed.
  Lemma m_T : c_T c = INR (c_N c) * c_dt c.
  Proof.
    rewrite (bu_dt _ _ HB), (bu_T _ _ HB), (bu_NP _ _ HB). field. apply not_0_INR.
    rewrite <- (bu_NP _ _ HB). pose proof (bu_N _ _ HB). lia.
  Qed.
  (** every time in [0, T] lies in a slab *)
  Lemma some_slab t : 0 <= t <= p_T P -> exists n, (n < c_N c)%nat /\ within d n t.
  Proof.
    intros Ht. pose proof m_dt as Hd. pose proof m_T as HTd. rewrite (bu_T _ _ HB) in HTd. pose proof (bu_N _ _ HB) as HN.
    assert (G : forall m, (1 <= m)%nat -> 0 <= t <= INR m * c_dt c -> exists n, (n < m)%nat /\ within d n t).
    { induction m as [|m IH]; intros Hm H; [lia|]. rewrite S_INR in H.
      destruct (Rle_dec (INR m * c_dt c) t) as [A|A].
      - exists m. split; [lia|]. unfold within. cbn [t_dt td]. lra.
      - destruct m as [|m]; [cbn in A; lra|]. destruct (IH ltac:(lia)) as [n [B C]]; [lra|]. exists n. split; [lia|exact C]. }
    apply G; [exact HN|]. rewrite <- HTd. exact Ht.
  Qed.
  Lemma sample_in i : (i <= 104)%nat -> 0 <= INR i * (p_T P / 104) <= p_T P.
  Proof.
    intro Hi. pose proof (pos_INR i). assert (INR i <= 104) by (replace 104 with (INR 104) by (cbn; lra); apply le_INR; exact Hi).
    split; [apply Rmult_le_pos; lra|]. apply Rle_trans with (104 * (p_T P / 104)); [apply Rmult_le_compat_r; lra|lra].
  Qed.
  Lemma in_samples t : In t (c_samples c) <-> exists i, (i <= 104)%nat /\ t = INR i * (p_T P / 104).
  Proof.
    rewrite (bu_samples _ _ HB). unfold linspace105. rewrite in_map_iff. split.
    - intros [i [<- Hi]]. apply in_seq in Hi. exists i. split; [lia|reflexivity].
    - intros [i [Hi ->]]. exists i. split; [reflexivity|apply in_seq; lia].
  Qed.
  Lemma qrho_w tau om : In (tau, om) (c_qr_ho c) -> 0 < om.
  Proof.
    intro H. destruct (bu_qrho _ _ HB) as [qr [E1 E2]]. unfold zip_rule in E2.
    destruct (current_pts qr 0 1) as [[ps|]|e] eqn:Ep; cbn [rbind] in E2; try discriminate.
    2: { destruct (t_weights qr 1) as [[ws|]|e]; discriminate. }
    destruct (t_weights qr 1) as [[ws|]|e] eqn:Ew; cbn [rbind] in E2; try discriminate.
    assert (Ew' : t_weights qr (1 - 0) = Ok (Some ws)) by (replace (1 - 0) with 1 by ring; exact Ew).
    destruct (rule_admissible "Gauss-Radau" 5 eq_refl qr 0 1 ps ws E1 ltac:(lra) Ep Ew') as [_ [_ [W _]]].
    injection E2 as E2. rewrite <- E2 in H. apply W. apply in_combine_r in H. exact H.
  Qed.
  Lemma all_nonempty f : all_e E f (seq 0 (c_N c)) <> [].
  Proof.
    assert (G : In (sqrt (f 0%nat 0)) (all_e E f (seq 0 (c_N c)))).
    { unfold all_e. apply in_flat_map. exists 0%nat. split; [apply in_seq; pose proof (bu_N _ _ HB); lia|].
      apply in_map_iff. exists 0. split; [reflexivity|]. apply filter_In. split.
      - apply in_samples. exists 0%nat. split; [lia|]. cbn. ring.
      - apply in_n_within. unfold within. cbn. pose proof m_dt. lra. }
    intro H. rewrite H in G. destruct G.
  Qed.
  Lemma quad_nonneg uh n : 0 <= quad_n E uh n.
  Proof.
    unfold quad_n. assert (G : forall l, (forall tau om, In (tau, om) l -> 0 < om) ->
      0 <= Rsum l (fun '(tau, om) => om * c_dt c * derr2 D d (c_dv c) (field_of (e_Lf E) uh) n (INR n * c_dt c + c_dt c * tau))).
    { induction l as [|[tau om] l IH]; intro H; [rewrite Rsum_nil; lra|]. rewrite Rsum_cons.
      pose proof (H tau om (or_introl eq_refl)). pose proof m_dt.
      pose proof (dist2_nonneg E Hw (fun p => fev D Dx Vp Val (ddt (recon d (field_of (e_Lf E) uh) n) (INR n * c_dt c + c_dt c * tau)) p 0
         - c_dv c (INR n * c_dt c + c_dt c * tau) (d_x D p))) as A.
      change (0 <= derr2 D d (c_dv c) (field_of (e_Lf E) uh) n (INR n * c_dt c + c_dt c * tau)) in A.
      pose proof (Rmult_le_pos (om * c_dt c) _ ltac:(apply Rmult_le_pos; lra) A).
      specialize (IH (fun t o h => H t o (or_intror h))). lra. }
    apply G. exact qrho_w.
  Qed.
  Lemma sumquad_nonneg uh ns : 0 <= Rsum ns (quad_n E uh).
  Proof. induction ns as [|n ns IH]; [rewrite Rsum_nil; lra|]. rewrite Rsum_cons. pose proof (quad_nonneg uh n). lra. Qed.

  Theorem measure_run u s : s_fes s = true -> exists m1 m2 s',
    let uh := s_heap s u in let U := field_of (e_Lf E) uh in
    measured_errors E u s = (Ok (mkErr (sqrt (err2 D d (c_v c) U (c_N c - 1) (c_T c))) m1 m2 (sqrt (Rsum (seq 0 (c_N c)) (quad_n E uh)))), s')
    /\ s_heap s' = s_heap s
    /\ py_max (all_e E (err2 D d (c_v c) U) (seq 0 (c_N c))) = Ok m1
    /\ py_max (all_e E (derr2 D d (c_dv c) U) (seq 0 (c_N c))) = Ok m2.
  Proof.
    intro Hf. set (uh := s_heap s u). set (U := field_of (e_Lf E) uh).
    pose proof (bu_N _ _ HB) as HN. pose proof m_dt as Hdt.
    destruct (py_max_ok _ (all_nonempty (err2 D d (c_v c) U))) as [m1 M1].
    destruct (py_max_ok _ (all_nonempty (derr2 D d (c_dv c) U))) as [m2 M2].
    exists m1, m2.
    set (s1 := w_u20 (comp_of (e_Lf E) uh 1 (nc_full c 1 - 1)) (w_u10 (comp_of (e_Lf E) uh 0 (nc_full c 0 - 1)) (w_uh uh s))).
    assert (L : load_solution E u s = (Ok tt, s1)).
    { unfold load_solution. rewrite bind_fes_ok by exact Hf. rewrite bind_modify, bind_get, bind_modify. reflexivity. }
    destruct (loop_measure P E HB HE Hdt Hw uh (seq 0 (c_N c)) (([], []), 0) s1) as [s2 [E2 V2]].
    { intros n Hn. apply in_seq in Hn. lia. }
    { reflexivity. }
    exists s2. cbn zeta. fold uh U. split; [|split; [|split; assumption]].
    - unfold measured_errors. rewrite (bind_ok _ _ _ _ _ L), bind_get.
      rewrite (bind_lift_ok _ _ (sqrt (err2 D d (c_v c) U (c_N c - 1) (c_T c)))).
      + rewrite (bind_ok _ _ _ _ _ E2). cbn [fst snd app].
        rewrite (bind_lift_ok _ _ m1) by exact M1. rewrite (bind_lift_ok _ _ m2) by exact M2.
        rewrite (bind_lift_ok _ _ (sqrt (Rsum (seq 0 (c_N c)) (quad_n E uh)))); [reflexivity|].
        rewrite Rplus_0_l. unfold py_sqrt. pose proof (sumquad_nonneg uh (seq 0 (c_N c))).
        destruct (Rlt_dec (Rsum (seq 0 (c_N c)) (quad_n E uh)) 0); [lra|reflexivity].
      + apply (sqrt_dist E Hw). intro p. change (s_u10 s1) with (comp_of (e_Lf E) uh 0 (nc_full c 0 - 1)).
        f_equal. unfold val. apply fev_ext. intros l Hl.
        rewrite (comp_at E HE) by (try lia; try exact Hl; unfold nc_full, ntime; nia).
        replace (c_T c) with (INR (c_N c - 1) * c_dt c + c_dt c).
        * rewrite (rec_end P c U HB Hdt). rewrite (lower_coef c Hdt (q_le P c HB) (qs_le P c HB)) by lia.
          unfold U, nc_full. replace (S (c_N c - 1)) with (c_N c) by lia. rewrite Nat.mul_comm. reflexivity.
        * rewrite m_T, minus_INR by exact HN. cbn. ring.
    - rewrite V2. reflexivity.
  Qed.
End Measure.
