(** FormExample.v -- concrete discretisations, parameters and functions that
    meet the hypotheses of the property theorems. *)
From Coq Require Import Reals List ZArith Lra Lia Bool String.
From Coquelicot Require Import Coquelicot.
From Verif Require Import Base TimeModel TimeSpec TimeProofs QuadProofs FormModel FormSpec FormProofs
  SpaceTimeForms FormBlocks FormTime FormC12 FormSym FormStruct FormCons.
Import ListNotations.
Open Scope R_scope.

(** * A layout for every space: components numbered one after the other *)
Section Layout.
  Variables (nb : nat) (nc dm : nat -> nat).
  Fixpoint base (j : nat) : nat := match j with O => O | S j' => (base j' + nc j' * dm j')%nat end.
  Definition std_layout : layout :=
    mkLay (base nb) (fun j i => seq (base j + i * dm j) (dm j)).
  Lemma seq_blocks b d n : flat_map (fun i => seq (b + i * d) d) (seq 0 n) = seq b (n * d).
  Proof.
    induction n as [|n IH]; [reflexivity|]. rewrite seq_S, flat_map_app, IH. cbn [flat_map].
    rewrite app_nil_r, Nat.add_0_l, <- seq_app. f_equal. lia.
  Qed.
  Lemma std_all m : flat_map (fun j => flat_map (fun i => lay_sub std_layout j i) (seq 0 (nc j))) (seq 0 m)
    = seq 0 (base m).
  Proof.
    induction m as [|m IH]; [reflexivity|]. rewrite seq_S, flat_map_app, IH. cbn [flat_map].
    rewrite app_nil_r, Nat.add_0_l. cbn [lay_sub std_layout]. rewrite seq_blocks, <- seq_app. reflexivity.
  Qed.
  Lemma std_layout_ok : wf_layout nb nc dm std_layout.
  Proof.
    constructor.
    - intros. apply seq_length.
    - unfold all_dofs. rewrite std_all. apply seq_NoDup.
    - intro I. unfold all_dofs. rewrite std_all, in_seq. cbn [lay_dim std_layout]. lia.
  Qed.
End Layout.

(** * Two meshes with piecewise linear elements *)

(** the interval (0,1) with two cells; quadrature at the cell ends *)
Definition exI_dof (p : nat) : nat := match p with 0 => 0 | 1 => 1 | 2 => 1 | _ => 2 end%nat.
Definition exI : disc := {|
  d_gd := 1;
  d_pts := fun m => match m with Dx => [0; 1; 2; 3] | Ds => [0; 1] | DS => [0] end%nat;
  d_w := fun m _ => match m with Dx => 1 / 4 | _ => 1 end;
  d_x := fun p => [INR (exI_dof p) / 2];
  d_h := fun _ _ => 1 / 2; d_hp := fun _ => 1 / 2; d_hm := fun _ => 1 / 2;
  d_dim := fun _ => 3%nat;
  d_tab := fun m _ o l p _ =>
    match m, o with
    | Dx, Val => delta (exI_dof p) l
    | Dx, Grad => if Nat.ltb p 2 then match l with 0%nat => -2 | 1%nat => 2 | _ => 0 end
                  else match l with 1%nat => -2 | 2%nat => 2 | _ => 0 end
    | Ds, Val => if Nat.eqb p 0 then delta 0 l else delta 2 l
    | Ds, NGrad => if Nat.eqb p 0 then match l with 0%nat => 2 | 1%nat => -2 | _ => 0 end
                   else match l with 1%nat => -2 | 2%nat => 2 | _ => 0 end
    | DS, JumpGrad => match l with 0%nat => -2 | 1%nat => 4 | _ => -2 end
    | _, _ => 0
    end |}.

(** the circle of length 1 with three cells (no boundary) *)
Definition exS_dof (p : nat) : nat := match p with 0 => 0 | 1 => 1 | 2 => 1 | 3 => 2 | 4 => 2 | _ => 0 end%nat.
Definition exS : disc := {|
  d_gd := 1;
  d_pts := fun m => match m with Dx => [0; 1; 2; 3; 4; 5] | Ds => [] | DS => [0; 1; 2] end%nat;
  d_w := fun m _ => match m with Dx => 1 / 6 | _ => 1 end;
  d_x := fun p => [INR (exS_dof p) / 3];
  d_h := fun _ _ => 1 / 3; d_hp := fun _ => 1 / 3; d_hm := fun _ => 1 / 3;
  d_dim := fun _ => 3%nat;
  d_tab := fun m _ o l p _ =>
    match m, o with
    | Dx, Val => delta (exS_dof p) l
    | Dx, Grad => (* cell p/2 joins vertices p/2 and p/2 + 1 mod 3 *)
        3 * (delta (exS_dof (2 * (p / 2) + 1)) l - delta (exS_dof (2 * (p / 2))) l)
    | DS, JumpGrad => 9 * delta p l - 3
    | _, _ => 0
    end |}.

Definition exP (q qs N : nat) (jm wp : bool) : params := {|
  p_q := Z.of_nat q; p_qstar := Z.of_nat qs; p_k := 1; p_kstar := 1; p_N := N; p_T := 1; p_t := 0;
  p_stab := fun _ => Some 1; p_v := fun t _ => t; p_dv := fun _ _ => 1; p_jumps := jm; p_wp := wp |}.
Definition exG : gammas := mkG 1 1 1 1.

Lemma exP_ok q qs N jm wp : (q <= 3)%nat -> (qs <= 3)%nat -> (1 <= N)%nat ->
  exists c, construct (exP q qs N jm wp) = Ok c.
Proof.
  intros Hq Hqs HN. unfold construct. cbn [p_N exP]. destruct (Nat.eqb_spec N 0); [lia|].
  cbn [p_q p_qstar].
  destruct q as [|[|[|[|q]]]]; try lia; destruct qs as [|[|[|[|qs]]]]; try lia;
  eexists; reflexivity.
Qed.

Definition om1 : nat -> R := fun _ => 1.
Lemma exI_regular : regular exI om1.
Proof. constructor; intros; cbn; unfold om1; try destruct m; lra. Qed.
Lemma exS_regular : regular exS om1.
Proof. constructor; intros; cbn; unfold om1; try destruct m; lra. Qed.
Lemma exI_mass a b s s' : L2 exI s s' a b = a 0%nat * b 0%nat / 4 + a 1%nat * b 1%nat / 2 + a 2%nat * b 2%nat / 4.
Proof. unfold L2, sp, integ, fev, wval, Rsum, delta. cbn. field. Qed.
Lemma exI_definite s a : L2 exI s s a a = 0 -> forall l, (l < d_dim exI s)%nat -> a l = 0.
Proof.
  rewrite exI_mass. intros H l Hl. cbn in Hl.
  pose proof (Rle_0_sqr (a 0%nat)) as A0. pose proof (Rle_0_sqr (a 1%nat)) as A1. pose proof (Rle_0_sqr (a 2%nat)) as A2.
  unfold Rsqr in *. destruct l as [|[|[|l]]]; [| | |lia]; apply Rsqr_0_uniq; unfold Rsqr; lra.
Qed.
Lemma exS_mass a b s s' : L2 exS s s' a b = (a 0%nat * b 0%nat + a 1%nat * b 1%nat + a 2%nat * b 2%nat) / 3.
Proof. unfold L2, sp, integ, fev, wval, Rsum, delta. cbn. field. Qed.

(** * An exact wave on the circle: u1 = t, u2 = 1, with linear functions in time *)
Definition lin_wave (dt : R) : field := fun j i _ =>
  if Nat.eqb j 0 then INR (i / 2 + i mod 2) * dt else if Nat.eqb j 1 then 1 else 0.
Section Lin.
  Variables (P : params) (c : config).
  Hypothesis HB : built P c.
  Hypothesis Hdt : 0 < c_dt c.
  Hypothesis H1q : c_q c = 1%nat.
  Let d := td c.
  Lemma lag1 s : lagrange 1 0 s = 1 - s /\ lagrange 1 1 s = s.
  Proof. unfold lagrange, node. cbn. split; field. Qed.
  Lemma lin_u1 n t l : at_time d (lin_wave (c_dt c)) 0 n t l = t.
  Proof.
    unfold at_time, ord. cbn [Nat.ltb Nat.leb t_q t_dt td d]. rewrite H1q. unfold Rsum. cbn [seq fold_right].
    destruct (lag1 ((t - INR n * c_dt c) / c_dt c)) as [-> ->].
    unfold lin_wave. cbn [Nat.eqb].
    replace (n * 2 + 0)%nat with (n * 2)%nat by lia.
    rewrite Nat.div_mul, Nat.mod_mul by lia.
    rewrite Nat.div_add_l, (Nat.add_comm (n * 2) 1), Nat.mod_add by lia.
    change (1 / 2)%nat with 0%nat. change (1 mod 2)%nat with 1%nat. rewrite !Nat.add_0_r, plus_INR. cbn [INR]. field. lra.
  Qed.
  Lemma lin_u2 n t l : at_time d (lin_wave (c_dt c)) 1 n t l = 1.
  Proof.
    unfold at_time, ord. cbn [Nat.ltb Nat.leb t_q t_dt td d]. rewrite H1q. unfold Rsum. cbn [seq fold_right].
    destruct (lag1 ((t - INR n * c_dt c) / c_dt c)) as [-> ->].
    unfold lin_wave. cbn [Nat.eqb]. ring.
  Qed.
  Lemma lin_d1 n t l : ddt (at_time d (lin_wave (c_dt c)) 0 n) t l = 1.
  Proof. unfold ddt. rewrite (Derive_ext _ (fun s => s)) by (intro; apply lin_u1). apply Derive_id. Qed.
  Lemma lin_d2 n t l : ddt (at_time d (lin_wave (c_dt c)) 1 n) t l = 0.
  Proof. unfold ddt. rewrite (Derive_ext _ (fun s => 1)) by (intro; apply lin_u2). apply Derive_const. Qed.
  Lemma lin_exact : exact_wave c exS (lin_wave (c_dt c)).
  Proof.
    constructor.
    - intros n t p Hn Ht Hp. apply fev_ext; intros. fold d. rewrite lin_d1, lin_u2. reflexivity.
    - intros n t p Hn Ht Hp. fold d.
      rewrite (fev_ext _ _ _ _ _ (fun _ => 0)) by (intros; apply lin_d2).
      unfold fev, Rsum. cbn. ring.
    - intros n t p Hn Ht Hp. destruct Hp.
    - intros n t p k Hn Ht Hp Hk. fold d.
      rewrite (fev_ext _ _ _ _ _ (fun _ => t)) by (intros; apply lin_u1).
      cbn [d_pts exS] in Hp. unfold fev, Rsum, delta. cbn in Hp |- *.
      destruct Hp as [<-|[<-|[<-|[]]]]; cbn; ring.
    - intros n j l Hn Hj Hl. unfold upper, lower. fold d.
      destruct j as [|[|j]]; [rewrite !lin_u1|rewrite !lin_u2|lia]; reflexivity.
  Qed.
  Lemma lin_data : c_v c = (fun t _ => t) -> data_matches c exS (fun p => [INR p]) (lin_wave (c_dt c)).
  Proof.
    intros E n p t Hn Hp Ht. rewrite E. fold d.
    rewrite (fev_ext _ _ _ _ _ (fun _ => t)) by (intros; apply lin_u1).
    unfold fev, Rsum, delta. cbn in Hp |- *. decompose [or] Hp; subst; try contradiction; cbn; ring.
  Qed.
End Lin.
