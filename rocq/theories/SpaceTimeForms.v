(** SpaceTimeForms.v -- the weak forms built by
    /repo/src/dxss/space_time.py, term by term in source order. *)
From Coq Require Import Reals List ZArith Lra Lia Bool String.
From Verif Require Import Base TimeModel FormModel.
Import ListNotations.
Open Scope R_scope.

(** Attributes fixed by SpaceTime.__init__ (space_time.py:87-249) that the
    methods below read.  The spatial coordinates enter through [disc]. *)
Record config : Type := mkCfg {
  c_q : nat; c_qs : nat;                      (* otime.q, otime.qstar *)
  c_k : nat; c_kstar : nat;                   (* ospace.k, ospace.kstar *)
  c_N : nat; c_T : R; c_t : R;                (* N, T, t *)
  c_dt : R;                                   (* delta_t *)
  c_lam : R;                                  (* lam_Nitsche *)
  c_stab : string -> option R;                (* stabilisation_terms *)
  c_jumps : bool; c_wp : bool;                (* jumps_in_fw_problem, well_posed *)
  c_el : elmat;                               (* elmat_time *)
  c_qr : list (R * R);                        (* zip of qr.current_pts(0,1) and t_weights(1) *)
  c_qr_ho : list (R * R);                     (* the same for qr_ho *)
  c_phi : list (R -> R); c_dphi : list (R -> R); (* phi_trial = phi_test, dt_phi_trial *)
  c_samples : list R;                         (* sample_pts_error *)
  c_eps : R;                                  (* eps *)
  c_v : R -> list R -> R; c_dv : R -> list R -> R  (* solution.v, solution.dvdt *) }.

(** Arguments of the constructor.  N is a nonnegative integer; the indicator
    function is kept apart (SpaceTimeModel.v), because __init__ replaces it. *)
Record params : Type := mkParams {
  p_q : Z; p_qstar : Z; p_k : nat; p_kstar : nat;   (* OrderTime, OrderSpace *)
  p_N : nat; p_T : R; p_t : R;
  p_stab : string -> option R;
  p_v : R -> list R -> R; p_dv : R -> list R -> R;  (* ValueAndDerivative *)
  p_jumps : bool; p_wp : bool                       (* ProblemParameters *) }.

(** zip(qr.current_pts(0, 1), qr.t_weights(1)) *)
Definition zip_rule (qr : quadrule) : res (list (R * R)) :=
  rbind (current_pts qr 0 1) (fun op =>
  rbind (t_weights qr 1) (fun ow =>
  match op, ow with
  | Some ps, Some ws => Ok (combine ps ws)
  | _, _ => Err TypeError
  end)).

(** np.linspace(0, T, 105): i * (T / 104) for i = 0..104, in real numbers *)
Definition linspace105 (T : R) : list R := map (fun i => INR i * (T / 104)) (seq 0 105).

(** space_time.py:111-143, 224-227, in the order in which errors can occur.
    (zip_rule cannot fail for the two rules used; the lists are computed where
    they are used, in setup_rhs and measured_errors.) *)
Definition construct (P : params) : res config :=
  if Nat.eqb (p_N P) 0 then Err ZeroDivisionError else
  let dt := p_T P / INR (p_N P) in
  let lam := 5 * INR (p_k P) ^ 2 in
  rbind (get_elmat_time (p_q P) (p_qstar P)) (fun el =>
  rbind (QuadRule "Gauss-Radau" 4) (fun qr =>
  rbind (QuadRule "Gauss-Radau" 5) (fun qr_ho =>
  rbind (basis_in_time (p_q P)) (fun '(phi, dphi) =>
  rbind (zip_rule qr) (fun z1 =>
  rbind (zip_rule qr_ho) (fun z2 =>
  Ok {| c_q := Z.to_nat (p_q P); c_qs := Z.to_nat (p_qstar P);
        c_k := p_k P; c_kstar := p_kstar P;
        c_N := p_N P; c_T := p_T P; c_t := p_t P; c_dt := dt; c_lam := lam;
        c_stab := p_stab P; c_jumps := p_jumps P; c_wp := p_wp P;
        c_el := el; c_qr := z1; c_qr_ho := z2; c_phi := phi; c_dphi := dphi;
        c_samples := linspace105 (p_T P);
        c_eps := if Z.eqb (p_qstar P) 0 then 1e-15 else 0;
        c_v := p_v P; c_dv := p_dv P |})))))).

(** number of components of block j in the full and in the slab space
    (space_time.py:253-266 and 309-322); subspace_time_order (138-143) *)
Definition sto (c : config) (j : nat) : nat := if Nat.ltb j 2 then c_q c else c_qs c.
Definition ntime (c : config) (j : nat) : nat := S (sto c j).
Definition nc_full (c : config) (j : nat) : nat := (ntime c j * c_N c)%nat.
Definition nc_pre (c : config) (j : nat) : nat := ntime c j.
Definition nc_coup (_ : nat) : nat := 2%nat.
Definition nc_bnd (_ : nat) : nat := 1%nat.

(** [for j in range(n): for k in range(m): ...] *)
Definition loop2 {A} (n m : nat) (f : nat -> nat -> list A) : list A :=
  flat_map (fun j => flat_map (fun k => f j k) (seq 0 m)) (seq 0 n).

Definition z (n : nat) : Z := Z.of_nat n.
Definition plus_ (c : R) (w : weight) (m : meas) o1 a1 o2 a2 : bterm := mkB c w m o1 a1 o2 a2.
Definition minus_ (c : R) (w : weight) (m : meas) o1 a1 o2 a2 : bterm := bneg (mkB c w m o1 a1 o2 a2).

(** stabilisation weights, read at the top of the set-up functions *)
Record gammas : Type := mkG { g_data : R; g_dual : R; g_primal : R; g_jump : R }.
Definition lookup (d : string -> option R) (k : string) : res R :=
  match d k with Some x => Ok x | None => Err KeyError end.
(** space_time.py:372-375 and 884-887 *)
Definition get_gammas (d : string -> option R) : res gammas :=
  rbind (lookup d "data") (fun a =>
  rbind (lookup d "dual") (fun b =>
  rbind (lookup d "primal") (fun p =>
  rbind (lookup d "primal-jump") (fun j => Ok (mkG a b p j))))).

Definition nitsche_guard (m : R) (l : bform) : bform :=
  if Rlt_dec 1e-10 (Rabs m) then l else [].

(** the literal 1e-20 of the regularising terms *)
Definition reg : R := 1e-20.

Section Forms.
  Variables (c : config) (g : gammas) (om : nat -> R).
  Let dt := c_dt c.
  Let nq := S (c_q c).
  Let nqs := S (c_qs c).
  Let Mqqs (k j : nat) := mget (M_time_q_qstar (c_el c)) k j.
  Let DMqqs (k j : nat) := mget (DM_time_q_qstar (c_el c)) k j.
  Let Mqq (k j : nat) := mget (M_time_q_q (c_el c)) k j.
  Let DMqq (k j : nat) := mget (DM_time_q_q (c_el c)) k j.
  Let DMqqT (k j : nat) := mget (DM_time_q_q (c_el c)) j k.
  Let DDMqq (k j : nat) := mget (DDM_time_q_q (c_el c)) k j.
  Let Mqsqs (k j : nat) := mget (M_time_qstar_qstar (c_el c)) k j.

  (** * setup_spacetime_matrix *)

  (** space_time.py:387-418 *)
  Definition st_fw (iq iqs : Z) : bform := loop2 nq nqs (fun j k =>
    [ plus_ (DMqqs k j) WOne Dx Val (at_ U2 (iq + z j)%Z) Val (at_ Y1 (iqs + z k)%Z);
      plus_ (dt * Mqqs k j) WOne Dx Grad (at_ U1 (iq + z j)%Z) Grad (at_ Y1 (iqs + z k)%Z);
      plus_ (DMqqs k j) WOne Dx Val (at_ U1 (iq + z j)%Z) Val (at_ Y2 (iqs + z k)%Z);
      minus_ (dt * Mqqs k j) WOne Dx Val (at_ U2 (iq + z j)%Z) Val (at_ Y2 (iqs + z k)%Z) ]
    ++ nitsche_guard (Mqqs k j)
    [ minus_ (dt * Mqqs k j) WOne Ds NGrad (at_ U1 (iq + z j)%Z) Val (at_ Y1 (iqs + z k)%Z) ]).
  (** space_time.py:420-429 *)
  Definition st_data (iq : Z) : bform := loop2 nq nq (fun j k =>
    [ plus_ (g_data g * dt * Mqq k j) (WOm om) Dx Val (at_ U1 (iq + z j)%Z) Val (at_ W1 (iq + z k)%Z) ]).
  (** space_time.py:431-462 *)
  Definition st_adj (iq iqs : Z) : bform := loop2 nq nqs (fun j k =>
    [ plus_ (DMqqs k j) WOne Dx Val (at_ W2 (iq + z j)%Z) Val (at_ Z1 (iqs + z k)%Z);
      plus_ (dt * Mqqs k j) WOne Dx Grad (at_ W1 (iq + z j)%Z) Grad (at_ Z1 (iqs + z k)%Z);
      plus_ (DMqqs k j) WOne Dx Val (at_ W1 (iq + z j)%Z) Val (at_ Z2 (iqs + z k)%Z);
      minus_ (dt * Mqqs k j) WOne Dx Val (at_ W2 (iq + z j)%Z) Val (at_ Z2 (iqs + z k)%Z) ]
    ++ nitsche_guard (Mqqs k j)
    [ minus_ (dt * Mqqs k j) WOne Ds NGrad (at_ W1 (iq + z j)%Z) Val (at_ Z1 (iqs + z k)%Z) ]).
  (** space_time.py:464-497 *)
  Definition st_dual (iqs : Z) : bform := loop2 nqs nqs (fun j k =>
    [ minus_ (g_dual g * dt * Mqsqs k j) WOne Dx Val (at_ Y1 (iqs + z j)%Z) Val (at_ Z1 (iqs + z k)%Z);
      minus_ (g_dual g * dt * Mqsqs k j) WOne Dx Grad (at_ Y1 (iqs + z j)%Z) Grad (at_ Z1 (iqs + z k)%Z);
      minus_ (g_dual g * dt * Mqsqs k j) WOne Dx Val (at_ Y2 (iqs + z j)%Z) Val (at_ Z2 (iqs + z k)%Z);
      minus_ (g_dual g * dt * Mqsqs k j) (WLamH (c_lam c)) Ds Val (at_ Y1 (iqs + z j)%Z) Val (at_ Z1 (iqs + z k)%Z) ]).
  (** space_time.py:498-510 *)
  Definition st_dual_jump (n : nat) (cqs : Z) : bform :=
    if c_jumps c && Nat.ltb 0 n then
    [ minus_ (g_dual g * dt) WOne Dx Val (at_ Y2 (cqs + 1)%Z) Val (at_ Z2 (cqs + 1)%Z);
      minus_ (g_dual g * dt) WOne Dx Val (at_ Y1 (cqs + 1)%Z) Val (at_ Z1 (cqs + 1)%Z) ]
    else [].
  (** space_time.py:512-593 *)
  Definition st_primal (iq : Z) : bform := loop2 nq nq (fun j k =>
    [ plus_ (g_primal g * dt * Mqq k j) (WLamH (c_lam c)) Ds Val (at_ U1 (iq + z j)%Z) Val (at_ W1 (iq + z k)%Z);
      plus_ (g_primal g * dt * Mqq k j) WHavg DS JumpGrad (at_ U1 (iq + z j)%Z) JumpGrad (at_ W1 (iq + z k)%Z);
      plus_ (g_primal g * dt * Mqq k j) WOne Dx Val (at_ U2 (iq + z j)%Z) Val (at_ W2 (iq + z k)%Z);
      minus_ (g_primal g * DMqqT k j) WOne Dx Val (at_ U2 (iq + z j)%Z) Val (at_ W1 (iq + z k)%Z);
      minus_ (g_primal g * DMqq k j) WOne Dx Val (at_ U1 (iq + z j)%Z) Val (at_ W2 (iq + z k)%Z);
      plus_ (g_primal g * (1 / dt) * DDMqq k j) WOne Dx Val (at_ U1 (iq + z j)%Z) Val (at_ W1 (iq + z k)%Z);
      plus_ (g_primal g * (1 / dt) * DDMqq k j) WH2 Dx Val (at_ U2 (iq + z j)%Z) Val (at_ W2 (iq + z k)%Z);
      minus_ (g_primal g * DMqq k j) WH2 Dx Val (at_ U2 (iq + z j)%Z) Lap (at_ W1 (iq + z k)%Z);
      minus_ (g_primal g * DMqqT k j) WH2 Dx Lap (at_ U1 (iq + z j)%Z) Val (at_ W2 (iq + z k)%Z);
      plus_ (g_primal g * dt * Mqq k j) WH2 Dx Lap (at_ U1 (iq + z j)%Z) Lap (at_ W1 (iq + z k)%Z) ]).
  (** space_time.py:595-601 *)
  Definition st_init (n : nat) : bform :=
    if Nat.eqb n 0 && c_wp c then
    [ plus_ (g_jump g * (1 / dt)) WOne Dx Val (at_ U1 0) Val (at_ W1 0);
      plus_ (g_jump g * dt) WOne Dx Grad (at_ U1 0) Grad (at_ W1 0);
      plus_ (g_jump g * (1 / dt)) WOne Dx Val (at_ U2 0) Val (at_ W2 0) ]
    else [].
  (** space_time.py:604-636 *)
  Definition st_fw_jump (n : nat) (cq cqs : Z) : bform :=
    if c_jumps c && Nat.ltb 0 n then
    [ plus_ (1 + c_eps c) WOne Dx Val (sub_ W2 (cq + 1)%Z cq) Val (at_ Z1 (cqs + 1)%Z);
      plus_ (1 + c_eps c) WOne Dx Val (sub_ W1 (cq + 1)%Z cq) Val (at_ Z2 (cqs + 1)%Z);
      plus_ (1 + c_eps c) WOne Dx Val (sub_ U1 (cq + 1)%Z cq) Val (at_ Y2 (cqs + 1)%Z);
      plus_ (1 + c_eps c) WOne Dx Val (sub_ U2 (cq + 1)%Z cq) Val (at_ Y1 (cqs + 1)%Z) ]
    else [].
  (** space_time.py:638-694 *)
  Definition st_jump (precond : bool) (n : nat) (cq : Z) : bform :=
    if Nat.ltb 0 n then
      if precond then
      [ plus_ (g_jump g * (1 / dt)) WOne Dx Val (sub_ U1 (cq + 1)%Z cq) Val (at_ W1 (cq + 1)%Z);
        plus_ (g_jump g * dt) WOne Dx Grad (sub_ U1 (cq + 1)%Z cq) Grad (at_ W1 (cq + 1)%Z);
        plus_ (g_jump g * (1 / dt)) WOne Dx Val (sub_ U2 (cq + 1)%Z cq) Val (at_ W2 (cq + 1)%Z) ]
      else
      [ plus_ (g_jump g * (1 / dt)) WOne Dx Val (sub_ U1 (cq + 1)%Z cq) Val (sub_ W1 (cq + 1)%Z cq);
        plus_ (g_jump g * dt) WOne Dx Grad (sub_ U1 (cq + 1)%Z cq) Grad (sub_ W1 (cq + 1)%Z cq);
        plus_ (g_jump g * (1 / dt)) WOne Dx Val (sub_ U2 (cq + 1)%Z cq) Val (sub_ W2 (cq + 1)%Z cq) ]
    else [].

  (** loop counters int_idx_q, coupling_idx_q, int_idx_qstar,
      coupling_idx_qstar (space_time.py:377-380, 696-699) *)
  Record counters : Type := mkCnt { k_iq : Z; k_cq : Z; k_iqs : Z; k_cqs : Z }.
  Definition cnt0 : counters := mkCnt 0 (-1) 0 (-1).
  Definition cnt_next (s : counters) : counters :=
    (mkCnt (k_iq s + (z (c_q c) + 1)) (k_cq s + (z (c_q c) + 1))
           (k_iqs s + (z (c_qs c) + 1)) (k_cqs s + (z (c_qs c) + 1)))%Z.

  (** one pass of the loop over time slabs (space_time.py:384-699) *)
  Definition st_slab (precond : bool) (n : nat) (s : counters) : bform :=
    st_fw (k_iq s) (k_iqs s) ++ st_data (k_iq s) ++ st_adj (k_iq s) (k_iqs s)
    ++ st_dual (k_iqs s) ++ st_dual_jump n (k_cqs s) ++ st_primal (k_iq s)
    ++ st_init n ++ st_fw_jump n (k_cq s) (k_cqs s) ++ st_jump precond n (k_cq s).

  (** space_time.py:382-699: the expression a *)
  Definition st_form (precond : bool) : bform :=
    snd (fold_left (fun '(s, a) n => (cnt_next s, a ++ st_slab precond n s))
      (seq 0 (c_N c))
      (cnt0, [ plus_ reg WOne Dx Val (at_ U1 0) Val (at_ Y1 0) ])).

  (** * setup_coupling_matrix_between_slices (space_time.py:804-830).
      fes_coupling has blocks u1_c, u2_c with two components each. *)
  Definition coup_form (gj : R) : bform :=
    [ plus_ reg WOne Dx Val (at_ U1 0) Val (at_ W1 0);
      plus_ (gj * (1 / dt)) WOne Dx Val (sub_ U1 1 0) Val (sub_ W1 1 0);
      plus_ (gj * dt) WOne Dx Grad (sub_ U1 1 0) Grad (sub_ W1 1 0);
      plus_ (gj * (1 / dt)) WOne Dx Val (sub_ U2 1 0) Val (sub_ W2 1 0) ].

  (** * setup_scaled_mass_matrix_between_slices (space_time.py:842-854).
      fes_slab_bnd has two blocks with one component each; inner of the
      one-component vectors is the product of the components. *)
  Definition bnd_form (gj : R) : bform :=
    [ plus_ (gj * (1 / dt)) WOne Dx Val (at_ U1 0) Val (at_ W1 0);
      plus_ (gj * dt) WOne Dx Grad (at_ U1 0) Grad (at_ W1 0);
      plus_ (gj * (1 / dt)) WOne Dx Val (at_ U2 0) Val (at_ W2 0) ].

  (** * setup_slab_matrix *)

  (** space_time.py:891-918 *)
  Definition sl_fw : bform := loop2 nq nqs (fun j k =>
    [ plus_ (DMqqs k j) WOne Dx Val (at_ U2 (z j)%Z) Val (at_ Y1 (z k)%Z);
      plus_ (dt * Mqqs k j) WOne Dx Grad (at_ U1 (z j)%Z) Grad (at_ Y1 (z k)%Z);
      plus_ (DMqqs k j) WOne Dx Val (at_ U1 (z j)%Z) Val (at_ Y2 (z k)%Z);
      minus_ (dt * Mqqs k j) WOne Dx Val (at_ U2 (z j)%Z) Val (at_ Y2 (z k)%Z) ]
    ++ nitsche_guard (Mqqs k j)
    [ minus_ (dt * Mqqs k j) WOne Ds NGrad (at_ U1 (z j)%Z) Val (at_ Y1 (z k)%Z) ]).
  (** space_time.py:920-929 *)
  Definition sl_data : bform := loop2 nq nq (fun j k =>
    [ plus_ (g_data g * dt * Mqq k j) (WOm om) Dx Val (at_ U1 (z j)%Z) Val (at_ W1 (z k)%Z) ]).
  (** space_time.py:931-958 *)
  Definition sl_adj : bform := loop2 nq nqs (fun j k =>
    [ plus_ (DMqqs k j) WOne Dx Val (at_ W2 (z j)%Z) Val (at_ Z1 (z k)%Z);
      plus_ (dt * Mqqs k j) WOne Dx Grad (at_ W1 (z j)%Z) Grad (at_ Z1 (z k)%Z);
      plus_ (DMqqs k j) WOne Dx Val (at_ W1 (z j)%Z) Val (at_ Z2 (z k)%Z);
      minus_ (dt * Mqqs k j) WOne Dx Val (at_ W2 (z j)%Z) Val (at_ Z2 (z k)%Z) ]
    ++ nitsche_guard (Mqqs k j)
    [ minus_ (dt * Mqqs k j) WOne Ds NGrad (at_ W1 (z j)%Z) Val (at_ Z1 (z k)%Z) ]).
  (** space_time.py:960-990 *)
  Definition sl_dual : bform := loop2 nqs nqs (fun j k =>
    [ minus_ (g_dual g * dt * Mqsqs k j) WOne Dx Val (at_ Y1 (z j)%Z) Val (at_ Z1 (z k)%Z);
      minus_ (g_dual g * dt * Mqsqs k j) WOne Dx Grad (at_ Y1 (z j)%Z) Grad (at_ Z1 (z k)%Z);
      minus_ (g_dual g * dt * Mqsqs k j) WOne Dx Val (at_ Y2 (z j)%Z) Val (at_ Z2 (z k)%Z);
      minus_ (g_dual g * dt * Mqsqs k j) (WLamH (c_lam c)) Ds Val (at_ Y1 (z j)%Z) Val (at_ Z1 (z k)%Z) ]).
  (** space_time.py:992-994 *)
  Definition sl_dual_jump (with_jumps : bool) : bform :=
    if c_jumps c && with_jumps then
    [ minus_ (g_dual g * dt) WOne Dx Val (at_ Y2 0) Val (at_ Z2 0);
      minus_ (g_dual g * dt) WOne Dx Val (at_ Y1 0) Val (at_ Z1 0) ]
    else [].
  (** space_time.py:996-1071 *)
  Definition sl_primal : bform := loop2 nq nq (fun j k =>
    [ plus_ (g_primal g * dt * Mqq k j) (WLamH (c_lam c)) Ds Val (at_ U1 (z j)%Z) Val (at_ W1 (z k)%Z);
      plus_ (g_primal g * dt * Mqq k j) WHavg DS JumpGrad (at_ U1 (z j)%Z) JumpGrad (at_ W1 (z k)%Z);
      plus_ (g_primal g * dt * Mqq k j) WOne Dx Val (at_ U2 (z j)%Z) Val (at_ W2 (z k)%Z);
      minus_ (g_primal g * DMqqT k j) WOne Dx Val (at_ U2 (z j)%Z) Val (at_ W1 (z k)%Z);
      minus_ (g_primal g * DMqq k j) WOne Dx Val (at_ U1 (z j)%Z) Val (at_ W2 (z k)%Z);
      plus_ (g_primal g * (1 / dt) * DDMqq k j) WOne Dx Val (at_ U1 (z j)%Z) Val (at_ W1 (z k)%Z);
      plus_ (g_primal g * (1 / dt) * DDMqq k j) WH2 Dx Val (at_ U2 (z j)%Z) Val (at_ W2 (z k)%Z);
      minus_ (g_primal g * DMqq k j) WH2 Dx Val (at_ U2 (z j)%Z) Lap (at_ W1 (z k)%Z);
      minus_ (g_primal g * DMqqT k j) WH2 Dx Lap (at_ U1 (z j)%Z) Val (at_ W2 (z k)%Z);
      plus_ (g_primal g * dt * Mqq k j) WH2 Dx Lap (at_ U1 (z j)%Z) Lap (at_ W1 (z k)%Z) ]).
  (** space_time.py:1073-1082 *)
  Definition sl_jump (with_jumps : bool) : bform :=
    if with_jumps then
    [ plus_ (g_jump g * (1 / dt)) WOne Dx Val (at_ U1 0) Val (at_ W1 0);
      plus_ (g_jump g * dt) WOne Dx Grad (at_ U1 0) Grad (at_ W1 0);
      plus_ (g_jump g * (1 / dt)) WOne Dx Val (at_ U2 0) Val (at_ W2 0) ]
    ++ (if c_jumps c then
    [ plus_ (1 + c_eps c) WOne Dx Val (at_ Y1 0) Val (at_ U2 0);
      plus_ (1 + c_eps c) WOne Dx Val (at_ Y2 0) Val (at_ U1 0) ] else [])
    else [].
  (** space_time.py:889-1082: the expression a_pre *)
  Definition slab_form (with_jumps : bool) : bform :=
    [ plus_ reg WOne Dx Val (at_ U1 0) Val (at_ Y1 0) ]
    ++ sl_fw ++ sl_data ++ sl_adj ++ sl_dual ++ sl_dual_jump with_jumps
    ++ sl_primal ++ sl_jump with_jumps.

  (** * setup_rhs (space_time.py:730-784) *)

  Definition one_f : nat -> nat -> R := fun _ _ => 1.
  (** space_time.py:749-765: one quadrature time.  [xs] are the coordinates of
      the spatial quadrature points. *)
  Definition rhs_data (gd : R) (xs : nat -> list R) (n : nat) (iq : Z) : lform :=
    map (fun '(tau_i, omega_i) =>
      let t_n := INR n * dt in
      let time_ti := t_n + dt * tau_i in
      mkL (gd * dt * omega_i) (WOm om) Dx (fun p _ => c_v c time_ti (xs p)) Val
        (map (fun k => (nth k (c_phi c) (fun _ => 0) tau_i, (W1, (iq + z k)%Z))) (seq 0 nq)))
      (c_qr c).
  (** space_time.py:767-778: the initial data enter as finite element
      functions u1_0, u2_0 (values and gradients at the quadrature points) *)
  Definition rhs_init (gj : R) (u1v u1g u2v : nat -> nat -> R) (n : nat) : lform :=
    if Nat.eqb n 0 && c_wp c then
    [ mkL (gj * (1 / dt)) WOne Dx u1v Val (at_ W1 0);
      mkL (gj * dt) WOne Dx u1g Grad (at_ W1 0);
      mkL (gj * (1 / dt)) WOne Dx u2v Val (at_ W2 0) ]
    else [].
  Definition rhs_form (gd gj : R) (xs : nat -> list R) (u1v u1g u2v : nat -> nat -> R) : lform :=
    snd (fold_left (fun '(s, L) n =>
        (cnt_next s, L ++ rhs_data gd xs n (k_iq s) ++ rhs_init gj u1v u1g u2v n))
      (seq 0 (c_N c))
      (cnt0, [ mkL reg WOne Dx one_f Val (at_ Y1 0) ])).

  (** * the right-hand side built in pre_time_marching (space_time.py:1201-1223) *)
  Definition pre_lform (gj : R) (u1v u1g u2v : nat -> nat -> R) (n : nat) : lform :=
    [ mkL reg WOne Dx one_f Val (at_ Y1 0) ]
    ++ (if Nat.ltb 0 n then
      [ mkL (gj * (1 / dt)) WOne Dx u1v Val (at_ W1 0);
        mkL (gj * dt) WOne Dx u1g Grad (at_ W1 0);
        mkL (gj * (1 / dt)) WOne Dx u2v Val (at_ W2 0) ]
      ++ (if c_jumps c then
      [ mkL 1 WOne Dx u2v Val (at_ Y1 0);
        mkL 1 WOne Dx u1v Val (at_ Y2 0) ] else [])
      else []).
End Forms.
