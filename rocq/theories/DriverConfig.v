(** DriverConfig.v -- the module-level constants of the drivers (solve_1d.py,
    solve_2d.py, solve_3d.py) as functions of the numbers a user edits: ORDER, N or
    REF_LVL, GCC.  Meshes are in MeshModel.v (2D); the structured meshes of 1D and 3D are
    given by their number of cells. *)
From Coq Require Import Reals List ZArith Bool String.
From Verif Require Import Base TimeModel FormModel SpaceTimeForms SpaceTimeModel GmresModel DriverModel.
Import ListNotations.
Open Scope R_scope.

(** l[i] with Python's negative indices *)
Definition py_index {A} (l : list A) (i : Z) : res A :=
  let n := Z.of_nat (List.length l) in
  let j := if Z.ltb i 0 then (i + n)%Z else i in
  if Z.leb 0 j && Z.ltb j n then
    match nth_error l (Z.to_nat j) with Some a => Ok a | None => Err IndexError end
  else Err IndexError.
(** a dict display with string keys: the last entry of a key counts *)
Fixpoint py_dict (l : list (string * R)) (k : string) : option R :=
  match l with
  | [] => None
  | (k', v) :: l => match py_dict l k with Some x => Some x | None => if String.eqb k k' then Some v else None end
  end.

(** STABS (solve_1d.py:71-76, solve_2d.py:71-76, solve_3d.py:77-82) *)
Definition STABS : string -> option R :=
  py_dict [("data", 1e4); ("dual", 1.0); ("primal", 1e-3); ("primal-jump", 1.0)]%string.
(** SOLVER_TYPE (solve_1d.py:23-29, solve_2d.py:22-28, solve_3d.py:24-30) *)
Definition SOLVER_TYPE (have_pypardiso : bool) : solver_type := if have_pypardiso then Pypardiso else PetscLU.

(** OrderTime(q, qstar), OrderSpace(k, kstar); t0 = 0; ProblemParameters() or none *)
Definition default_parameters : problem_parameters := mkPP false false.
Definition driver_params (q qstar : Z) (k kstar N : nat) (T : R) (v dv : R -> list R -> R) (p : problem_parameters) : params :=
  {| p_q := q; p_qstar := qstar; p_k := k; p_kstar := kstar; p_N := N; p_T := T; p_t := 0;
     p_stab := STABS; p_v := v; p_dv := dv; p_jumps := jumps_in_fw_problem p; p_wp := well_posed p |}.

(** what a driver hands to the constructor: parameters, the fitted flag of its DataDomain,
    the number of cells per direction (1D, 3D) *)
Record setting : Type := mkSetting { st_params : params; st_fitted : bool; st_cells : nat }.

(** solve_1d.py:61-79, 108-118; DataDomain.fitted defaults to True (space_time.py:52) *)
Definition setting_1d (ORDER N : nat) : setting :=
  let T := 1 in
  let N_x := (5 * N)%nat in
  let k := ORDER in let q := ORDER in let kstar := 1%nat in
  let qstar := if Nat.eqb ORDER 1 then 1%nat else 0%nat in
  mkSetting (driver_params (Z.of_nat q) (Z.of_nat qstar) k kstar N T sample_sol_1d dt_sample_sol_1d default_parameters) true N_x.

(** solve_2d.py:60 and solve_3d.py:64 *)
Definition REF_LVL_TO_N : list nat := [1; 2; 4; 8; 16; 32]%nat.
(** solve_2d.py:60-82, 114-124.  [meshes] = ls_mesh *)
Definition setting_2d {mesh} (meshes : list mesh) (ORDER : nat) (REF_LVL : Z) : res (setting * mesh) :=
  let T := 1.0 in
  rbind (py_index REF_LVL_TO_N REF_LVL) (fun N =>
  let k := ORDER in let q := ORDER in let kstar := ORDER in let qstar := ORDER in
  rbind (py_index meshes REF_LVL) (fun msh =>
  Ok (mkSetting (driver_params (Z.of_nat q) (Z.of_nat qstar) k kstar N T sample_sol_2d dt_sample_sol_2d default_parameters) true 0, msh))).

(** solve_3d.py:84 *)
Definition Nxs : list nat := [2; 4; 8; 16; 32; 64]%nat.
(** solve_3d.py:64-100, 176-187 *)
Definition setting_3d (ORDER : nat) (REF_LVL : Z) : res setting :=
  let T := 1 / 2 in
  rbind (py_index REF_LVL_TO_N REF_LVL) (fun N =>
  let k := ORDER in let q := ORDER in let kstar := ORDER in let qstar := ORDER in
  rbind (py_index Nxs REF_LVL) (fun Nx =>
  Ok (mkSetting (driver_params (Z.of_nat q) (Z.of_nat qstar) k kstar N T sample_sol_3d dt_sample_sol_3d default_parameters)
        (Nat.ltb 2 Nx) Nx))).
(** the value of omega_ind of solve_3d.py:102-153 at a point, by GCC and Nx *)
Definition indicator_3d (GCC : bool) (Nx : nat) (p : list R) : res R :=
  let single (r : res (list R)) := rbind r (fun l => match l with [a] => Ok a | _ => Err ValueError end) in
  if GCC then if Nat.ltb 2 Nx then single (omega_ind_3d [p]) else Ok (omega_ind_3d_ufl p)
  else if Nat.ltb 2 Nx then single (omega_ind_3d_side [p]) else Ok (omega_ind_3d_side_ufl p).
