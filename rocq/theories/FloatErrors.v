(** FloatErrors.v -- the sums, square roots and maxima of measured_errors in double precision
    (/repo/src/dxss/space_time.py:1465-1582).  Doubles as in FloatModel.v.

    The differences between computed and exact solution at the quadrature points, and the
    weights, are given.  One process: allreduce returns its argument.  The integrals are
    computed in the order of a generated kernel: point by point, then cell by cell. *)
From Coq Require Import ZArith List Bool.
From Coq Require Import Floats.SpecFloat.
From Verif Require Import Base FloatModel.
Import ListNotations.

Definition flt : spec_float -> spec_float -> bool := SFltb.
(** np.sqrt: nan for negative arguments *)
Definition np_sqrt : spec_float -> spec_float := SFsqrt 53 1024.
(** math.sqrt: ValueError for negative arguments (-0.0 is not negative) *)
Definition math_sqrt (x : spec_float) : res spec_float := if flt x (fz 0) then Err ValueError else Ok (np_sqrt x).
(** max(l): a later entry replaces the current one if it is greater *)
Definition f_max (l : list spec_float) : res spec_float :=
  match l with [] => Err ValueError | a :: l' => Ok (fold_left (fun m x => if flt m x then x else m) l' a) end.

(** a quadrature point of a cell: |det J|, weight, difference at the point *)
Record fpoint : Type := mkFP { fp_det : spec_float; fp_w : spec_float; fp_d : spec_float }.
(** the points of each cell *)
Definition field : Type := list (list fpoint).
(** fem.assemble_scalar(fem.form(ufl.inner(f, f) * dx)) (space_time.py:1465-1466, 1513-1517, 1555-1561) *)
Definition f_term (p : fpoint) : spec_float := fmul (fmul (fmul (fp_d p) (fp_d p)) (fp_det p)) (fp_w p).
Definition f_cell (ps : list fpoint) : spec_float := fold_left (fun a p => fadd a (f_term p)) ps (fz 0).
Definition f_l2sq (F : field) : spec_float := fold_left (fun a ps => fadd a (f_cell ps)) F (fz 0).

(** one slab: for the quadrature times the weight omega_i and the difference of the time
    derivatives; for the sample times in the slab the differences of u and of its derivative *)
Record fslab : Type := mkFSlab { fs_quad : list (spec_float * field); fs_samples : list (field * field) }.
(** total_error_l2l2_dt += omega_i * delta_t * error_dt_tni (space_time.py:1492-1519) *)
Definition f_quad (dt : spec_float) (s : fslab) (tot : spec_float) : spec_float :=
  fold_left (fun tot '(om, F) => fadd tot (fmul (fmul om dt) (f_l2sq F))) (fs_quad s) tot.
(** "L2-u1-T", "L-infty-L2-error-u", "L-infty-L2-error-ut", "L2-L2-error-u_t" *)
Record ferrors : Type := mkFErr { fe_T : spec_float; fe_inf : spec_float; fe_dinf : spec_float; fe_l2 : spec_float }.
(** space_time.py:1465-1582 *)
Definition f_measured (dt : spec_float) (final : field) (slabs : list fslab) : res ferrors :=
  let eT := np_sqrt (f_l2sq final) in
  let smp := flat_map fs_samples slabs in
  let l1 := map (fun '(F, _) => np_sqrt (f_l2sq F)) smp in
  let l2 := map (fun '(_, F) => np_sqrt (f_l2sq F)) smp in
  let tot := fold_left (fun tot s => f_quad dt s tot) slabs (fz 0) in
  rbind (f_max l1) (fun m1 => rbind (f_max l2) (fun m2 => rbind (math_sqrt tot) (fun t =>
  Ok (mkFErr eT m1 m2 t)))).
