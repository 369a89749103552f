(** FloatMesh.v -- the rectangles of the plane geometries of
    /repo/src/dxss/meshes.py in double precision.  Doubles as in FloatModel.v.
    Python computes the arguments of addRectangle; gmsh computes the far sides
    as x + dx and y + dy, also in doubles (trusted: gmsh's addRectangle does one
    addition per side).  The third argument of addRectangle is always 0 and is
    dropped, as are the tags: the rectangles are listed in program order.  The
    disc of get_mesh_inclusion and the three-dimensional geometries are left
    out. *)
From Coq Require Import ZArith List Bool.
From Coq Require Import Floats.SpecFloat.
From Verif Require Import Base FloatModel FloatTime.
Import ListNotations.

Record frect := FR { fr_x : spec_float; fr_y : spec_float; fr_dx : spec_float; fr_dy : spec_float }.
(** the far sides, as gmsh computes them *)
Definition fr_right (r : frect) : spec_float := fadd (fr_x r) (fr_dx r).
Definition fr_top (r : frect) : spec_float := fadd (fr_y r) (fr_dy r).
(** a decimal literal with two digits: the correctly rounded quotient *)
Definition cents (n : Z) : spec_float := fq n 100.

(** get_mesh_hierarchy and get_mesh_convex (meshes.py:38, 39, 43, 48, 140, 141,
    145, 150) *)
Definition f_rects_convex : list frect :=
  [FR (cents 0) (cents 0) (cents 100) (cents 100); FR (cents 10) (cents 25) (cents 80) (cents 75);
   FR (cents 10) (cents 25) (cents 80) (cents 70); FR (cents 10) (cents 95) (cents 80) (cents 5)].
(** get_mesh_hierarchy_nonconvex (meshes.py:244-247) *)
Definition f_rects_nonconvex : list frect :=
  [FR (cents 25) (cents 5) (cents 50) (cents 45); FR (fq 1 8) (cents 5) (cents 75) (cents 90);
   FR (cents 0) (cents 0) (cents 100) (cents 100)].
(** get_mesh_data_all_around (meshes.py:776, 777, 781) *)
Definition f_rects_around : list frect :=
  [FR (cents 0) (cents 0) (cents 100) (cents 100); FR (cents 20) (cents 20) (cents 60) (cents 60);
   FR (cents 20) (cents 20) (cents 60) (cents 60)].
(** get_mesh_hierarchy_fitted_disc (meshes.py:331-347) *)
Definition f_rects_fitted (eta : spec_float) : list frect :=
  let y_eta := fsub eta (cents 25) in
  [FR (cents 0) (cents 0) (cents 100) eta; FR (cents 10) (cents 25) (cents 80) y_eta;
   FR (cents 10) (cents 25) (cents 80) y_eta; FR (cents 10) y_eta (cents 80) (fsub (cents 95) y_eta);
   FR (cents 0) y_eta (cents 100) (fsub (cents 100) y_eta)].
(** get_mesh_inclusion_square (meshes.py:546-566, 581-583); addRectangle without
    a tag is drawn in the same way *)
Definition f_rects_inclusion (x_l x_r y_l y_r eta : spec_float) : list frect :=
  [FR (cents (-150)) (cents (-150)) (cents 300) (fadd (cents 150) eta);
   FR (cents (-125)) (cents (-125)) (cents 250) (fadd (cents 115) eta)] ++
  (if fle (cents 150) eta
   then [FR x_l y_l (fsub x_r x_l) (fsub y_r y_l); FR (cents (-75)) (cents (-75)) (cents 150) (cents 150);
         FR (cents (-125)) (cents (-125)) (cents 250) (cents 275)]
   else [FR x_l y_l (fsub x_r x_l) (fsub eta y_l); FR x_l eta (fsub x_r x_l) (fsub y_r eta);
         FR (cents (-75)) (cents (-75)) (cents 150) (cents 150); FR (cents (-150)) eta (cents 300) (fsub (cents 150) eta)]).
(** get_mesh_bottom_data (meshes.py:672-688) *)
Definition f_rects_bottom (eta : spec_float) : list frect :=
  [FR (cents 0) (cents 0) (cents 100) (cents 25); FR (cents 0) (cents 25) (cents 25) (fsub eta (cents 25));
   FR (cents 75) (cents 25) (cents 25) (fsub eta (cents 25)); FR (cents 25) (cents 25) (cents 50) (fsub eta (cents 25));
   FR (cents 25) eta (cents 50) (fsub (cents 90) eta); FR (cents 0) eta (cents 25) (fsub (cents 100) eta);
   FR (cents 25) eta (cents 50) (fsub (cents 100) eta); FR (cents 75) eta (cents 25) (fsub (cents 100) eta)].
