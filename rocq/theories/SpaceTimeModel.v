(** SpaceTimeModel.v -- the SpaceTime object of /repo/src/dxss/space_time.py as
    a state machine: attributes, caches, scratch vectors, and the methods that
    assemble, apply and precondition.

    Conventions and simplifications (see DESIGN.md):
    - vectors handed in and out by the caller live in a heap [s_heap], so that
      passing one vector twice is visible; the object's scratch vectors and the
      coefficient arrays of its fem.Functions are fields of the object and are
      not passed in by the caller;
    - a slab solver is a pure function of right-hand side and old content of
      the solution vector; it may raise;
    - vectors have the size of their space; serial run;
    - the scalar dofs of all components are numbered in the same order. *)
From Coq Require Import Reals List ZArith Lra Lia Bool String.
From Verif Require Import Base TimeModel FormModel SpaceTimeForms.
Import ListNotations.
Open Scope R_scope.
Open Scope monad_scope.

(** solver objects: solve(b, x) *)
Definition solver : Type := vec -> vec -> res vec.

(** what prepare_coarse_grid_correction is given and derives: coarse mesh and
    spaces, interpolation of the indicator to the coarse mesh, interpolation
    between the coarse and the fine scalar space CG(k) *)
Record coarse : Type := mkCoarse {
  k_D : disc; k_L : layout;
  k_om : (nat -> R) -> nat -> R;
  k_up : vec -> vec; k_down : vec -> vec }.

(** what is fixed by the constructor and the mesh: attributes, mesh with its
    quadrature, dof numberings of fes, fes_p, fes_coupling, fes_slab_bnd *)
Record env : Type := mkEnv {
  e_c : config; e_D : disc;
  e_Lf : layout; e_Lp : layout; e_Lc : layout; e_Lb : layout }.

(** Attributes that change.  [None] stands for None, or for an attribute not
    yet created. *)
Record state : Type := mkState {
  s_heap : nat -> vec; s_next : nat;                 (* vectors; next free id *)
  s_om : nat -> R;                                   (* omega.indicator_function *)
  s_fes : bool;                                      (* spaces have been set up *)
  s_uh : vec; s_u10 : vec; s_u20 : vec;              (* uh, u1_0, u2_0 *)
  s_u1m : vec; s_u1s : nat -> vec;                   (* u1_minus, u1_slab *)
  s_uhp : vec; s_u10p : vec; s_u20p : vec;           (* uh_pre, u1_0_pre, u2_0_pre *)
  s_stb : option bform; s_stm : option matrix;       (* spacetime_bilinear_form, spacetime_matrix *)
  s_slb : option bform; s_slm : option matrix;       (* slab_bilinear_form, slab_matrix *)
  s_njb : option bform; s_njm : option matrix;       (* ..._no_dg_jumps *)
  s_fib : option bform; s_fim : option matrix;       (* SlabBfiFirstSlab, SlabMatFirstSlab *)
  s_com : option matrix; s_mam : option matrix;      (* coupling_, scaled_mass_matrix_between_slices *)
  s_lfi : option lform; s_rhs : option nat;          (* SpaceTimeLfi, SpaceTimeRhs *)
  s_sfi : option solver; s_ssl : option solver;      (* SolverFirstSlab, solver_slab *)
  s_vs1 : option vec; s_vs2 : option vec;            (* vec_slab1, vec_slab2 *)
  s_vc1 : option vec; s_vc2 : option vec;            (* vec_coupling1, vec_coupling2 *)
  s_vbi : option vec; s_vbo : option vec;            (* vec_0_bnd_in, vec_0_bnd_out *)
  s_brp : option vec;                                (* b_rhs_pre *)
  s_crs : option coarse;                             (* msh_coarse, fes_coarse, dofmaps_full_coarse *)
  s_nod : bool;                                      (* u_node_fine, u_node_coarse *)
  s_cbf : option bform; s_cmt : option matrix;       (* SpaceTimeBfiCoarse, SpaceTimeMatCoarse *)
  s_sco : option solver;                             (* SolverCoarse *)
  s_tmp : bool;                                      (* tmp1_fine .. tmp6_sol *)
  s_tc1 : option vec; s_tc2 : option vec             (* tmp1_coarse, tmp2_coarse *) }.

(** setters *)
Definition w_heap x s := mkState x (s_next s) (s_om s) (s_fes s) (s_uh s) (s_u10 s) (s_u20 s) (s_u1m s) (s_u1s s) (s_uhp s) (s_u10p s) (s_u20p s) (s_stb s) (s_stm s) (s_slb s) (s_slm s) (s_njb s) (s_njm s) (s_fib s) (s_fim s) (s_com s) (s_mam s) (s_lfi s) (s_rhs s) (s_sfi s) (s_ssl s) (s_vs1 s) (s_vs2 s) (s_vc1 s) (s_vc2 s) (s_vbi s) (s_vbo s) (s_brp s) (s_crs s) (s_nod s) (s_cbf s) (s_cmt s) (s_sco s) (s_tmp s) (s_tc1 s) (s_tc2 s).
Definition w_next x s := mkState (s_heap s) x (s_om s) (s_fes s) (s_uh s) (s_u10 s) (s_u20 s) (s_u1m s) (s_u1s s) (s_uhp s) (s_u10p s) (s_u20p s) (s_stb s) (s_stm s) (s_slb s) (s_slm s) (s_njb s) (s_njm s) (s_fib s) (s_fim s) (s_com s) (s_mam s) (s_lfi s) (s_rhs s) (s_sfi s) (s_ssl s) (s_vs1 s) (s_vs2 s) (s_vc1 s) (s_vc2 s) (s_vbi s) (s_vbo s) (s_brp s) (s_crs s) (s_nod s) (s_cbf s) (s_cmt s) (s_sco s) (s_tmp s) (s_tc1 s) (s_tc2 s).
Definition w_om x s := mkState (s_heap s) (s_next s) x (s_fes s) (s_uh s) (s_u10 s) (s_u20 s) (s_u1m s) (s_u1s s) (s_uhp s) (s_u10p s) (s_u20p s) (s_stb s) (s_stm s) (s_slb s) (s_slm s) (s_njb s) (s_njm s) (s_fib s) (s_fim s) (s_com s) (s_mam s) (s_lfi s) (s_rhs s) (s_sfi s) (s_ssl s) (s_vs1 s) (s_vs2 s) (s_vc1 s) (s_vc2 s) (s_vbi s) (s_vbo s) (s_brp s) (s_crs s) (s_nod s) (s_cbf s) (s_cmt s) (s_sco s) (s_tmp s) (s_tc1 s) (s_tc2 s).
Definition w_fes x s := mkState (s_heap s) (s_next s) (s_om s) x (s_uh s) (s_u10 s) (s_u20 s) (s_u1m s) (s_u1s s) (s_uhp s) (s_u10p s) (s_u20p s) (s_stb s) (s_stm s) (s_slb s) (s_slm s) (s_njb s) (s_njm s) (s_fib s) (s_fim s) (s_com s) (s_mam s) (s_lfi s) (s_rhs s) (s_sfi s) (s_ssl s) (s_vs1 s) (s_vs2 s) (s_vc1 s) (s_vc2 s) (s_vbi s) (s_vbo s) (s_brp s) (s_crs s) (s_nod s) (s_cbf s) (s_cmt s) (s_sco s) (s_tmp s) (s_tc1 s) (s_tc2 s).
Definition w_uh x s := mkState (s_heap s) (s_next s) (s_om s) (s_fes s) x (s_u10 s) (s_u20 s) (s_u1m s) (s_u1s s) (s_uhp s) (s_u10p s) (s_u20p s) (s_stb s) (s_stm s) (s_slb s) (s_slm s) (s_njb s) (s_njm s) (s_fib s) (s_fim s) (s_com s) (s_mam s) (s_lfi s) (s_rhs s) (s_sfi s) (s_ssl s) (s_vs1 s) (s_vs2 s) (s_vc1 s) (s_vc2 s) (s_vbi s) (s_vbo s) (s_brp s) (s_crs s) (s_nod s) (s_cbf s) (s_cmt s) (s_sco s) (s_tmp s) (s_tc1 s) (s_tc2 s).
Definition w_u10 x s := mkState (s_heap s) (s_next s) (s_om s) (s_fes s) (s_uh s) x (s_u20 s) (s_u1m s) (s_u1s s) (s_uhp s) (s_u10p s) (s_u20p s) (s_stb s) (s_stm s) (s_slb s) (s_slm s) (s_njb s) (s_njm s) (s_fib s) (s_fim s) (s_com s) (s_mam s) (s_lfi s) (s_rhs s) (s_sfi s) (s_ssl s) (s_vs1 s) (s_vs2 s) (s_vc1 s) (s_vc2 s) (s_vbi s) (s_vbo s) (s_brp s) (s_crs s) (s_nod s) (s_cbf s) (s_cmt s) (s_sco s) (s_tmp s) (s_tc1 s) (s_tc2 s).
Definition w_u20 x s := mkState (s_heap s) (s_next s) (s_om s) (s_fes s) (s_uh s) (s_u10 s) x (s_u1m s) (s_u1s s) (s_uhp s) (s_u10p s) (s_u20p s) (s_stb s) (s_stm s) (s_slb s) (s_slm s) (s_njb s) (s_njm s) (s_fib s) (s_fim s) (s_com s) (s_mam s) (s_lfi s) (s_rhs s) (s_sfi s) (s_ssl s) (s_vs1 s) (s_vs2 s) (s_vc1 s) (s_vc2 s) (s_vbi s) (s_vbo s) (s_brp s) (s_crs s) (s_nod s) (s_cbf s) (s_cmt s) (s_sco s) (s_tmp s) (s_tc1 s) (s_tc2 s).
Definition w_u1m x s := mkState (s_heap s) (s_next s) (s_om s) (s_fes s) (s_uh s) (s_u10 s) (s_u20 s) x (s_u1s s) (s_uhp s) (s_u10p s) (s_u20p s) (s_stb s) (s_stm s) (s_slb s) (s_slm s) (s_njb s) (s_njm s) (s_fib s) (s_fim s) (s_com s) (s_mam s) (s_lfi s) (s_rhs s) (s_sfi s) (s_ssl s) (s_vs1 s) (s_vs2 s) (s_vc1 s) (s_vc2 s) (s_vbi s) (s_vbo s) (s_brp s) (s_crs s) (s_nod s) (s_cbf s) (s_cmt s) (s_sco s) (s_tmp s) (s_tc1 s) (s_tc2 s).
Definition w_u1s x s := mkState (s_heap s) (s_next s) (s_om s) (s_fes s) (s_uh s) (s_u10 s) (s_u20 s) (s_u1m s) x (s_uhp s) (s_u10p s) (s_u20p s) (s_stb s) (s_stm s) (s_slb s) (s_slm s) (s_njb s) (s_njm s) (s_fib s) (s_fim s) (s_com s) (s_mam s) (s_lfi s) (s_rhs s) (s_sfi s) (s_ssl s) (s_vs1 s) (s_vs2 s) (s_vc1 s) (s_vc2 s) (s_vbi s) (s_vbo s) (s_brp s) (s_crs s) (s_nod s) (s_cbf s) (s_cmt s) (s_sco s) (s_tmp s) (s_tc1 s) (s_tc2 s).
Definition w_uhp x s := mkState (s_heap s) (s_next s) (s_om s) (s_fes s) (s_uh s) (s_u10 s) (s_u20 s) (s_u1m s) (s_u1s s) x (s_u10p s) (s_u20p s) (s_stb s) (s_stm s) (s_slb s) (s_slm s) (s_njb s) (s_njm s) (s_fib s) (s_fim s) (s_com s) (s_mam s) (s_lfi s) (s_rhs s) (s_sfi s) (s_ssl s) (s_vs1 s) (s_vs2 s) (s_vc1 s) (s_vc2 s) (s_vbi s) (s_vbo s) (s_brp s) (s_crs s) (s_nod s) (s_cbf s) (s_cmt s) (s_sco s) (s_tmp s) (s_tc1 s) (s_tc2 s).
Definition w_u10p x s := mkState (s_heap s) (s_next s) (s_om s) (s_fes s) (s_uh s) (s_u10 s) (s_u20 s) (s_u1m s) (s_u1s s) (s_uhp s) x (s_u20p s) (s_stb s) (s_stm s) (s_slb s) (s_slm s) (s_njb s) (s_njm s) (s_fib s) (s_fim s) (s_com s) (s_mam s) (s_lfi s) (s_rhs s) (s_sfi s) (s_ssl s) (s_vs1 s) (s_vs2 s) (s_vc1 s) (s_vc2 s) (s_vbi s) (s_vbo s) (s_brp s) (s_crs s) (s_nod s) (s_cbf s) (s_cmt s) (s_sco s) (s_tmp s) (s_tc1 s) (s_tc2 s).
Definition w_u20p x s := mkState (s_heap s) (s_next s) (s_om s) (s_fes s) (s_uh s) (s_u10 s) (s_u20 s) (s_u1m s) (s_u1s s) (s_uhp s) (s_u10p s) x (s_stb s) (s_stm s) (s_slb s) (s_slm s) (s_njb s) (s_njm s) (s_fib s) (s_fim s) (s_com s) (s_mam s) (s_lfi s) (s_rhs s) (s_sfi s) (s_ssl s) (s_vs1 s) (s_vs2 s) (s_vc1 s) (s_vc2 s) (s_vbi s) (s_vbo s) (s_brp s) (s_crs s) (s_nod s) (s_cbf s) (s_cmt s) (s_sco s) (s_tmp s) (s_tc1 s) (s_tc2 s).
Definition w_stb x s := mkState (s_heap s) (s_next s) (s_om s) (s_fes s) (s_uh s) (s_u10 s) (s_u20 s) (s_u1m s) (s_u1s s) (s_uhp s) (s_u10p s) (s_u20p s) x (s_stm s) (s_slb s) (s_slm s) (s_njb s) (s_njm s) (s_fib s) (s_fim s) (s_com s) (s_mam s) (s_lfi s) (s_rhs s) (s_sfi s) (s_ssl s) (s_vs1 s) (s_vs2 s) (s_vc1 s) (s_vc2 s) (s_vbi s) (s_vbo s) (s_brp s) (s_crs s) (s_nod s) (s_cbf s) (s_cmt s) (s_sco s) (s_tmp s) (s_tc1 s) (s_tc2 s).
Definition w_stm x s := mkState (s_heap s) (s_next s) (s_om s) (s_fes s) (s_uh s) (s_u10 s) (s_u20 s) (s_u1m s) (s_u1s s) (s_uhp s) (s_u10p s) (s_u20p s) (s_stb s) x (s_slb s) (s_slm s) (s_njb s) (s_njm s) (s_fib s) (s_fim s) (s_com s) (s_mam s) (s_lfi s) (s_rhs s) (s_sfi s) (s_ssl s) (s_vs1 s) (s_vs2 s) (s_vc1 s) (s_vc2 s) (s_vbi s) (s_vbo s) (s_brp s) (s_crs s) (s_nod s) (s_cbf s) (s_cmt s) (s_sco s) (s_tmp s) (s_tc1 s) (s_tc2 s).
Definition w_slb x s := mkState (s_heap s) (s_next s) (s_om s) (s_fes s) (s_uh s) (s_u10 s) (s_u20 s) (s_u1m s) (s_u1s s) (s_uhp s) (s_u10p s) (s_u20p s) (s_stb s) (s_stm s) x (s_slm s) (s_njb s) (s_njm s) (s_fib s) (s_fim s) (s_com s) (s_mam s) (s_lfi s) (s_rhs s) (s_sfi s) (s_ssl s) (s_vs1 s) (s_vs2 s) (s_vc1 s) (s_vc2 s) (s_vbi s) (s_vbo s) (s_brp s) (s_crs s) (s_nod s) (s_cbf s) (s_cmt s) (s_sco s) (s_tmp s) (s_tc1 s) (s_tc2 s).
Definition w_slm x s := mkState (s_heap s) (s_next s) (s_om s) (s_fes s) (s_uh s) (s_u10 s) (s_u20 s) (s_u1m s) (s_u1s s) (s_uhp s) (s_u10p s) (s_u20p s) (s_stb s) (s_stm s) (s_slb s) x (s_njb s) (s_njm s) (s_fib s) (s_fim s) (s_com s) (s_mam s) (s_lfi s) (s_rhs s) (s_sfi s) (s_ssl s) (s_vs1 s) (s_vs2 s) (s_vc1 s) (s_vc2 s) (s_vbi s) (s_vbo s) (s_brp s) (s_crs s) (s_nod s) (s_cbf s) (s_cmt s) (s_sco s) (s_tmp s) (s_tc1 s) (s_tc2 s).
Definition w_njb x s := mkState (s_heap s) (s_next s) (s_om s) (s_fes s) (s_uh s) (s_u10 s) (s_u20 s) (s_u1m s) (s_u1s s) (s_uhp s) (s_u10p s) (s_u20p s) (s_stb s) (s_stm s) (s_slb s) (s_slm s) x (s_njm s) (s_fib s) (s_fim s) (s_com s) (s_mam s) (s_lfi s) (s_rhs s) (s_sfi s) (s_ssl s) (s_vs1 s) (s_vs2 s) (s_vc1 s) (s_vc2 s) (s_vbi s) (s_vbo s) (s_brp s) (s_crs s) (s_nod s) (s_cbf s) (s_cmt s) (s_sco s) (s_tmp s) (s_tc1 s) (s_tc2 s).
Definition w_njm x s := mkState (s_heap s) (s_next s) (s_om s) (s_fes s) (s_uh s) (s_u10 s) (s_u20 s) (s_u1m s) (s_u1s s) (s_uhp s) (s_u10p s) (s_u20p s) (s_stb s) (s_stm s) (s_slb s) (s_slm s) (s_njb s) x (s_fib s) (s_fim s) (s_com s) (s_mam s) (s_lfi s) (s_rhs s) (s_sfi s) (s_ssl s) (s_vs1 s) (s_vs2 s) (s_vc1 s) (s_vc2 s) (s_vbi s) (s_vbo s) (s_brp s) (s_crs s) (s_nod s) (s_cbf s) (s_cmt s) (s_sco s) (s_tmp s) (s_tc1 s) (s_tc2 s).
Definition w_fib x s := mkState (s_heap s) (s_next s) (s_om s) (s_fes s) (s_uh s) (s_u10 s) (s_u20 s) (s_u1m s) (s_u1s s) (s_uhp s) (s_u10p s) (s_u20p s) (s_stb s) (s_stm s) (s_slb s) (s_slm s) (s_njb s) (s_njm s) x (s_fim s) (s_com s) (s_mam s) (s_lfi s) (s_rhs s) (s_sfi s) (s_ssl s) (s_vs1 s) (s_vs2 s) (s_vc1 s) (s_vc2 s) (s_vbi s) (s_vbo s) (s_brp s) (s_crs s) (s_nod s) (s_cbf s) (s_cmt s) (s_sco s) (s_tmp s) (s_tc1 s) (s_tc2 s).
Definition w_fim x s := mkState (s_heap s) (s_next s) (s_om s) (s_fes s) (s_uh s) (s_u10 s) (s_u20 s) (s_u1m s) (s_u1s s) (s_uhp s) (s_u10p s) (s_u20p s) (s_stb s) (s_stm s) (s_slb s) (s_slm s) (s_njb s) (s_njm s) (s_fib s) x (s_com s) (s_mam s) (s_lfi s) (s_rhs s) (s_sfi s) (s_ssl s) (s_vs1 s) (s_vs2 s) (s_vc1 s) (s_vc2 s) (s_vbi s) (s_vbo s) (s_brp s) (s_crs s) (s_nod s) (s_cbf s) (s_cmt s) (s_sco s) (s_tmp s) (s_tc1 s) (s_tc2 s).
Definition w_com x s := mkState (s_heap s) (s_next s) (s_om s) (s_fes s) (s_uh s) (s_u10 s) (s_u20 s) (s_u1m s) (s_u1s s) (s_uhp s) (s_u10p s) (s_u20p s) (s_stb s) (s_stm s) (s_slb s) (s_slm s) (s_njb s) (s_njm s) (s_fib s) (s_fim s) x (s_mam s) (s_lfi s) (s_rhs s) (s_sfi s) (s_ssl s) (s_vs1 s) (s_vs2 s) (s_vc1 s) (s_vc2 s) (s_vbi s) (s_vbo s) (s_brp s) (s_crs s) (s_nod s) (s_cbf s) (s_cmt s) (s_sco s) (s_tmp s) (s_tc1 s) (s_tc2 s).
Definition w_mam x s := mkState (s_heap s) (s_next s) (s_om s) (s_fes s) (s_uh s) (s_u10 s) (s_u20 s) (s_u1m s) (s_u1s s) (s_uhp s) (s_u10p s) (s_u20p s) (s_stb s) (s_stm s) (s_slb s) (s_slm s) (s_njb s) (s_njm s) (s_fib s) (s_fim s) (s_com s) x (s_lfi s) (s_rhs s) (s_sfi s) (s_ssl s) (s_vs1 s) (s_vs2 s) (s_vc1 s) (s_vc2 s) (s_vbi s) (s_vbo s) (s_brp s) (s_crs s) (s_nod s) (s_cbf s) (s_cmt s) (s_sco s) (s_tmp s) (s_tc1 s) (s_tc2 s).
Definition w_lfi x s := mkState (s_heap s) (s_next s) (s_om s) (s_fes s) (s_uh s) (s_u10 s) (s_u20 s) (s_u1m s) (s_u1s s) (s_uhp s) (s_u10p s) (s_u20p s) (s_stb s) (s_stm s) (s_slb s) (s_slm s) (s_njb s) (s_njm s) (s_fib s) (s_fim s) (s_com s) (s_mam s) x (s_rhs s) (s_sfi s) (s_ssl s) (s_vs1 s) (s_vs2 s) (s_vc1 s) (s_vc2 s) (s_vbi s) (s_vbo s) (s_brp s) (s_crs s) (s_nod s) (s_cbf s) (s_cmt s) (s_sco s) (s_tmp s) (s_tc1 s) (s_tc2 s).
Definition w_rhs x s := mkState (s_heap s) (s_next s) (s_om s) (s_fes s) (s_uh s) (s_u10 s) (s_u20 s) (s_u1m s) (s_u1s s) (s_uhp s) (s_u10p s) (s_u20p s) (s_stb s) (s_stm s) (s_slb s) (s_slm s) (s_njb s) (s_njm s) (s_fib s) (s_fim s) (s_com s) (s_mam s) (s_lfi s) x (s_sfi s) (s_ssl s) (s_vs1 s) (s_vs2 s) (s_vc1 s) (s_vc2 s) (s_vbi s) (s_vbo s) (s_brp s) (s_crs s) (s_nod s) (s_cbf s) (s_cmt s) (s_sco s) (s_tmp s) (s_tc1 s) (s_tc2 s).
Definition w_sfi x s := mkState (s_heap s) (s_next s) (s_om s) (s_fes s) (s_uh s) (s_u10 s) (s_u20 s) (s_u1m s) (s_u1s s) (s_uhp s) (s_u10p s) (s_u20p s) (s_stb s) (s_stm s) (s_slb s) (s_slm s) (s_njb s) (s_njm s) (s_fib s) (s_fim s) (s_com s) (s_mam s) (s_lfi s) (s_rhs s) x (s_ssl s) (s_vs1 s) (s_vs2 s) (s_vc1 s) (s_vc2 s) (s_vbi s) (s_vbo s) (s_brp s) (s_crs s) (s_nod s) (s_cbf s) (s_cmt s) (s_sco s) (s_tmp s) (s_tc1 s) (s_tc2 s).
Definition w_ssl x s := mkState (s_heap s) (s_next s) (s_om s) (s_fes s) (s_uh s) (s_u10 s) (s_u20 s) (s_u1m s) (s_u1s s) (s_uhp s) (s_u10p s) (s_u20p s) (s_stb s) (s_stm s) (s_slb s) (s_slm s) (s_njb s) (s_njm s) (s_fib s) (s_fim s) (s_com s) (s_mam s) (s_lfi s) (s_rhs s) (s_sfi s) x (s_vs1 s) (s_vs2 s) (s_vc1 s) (s_vc2 s) (s_vbi s) (s_vbo s) (s_brp s) (s_crs s) (s_nod s) (s_cbf s) (s_cmt s) (s_sco s) (s_tmp s) (s_tc1 s) (s_tc2 s).
Definition w_vs1 x s := mkState (s_heap s) (s_next s) (s_om s) (s_fes s) (s_uh s) (s_u10 s) (s_u20 s) (s_u1m s) (s_u1s s) (s_uhp s) (s_u10p s) (s_u20p s) (s_stb s) (s_stm s) (s_slb s) (s_slm s) (s_njb s) (s_njm s) (s_fib s) (s_fim s) (s_com s) (s_mam s) (s_lfi s) (s_rhs s) (s_sfi s) (s_ssl s) x (s_vs2 s) (s_vc1 s) (s_vc2 s) (s_vbi s) (s_vbo s) (s_brp s) (s_crs s) (s_nod s) (s_cbf s) (s_cmt s) (s_sco s) (s_tmp s) (s_tc1 s) (s_tc2 s).
Definition w_vs2 x s := mkState (s_heap s) (s_next s) (s_om s) (s_fes s) (s_uh s) (s_u10 s) (s_u20 s) (s_u1m s) (s_u1s s) (s_uhp s) (s_u10p s) (s_u20p s) (s_stb s) (s_stm s) (s_slb s) (s_slm s) (s_njb s) (s_njm s) (s_fib s) (s_fim s) (s_com s) (s_mam s) (s_lfi s) (s_rhs s) (s_sfi s) (s_ssl s) (s_vs1 s) x (s_vc1 s) (s_vc2 s) (s_vbi s) (s_vbo s) (s_brp s) (s_crs s) (s_nod s) (s_cbf s) (s_cmt s) (s_sco s) (s_tmp s) (s_tc1 s) (s_tc2 s).
Definition w_vc1 x s := mkState (s_heap s) (s_next s) (s_om s) (s_fes s) (s_uh s) (s_u10 s) (s_u20 s) (s_u1m s) (s_u1s s) (s_uhp s) (s_u10p s) (s_u20p s) (s_stb s) (s_stm s) (s_slb s) (s_slm s) (s_njb s) (s_njm s) (s_fib s) (s_fim s) (s_com s) (s_mam s) (s_lfi s) (s_rhs s) (s_sfi s) (s_ssl s) (s_vs1 s) (s_vs2 s) x (s_vc2 s) (s_vbi s) (s_vbo s) (s_brp s) (s_crs s) (s_nod s) (s_cbf s) (s_cmt s) (s_sco s) (s_tmp s) (s_tc1 s) (s_tc2 s).
Definition w_vc2 x s := mkState (s_heap s) (s_next s) (s_om s) (s_fes s) (s_uh s) (s_u10 s) (s_u20 s) (s_u1m s) (s_u1s s) (s_uhp s) (s_u10p s) (s_u20p s) (s_stb s) (s_stm s) (s_slb s) (s_slm s) (s_njb s) (s_njm s) (s_fib s) (s_fim s) (s_com s) (s_mam s) (s_lfi s) (s_rhs s) (s_sfi s) (s_ssl s) (s_vs1 s) (s_vs2 s) (s_vc1 s) x (s_vbi s) (s_vbo s) (s_brp s) (s_crs s) (s_nod s) (s_cbf s) (s_cmt s) (s_sco s) (s_tmp s) (s_tc1 s) (s_tc2 s).
Definition w_vbi x s := mkState (s_heap s) (s_next s) (s_om s) (s_fes s) (s_uh s) (s_u10 s) (s_u20 s) (s_u1m s) (s_u1s s) (s_uhp s) (s_u10p s) (s_u20p s) (s_stb s) (s_stm s) (s_slb s) (s_slm s) (s_njb s) (s_njm s) (s_fib s) (s_fim s) (s_com s) (s_mam s) (s_lfi s) (s_rhs s) (s_sfi s) (s_ssl s) (s_vs1 s) (s_vs2 s) (s_vc1 s) (s_vc2 s) x (s_vbo s) (s_brp s) (s_crs s) (s_nod s) (s_cbf s) (s_cmt s) (s_sco s) (s_tmp s) (s_tc1 s) (s_tc2 s).
Definition w_vbo x s := mkState (s_heap s) (s_next s) (s_om s) (s_fes s) (s_uh s) (s_u10 s) (s_u20 s) (s_u1m s) (s_u1s s) (s_uhp s) (s_u10p s) (s_u20p s) (s_stb s) (s_stm s) (s_slb s) (s_slm s) (s_njb s) (s_njm s) (s_fib s) (s_fim s) (s_com s) (s_mam s) (s_lfi s) (s_rhs s) (s_sfi s) (s_ssl s) (s_vs1 s) (s_vs2 s) (s_vc1 s) (s_vc2 s) (s_vbi s) x (s_brp s) (s_crs s) (s_nod s) (s_cbf s) (s_cmt s) (s_sco s) (s_tmp s) (s_tc1 s) (s_tc2 s).
Definition w_brp x s := mkState (s_heap s) (s_next s) (s_om s) (s_fes s) (s_uh s) (s_u10 s) (s_u20 s) (s_u1m s) (s_u1s s) (s_uhp s) (s_u10p s) (s_u20p s) (s_stb s) (s_stm s) (s_slb s) (s_slm s) (s_njb s) (s_njm s) (s_fib s) (s_fim s) (s_com s) (s_mam s) (s_lfi s) (s_rhs s) (s_sfi s) (s_ssl s) (s_vs1 s) (s_vs2 s) (s_vc1 s) (s_vc2 s) (s_vbi s) (s_vbo s) x (s_crs s) (s_nod s) (s_cbf s) (s_cmt s) (s_sco s) (s_tmp s) (s_tc1 s) (s_tc2 s).
Definition w_crs x s := mkState (s_heap s) (s_next s) (s_om s) (s_fes s) (s_uh s) (s_u10 s) (s_u20 s) (s_u1m s) (s_u1s s) (s_uhp s) (s_u10p s) (s_u20p s) (s_stb s) (s_stm s) (s_slb s) (s_slm s) (s_njb s) (s_njm s) (s_fib s) (s_fim s) (s_com s) (s_mam s) (s_lfi s) (s_rhs s) (s_sfi s) (s_ssl s) (s_vs1 s) (s_vs2 s) (s_vc1 s) (s_vc2 s) (s_vbi s) (s_vbo s) (s_brp s) x (s_nod s) (s_cbf s) (s_cmt s) (s_sco s) (s_tmp s) (s_tc1 s) (s_tc2 s).
Definition w_nod x s := mkState (s_heap s) (s_next s) (s_om s) (s_fes s) (s_uh s) (s_u10 s) (s_u20 s) (s_u1m s) (s_u1s s) (s_uhp s) (s_u10p s) (s_u20p s) (s_stb s) (s_stm s) (s_slb s) (s_slm s) (s_njb s) (s_njm s) (s_fib s) (s_fim s) (s_com s) (s_mam s) (s_lfi s) (s_rhs s) (s_sfi s) (s_ssl s) (s_vs1 s) (s_vs2 s) (s_vc1 s) (s_vc2 s) (s_vbi s) (s_vbo s) (s_brp s) (s_crs s) x (s_cbf s) (s_cmt s) (s_sco s) (s_tmp s) (s_tc1 s) (s_tc2 s).
Definition w_cbf x s := mkState (s_heap s) (s_next s) (s_om s) (s_fes s) (s_uh s) (s_u10 s) (s_u20 s) (s_u1m s) (s_u1s s) (s_uhp s) (s_u10p s) (s_u20p s) (s_stb s) (s_stm s) (s_slb s) (s_slm s) (s_njb s) (s_njm s) (s_fib s) (s_fim s) (s_com s) (s_mam s) (s_lfi s) (s_rhs s) (s_sfi s) (s_ssl s) (s_vs1 s) (s_vs2 s) (s_vc1 s) (s_vc2 s) (s_vbi s) (s_vbo s) (s_brp s) (s_crs s) (s_nod s) x (s_cmt s) (s_sco s) (s_tmp s) (s_tc1 s) (s_tc2 s).
Definition w_cmt x s := mkState (s_heap s) (s_next s) (s_om s) (s_fes s) (s_uh s) (s_u10 s) (s_u20 s) (s_u1m s) (s_u1s s) (s_uhp s) (s_u10p s) (s_u20p s) (s_stb s) (s_stm s) (s_slb s) (s_slm s) (s_njb s) (s_njm s) (s_fib s) (s_fim s) (s_com s) (s_mam s) (s_lfi s) (s_rhs s) (s_sfi s) (s_ssl s) (s_vs1 s) (s_vs2 s) (s_vc1 s) (s_vc2 s) (s_vbi s) (s_vbo s) (s_brp s) (s_crs s) (s_nod s) (s_cbf s) x (s_sco s) (s_tmp s) (s_tc1 s) (s_tc2 s).
Definition w_sco x s := mkState (s_heap s) (s_next s) (s_om s) (s_fes s) (s_uh s) (s_u10 s) (s_u20 s) (s_u1m s) (s_u1s s) (s_uhp s) (s_u10p s) (s_u20p s) (s_stb s) (s_stm s) (s_slb s) (s_slm s) (s_njb s) (s_njm s) (s_fib s) (s_fim s) (s_com s) (s_mam s) (s_lfi s) (s_rhs s) (s_sfi s) (s_ssl s) (s_vs1 s) (s_vs2 s) (s_vc1 s) (s_vc2 s) (s_vbi s) (s_vbo s) (s_brp s) (s_crs s) (s_nod s) (s_cbf s) (s_cmt s) x (s_tmp s) (s_tc1 s) (s_tc2 s).
Definition w_tmp x s := mkState (s_heap s) (s_next s) (s_om s) (s_fes s) (s_uh s) (s_u10 s) (s_u20 s) (s_u1m s) (s_u1s s) (s_uhp s) (s_u10p s) (s_u20p s) (s_stb s) (s_stm s) (s_slb s) (s_slm s) (s_njb s) (s_njm s) (s_fib s) (s_fim s) (s_com s) (s_mam s) (s_lfi s) (s_rhs s) (s_sfi s) (s_ssl s) (s_vs1 s) (s_vs2 s) (s_vc1 s) (s_vc2 s) (s_vbi s) (s_vbo s) (s_brp s) (s_crs s) (s_nod s) (s_cbf s) (s_cmt s) (s_sco s) x (s_tc1 s) (s_tc2 s).
Definition w_tc1 x s := mkState (s_heap s) (s_next s) (s_om s) (s_fes s) (s_uh s) (s_u10 s) (s_u20 s) (s_u1m s) (s_u1s s) (s_uhp s) (s_u10p s) (s_u20p s) (s_stb s) (s_stm s) (s_slb s) (s_slm s) (s_njb s) (s_njm s) (s_fib s) (s_fim s) (s_com s) (s_mam s) (s_lfi s) (s_rhs s) (s_sfi s) (s_ssl s) (s_vs1 s) (s_vs2 s) (s_vc1 s) (s_vc2 s) (s_vbi s) (s_vbo s) (s_brp s) (s_crs s) (s_nod s) (s_cbf s) (s_cmt s) (s_sco s) (s_tmp s) x (s_tc2 s).
Definition w_tc2 x s := mkState (s_heap s) (s_next s) (s_om s) (s_fes s) (s_uh s) (s_u10 s) (s_u20 s) (s_u1m s) (s_u1s s) (s_uhp s) (s_u10p s) (s_u20p s) (s_stb s) (s_stm s) (s_slb s) (s_slm s) (s_njb s) (s_njm s) (s_fib s) (s_fim s) (s_com s) (s_mam s) (s_lfi s) (s_rhs s) (s_sfi s) (s_ssl s) (s_vs1 s) (s_vs2 s) (s_vc1 s) (s_vc2 s) (s_vbi s) (s_vbo s) (s_brp s) (s_crs s) (s_nod s) (s_cbf s) (s_cmt s) (s_sco s) (s_tmp s) (s_tc1 s) x.
Definition put (i : nat) (v : vec) (s : state) : state :=
  w_heap (fun k => if Nat.eqb k i then v else s_heap s k) s.

(** * The constructor (space_time.py:87-249)

    [ind] is the indicator function of the DataDomain at the quadrature points.
    If the data domain is fitted, a new DG0 function, which is zero, takes its
    place and is then interpolated into itself (space_time.py:147-152). *)
Definition init_state (fitted : bool) (ind : nat -> R) (heap : nat -> vec) (next : nat) : state :=
  mkState heap next (if fitted then (fun _ => 0) else ind) false
    vzero vzero vzero vzero (fun _ => vzero) vzero vzero vzero
    None None None None None None None None None None None None None None
    None None None None None None None None false None None None false None None.

(** * Copying between component blocks

    [dst[dofmap[jd][id]] = src[dofmap[js][is]]] (or [+=]) for a list of
    component pairs *)
Definition pairs : Type := list ((nat * nat) * (nat * nat)).
Definition move (add : bool) (Ld Ls : layout) (prs : pairs) (src dst : vec) : vec :=
  fold_left (fun w '((jd, id), (js, is)) =>
    (if add then scatter_add else scatter) w (lay_sub Ld jd id) (gather src (lay_sub Ls js is)))
    prs dst.

(** * The loop over slabs with its counters *)
Fixpoint slabs (c : config) (body : nat -> counters -> M state unit) (ns : list nat) (k : counters) : M state unit :=
  match ns with
  | [] => ret tt
  | n :: ns' => body n k ;; slabs c body ns' (cnt_next c k)
  end.
(** shift_idx = int_idx_q if j in [0, 1] else int_idx_qstar *)
Definition shift_idx (k : counters) (j : nat) : Z := if Nat.ltb j 2 then k_iq k else k_iqs k.
(** for j in range(4): for ell in range(subspace_time_order[j] + 1): the
    component (j, ell) of the slab space and (j, shift_idx + ell) of fes *)
Definition slab_pairs (c : config) (k : counters) : list ((nat * nat) * (nat * nat)) :=
  flat_map (fun j => map (fun ell => ((j, ell), (j, Z.to_nat (shift_idx k j + z ell)))) (seq 0 (ntime c j))) (seq 0 4).
(** for j in range(2): for i in range(2): component (j, i) of fes_coupling
    and (j, coupling_idx_q + i) of fes *)
Definition coup_pairs (k : counters) : list ((nat * nat) * (nat * nat)) :=
  flat_map (fun j => map (fun i => ((j, i), (j, Z.to_nat (k_cq k + z i)))) (seq 0 2)) (seq 0 2).
Definition flip_pairs (p : pairs) : pairs := map (fun '(a, b) => (b, a)) p.


Section Methods.
  Variable E : env.
  Let c := e_c E.
  Let D := e_D E.
  Let Lf := e_Lf E.
  Let Lp := e_Lp E.
  Let Lc := e_Lc E.
  Let Lb := e_Lb E.

  Definition err_if (b : bool) (e : exn) : M state unit := if b then raise e else ret tt.
  Definition is_zero (r : R) : bool := if Req_EM_T r 0 then true else false.

  (** setup_spacetime_finite_elements (space_time.py:251-340): new spaces and
      new functions; matrices and vectors already built are kept *)
  Definition setup_fes : M state unit := modify (fun s =>
    w_uh vzero (w_u10 vzero (w_u20 vzero (w_u1m vzero (w_u1s (fun _ => vzero)
    (w_uhp vzero (w_u10p vzero (w_u20p vzero (w_fes true s))))))))).

  (** ufl.TrialFunctions(None) raises ValueError *)
  Definition need_fes (e : exn) : M state unit := do s <- get; err_if (negb (s_fes s)) e.

  (** setup_spacetime_matrix (space_time.py:342-707) *)
  Definition setup_spacetime_matrix (D0 : disc) (L0 : layout) (om : nat -> R) (precond : bool)
    : M state (matrix * bform) :=
    do g <- lift (get_gammas (c_stab c));
    do f <- lift (fem_form 4 (nc_full c) (st_form c g om precond));
    ret (assemble D0 L0 f, f).
  (** self.setup_spacetime_matrix(self.fes, precond), storing the results
      (space_time.py:711-717, 722-727) *)
  Definition build_spacetime (precond : bool) : M state unit :=
    need_fes ValueError ;;
    do s <- get;
    do (A, f) <- setup_spacetime_matrix D Lf (s_om s) precond;
    modify (fun s => w_stm (Some A) (w_stb (Some f) s)).
  (** space_time.py:709-718 *)
  Definition get_spacetime_matrix (precond : bool) : M state (option matrix) :=
    do s <- get;
    (match s_stm s with None => build_spacetime precond | Some _ => ret tt end) ;;
    do s <- get; ret (s_stm s).
  (** space_time.py:720-728 *)
  Definition get_spacetime_bfi (precond : bool) : M state (option bform) :=
    do s <- get;
    (match s_stb s with None => build_spacetime precond | Some _ => ret tt end) ;;
    do s <- get; ret (s_stb s).

  (** setup_rhs (space_time.py:730-792) *)
  Definition setup_rhs : M state unit :=
    need_fes ValueError ;;
    do gj <- lift (lookup (c_stab c) "primal-jump");
    do gd <- lift (lookup (c_stab c) "data");
    err_if (c_wp c && is_zero (c_dt c)) ZeroDivisionError ;;
    do s <- get;
    do f <- lift (fem_lform 4 (nc_full c)
      (rhs_form c (s_om s) gd gj (d_x D)
        (fev D Dx Vp Val (s_u10 s)) (fev D Dx Vp Grad (s_u10 s)) (fev D Dx Vp Val (s_u20 s))));
    modify (fun s => w_rhs (Some (s_next s)) (w_lfi (Some f)
      (w_next (S (s_next s)) (put (s_next s) (assemble_vec D Lf f) s)))).
  (** space_time.py:794-802 *)
  Definition get_spacetime_rhs : M state (option nat) :=
    do s <- get;
    (match s_rhs s with None => setup_rhs | Some _ => ret tt end) ;;
    do s <- get; ret (s_rhs s).
  Definition get_spacetime_lfi : M state (option lform) :=
    do s <- get;
    (match s_lfi s with None => setup_rhs | Some _ => ret tt end) ;;
    do s <- get; ret (s_lfi s).

  (** setup_coupling_matrix_between_slices (space_time.py:804-840) *)
  Definition setup_coupling : M state unit :=
    need_fes ValueError ;;
    do gj <- lift (lookup (c_stab c) "primal-jump");
    err_if (is_zero (c_dt c)) ZeroDivisionError ;;
    do f <- lift (fem_form 2 nc_coup (coup_form c gj));
    modify (fun s => w_vc2 (Some vzero) (w_vc1 (Some vzero) (w_com (Some (assemble D Lc f)) s))).
  (** setup_scaled_mass_matrix_between_slices (space_time.py:842-864) *)
  Definition setup_scaled_mass : M state unit :=
    need_fes ValueError ;;
    do gj <- lift (lookup (c_stab c) "primal-jump");
    err_if (is_zero (c_dt c)) ZeroDivisionError ;;
    do f <- lift (fem_form 2 nc_bnd (bnd_form c gj));
    modify (fun s => w_vbo (Some vzero) (w_vbi (Some vzero) (w_mam (Some (assemble D Lb f)) s))).
  (** setup_slab_matrix (space_time.py:866-1100) *)
  Definition setup_slab_matrix (with_jumps : bool) : M state unit :=
    need_fes ValueError ;;
    do g <- lift (get_gammas (c_stab c));
    do s <- get;
    do f <- lift (fem_form 4 (nc_pre c) (slab_form c g (s_om s) with_jumps));
    let A := assemble D Lp f in
    if with_jumps then
      modify (fun s => w_slm (Some A) (w_slb (Some f) s)) ;;
      (if c_wp c then modify (fun s => w_fim (Some A) (w_fib (Some f) s)) else ret tt)
    else
      modify (fun s => w_vs2 (Some vzero) (w_vs1 (Some vzero) (w_njm (Some A) (w_njb (Some f) s)))) ;;
      (if c_wp c then ret tt else modify (fun s => w_fim (Some A) (w_fib (Some f) s))).
  (** space_time.py:1102-1118 *)
  Definition get_slab_bfi : M state (option bform) :=
    do s <- get;
    (match s_slb s with None => setup_slab_matrix true ;; setup_slab_matrix false | Some _ => ret tt end) ;;
    do s <- get; ret (s_slb s).
  Definition get_slab_matrix : M state (option matrix) :=
    do s <- get;
    (match s_slm s with None => setup_slab_matrix true ;; setup_slab_matrix false | Some _ => ret tt end) ;;
    do s <- get; ret (s_slm s).
  Definition get_slab_bfi_first : M state (option bform) := do s <- get; ret (s_fib s).
  Definition get_slab_matrix_first : M state (option matrix) := do s <- get; ret (s_fim s).
  (** space_time.py:1120-1125 *)
  Definition set_solver_first (S0 : solver) : M state unit := modify (w_sfi (Some S0)).
  Definition set_solver_slab (S0 : solver) : M state unit := modify (w_ssl (Some S0)).

  (** apply_spacetime_matrix (space_time.py:1135-1184), with the helpers of
      1127-1133; [vi], [vo] are the vectors vec_in, vec_out *)
  Definition apply_slab (vi vo n : nat) (k : counters) : M state unit :=
    need_fes TypeError ;;
    do s <- get;
    do v1 <- need (s_vs1 s) AttributeError;
    let v1' := move false Lp Lf (slab_pairs c k) (s_heap s vi) v1 in
    modify (w_vs1 (Some v1')) ;;
    do s <- get;
    do A <- need (s_njm s) AttributeError;
    let v2 := mult (lay_dim Lp) A v1' in
    modify (w_vs2 (Some v2)) ;;
    do s <- get;
    modify (put vo (move true Lf Lp (flip_pairs (slab_pairs c k)) v2 (s_heap s vo))) ;;
    if Nat.ltb 0 n then
      do s <- get;
      do w1 <- need (s_vc1 s) AttributeError;
      let w1' := move false Lc Lf (coup_pairs k) (s_heap s vi) w1 in
      modify (w_vc1 (Some w1')) ;;
      do s <- get;
      do B <- need (s_com s) AttributeError;
      let w2 := mult (lay_dim Lc) B w1' in
      modify (w_vc2 (Some w2)) ;;
      do s <- get;
      modify (put vo (move true Lf Lc (flip_pairs (coup_pairs k)) w2 (s_heap s vo)))
    else ret tt.
  Definition apply_spacetime_matrix (vi vo : nat) : M state unit :=
    modify (put vo vzero) ;;
    slabs c (apply_slab vi vo) (seq 0 (c_N c)) cnt0.

  (** the array of the component (j, i) of the slab function: arr[dofmaps_pre[j][i]] *)
  Definition comp_of (L : layout) (u : vec) (j i : nat) : vec := of_list (gather u (lay_sub L j i)).
  (** SolverFirstSlab.solve / solver_slab.solve into uh_pre (space_time.py:1234-1239) *)
  Definition solve_slab (n : nat) (b : vec) : M state vec :=
    do s <- get;
    do S0 <- need (if Nat.eqb n 0 then s_sfi s else s_ssl s) AttributeError;
    do u <- lift (S0 b (s_uhp s));
    modify (w_uhp u) ;; ret u.

  (** pre_time_marching (space_time.py:1186-1258) *)
  Definition pre_slab (gj : R) (b x n : nat) (k : counters) : M state unit :=
    need_fes TypeError ;;
    err_if (Nat.ltb 0 n && is_zero (c_dt c)) ZeroDivisionError ;;
    do s <- get;
    do f <- lift (fem_lform 4 (nc_pre c) (pre_lform c gj
      (fev D Dx Vp Val (s_u10p s)) (fev D Dx Vp Grad (s_u10p s)) (fev D Dx Vp Val (s_u20p s)) n));
    let r := move true Lp Lf (slab_pairs c k) (s_heap s b) (assemble_vec D Lp f) in
    do u <- solve_slab n r;
    modify (fun s => w_u20p (comp_of Lp u 1 (c_q c)) (w_u10p (comp_of Lp u 0 (c_q c)) s)) ;;
    do s <- get;
    modify (put x (move false Lf Lp (flip_pairs (slab_pairs c k)) u (s_heap s x))).
  Definition pre_time_marching (b x : nat) : M state unit :=
    do gj <- lift (lookup (c_stab c) "primal-jump");
    slabs c (pre_slab gj b x) (seq 0 (c_N c)) cnt0.

  (** pre_time_marching_improved (space_time.py:1260-1327) *)
  Definition imp_slab (b x n : nat) (k : counters) : M state unit :=
    need_fes TypeError ;;
    do s <- get;
    do r0 <- need (s_brp s) AttributeError;
    let r := move true Lp Lf (slab_pairs c k) (s_heap s b) r0 in
    modify (w_brp (Some r)) ;;
    do u <- solve_slab n r;
    do s <- get;
    do _ <- need (s_vbi s) AttributeError;
    let vin := move true Lb Lp [((0, 0), (0, c_q c)); ((1, 0), (1, c_q c))]%nat u vzero in
    modify (w_vbi (Some vin)) ;;
    do s <- get;
    do B <- need (s_mam s) AttributeError;
    let vout := mult (lay_dim Lb) B vin in
    modify (w_vbo (Some vout)) ;;
    modify (w_brp (Some (move true Lp Lb [((0, 0), (0, 0)); ((1, 0), (1, 0))]%nat vout vzero))) ;;
    do s <- get;
    modify (put x (move false Lf Lp (flip_pairs (slab_pairs c k)) u (s_heap s x))).
  Definition pre_time_marching_improved (b x : nat) : M state unit :=
    err_if (c_jumps c) ValueError ;;
    do _ <- lift (lookup (c_stab c) "primal-jump");
    do s <- get;
    do _ <- need (s_brp s) AttributeError;
    modify (w_brp (Some vzero)) ;;
    slabs c (imp_slab b x) (seq 0 (c_N c)) cnt0.

  (** prepare_precondition_gmres (space_time.py:1329-1340) *)
  Definition is_none {A} (o : option A) : bool := match o with None => true | _ => false end.
  Definition prepare_precondition_gmres : M state unit :=
    do s <- get;
    (if is_none (s_slm s) then setup_slab_matrix true ;; modify (w_brp (Some vzero)) else ret tt) ;;
    do s <- get;
    (if is_none (s_fim s) && negb (c_wp c) then setup_slab_matrix false else ret tt) ;;
    do s <- get;
    (if is_none (s_com s) then setup_coupling else ret tt) ;;
    do s <- get;
    (if is_none (s_rhs s) then setup_rhs else ret tt) ;;
    do s <- get;
    (if is_none (s_mam s) then setup_scaled_mass else ret tt).

  (** * Coarse grid correction *)

  (** prepare_coarse_grid_correction (space_time.py:1343-1396).  self.fes.sub
      and create_vector(None) raise AttributeError. *)
  Definition prepare_coarse (K : coarse) : M state unit :=
    modify (w_crs (Some K)) ;;
    need_fes AttributeError ;;
    modify (w_nod true) ;;
    do s <- get;
    do (A, f) <- setup_spacetime_matrix (k_D K) (k_L K) (k_om K (s_om s)) false;
    modify (fun s => w_cmt (Some A) (w_cbf (Some f) s)) ;;
    do s <- get;
    do _ <- need (s_lfi s) AttributeError;
    modify (fun s => w_tc2 (Some vzero) (w_tc1 (Some vzero) (w_tmp true s))).
  (** space_time.py:1398-1402 *)
  Definition get_spacetime_matrix_coarse : M state (option matrix) := do s <- get; ret (s_cmt s).
  Definition set_solver_coarse (S0 : solver) : M state unit := modify (w_sco (Some S0)).

  (** numpy: the values written by a[idx] = vals if [n] entries are selected; a
      single value is repeated, other lengths raise ValueError *)
  Definition np_assign (n : nat) (vals : list R) : res (list R) :=
    if Nat.eqb (List.length vals) n then Ok vals
    else if Nat.eqb (List.length vals) 1 then Ok (repeat (nth 0 vals 0) n)
    else Err ValueError.
  (** One component of prolongation / restriction (space_time.py:1410-1416,
      1427-1433): u_node_src[:] = src[dofs]; interpolate; dst[dofs] = u_node_dst.
      [nsrc], [ndst]: sizes of the node functions; the output vector is the state. *)
  Definition trans_comp (interp : vec -> vec) (nsrc ndst : nat) (src : vec) (is ids : list nat) : M vec unit :=
    do a <- lift (np_assign nsrc (gather src is));
    do b <- lift (np_assign (List.length ids) (map (interp (of_list a)) (seq 0 ndst)));
    modify (fun dst => scatter dst ids b).
  Definition trans_pairs (k : counters) : list (nat * nat) :=
    flat_map (fun j => map (fun ell => (j, Z.to_nat (shift_idx k j + z ell))) (seq 0 (ntime c j))) (seq 0 4).
  Fixpoint trans_loop (body : nat * nat -> M vec unit) (ns : list nat) (k : counters) : M vec unit :=
    match ns with
    | [] => ret tt
    | _ :: ns' => for_each (trans_pairs k) body ;; trans_loop body ns' (cnt_next c k)
    end.
  (** prolongation (space_time.py:1404-1419) and restriction (1421-1436) as
      actions on the output vector *)
  Definition prolong (K : coarse) (xc : vec) : M vec unit :=
    trans_loop (fun '(j, i) => trans_comp (k_up K) (d_dim (k_D K) Vp) (d_dim D Vp) xc (lay_sub (k_L K) j i) (lay_sub Lf j i))
      (seq 0 (c_N c)) cnt0.
  Definition restrict (K : coarse) (xf : vec) : M vec unit :=
    trans_loop (fun '(j, i) => trans_comp (k_down K) (d_dim D Vp) (d_dim (k_D K) Vp) xf (lay_sub Lf j i) (lay_sub (k_L K) j i))
      (seq 0 (c_N c)) cnt0.
  (** the coarse spaces and node functions are needed; u_node_... is used
      first (None.x: AttributeError) after dofmaps_... (None[j]: TypeError) *)
  Definition need_coarse : M state coarse :=
    do s <- get;
    do K <- need (s_crs s) TypeError;
    err_if (negb (s_nod s)) AttributeError ;; ret K.
  Definition on_heap {A} (i : nat) (m : M vec A) : M state A := fun s =>
    let '(r, v) := m (s_heap s i) in (r, put i v s).
  Definition prolongation (xc xf : nat) : M state unit :=
    do K <- need_coarse; do s <- get; on_heap xf (prolong K (s_heap s xc)).
  Definition restriction (xc xf : nat) : M state unit :=
    do K <- need_coarse; do s <- get; on_heap xc (restrict K (s_heap s xf)).
  (** q_op (space_time.py:1438-1441) *)
  Definition q_op (xi xo : nat) : M state unit :=
    do K <- need_coarse;
    do s <- get;
    do t1 <- need (s_tc1 s) AttributeError;
    let '(r1, t1') := restrict K (s_heap s xi) t1 in
    modify (w_tc1 (Some t1')) ;; lift r1 ;;
    do s <- get;
    do S0 <- need (s_sco s) AttributeError;
    do t2 <- need (s_tc2 s) AttributeError;
    do u <- lift (S0 t1' t2);
    modify (w_tc2 (Some u)) ;;
    on_heap xo (prolong K u).
  (** pre_twolvl (space_time.py:1443-1450): self.otime is an OrderTime, which
      has no attribute q_op, so the first statement raises; the remaining
      statements are never reached *)
  Definition pre_twolvl (b x : nat) : M state unit := raise AttributeError.
End Methods.
