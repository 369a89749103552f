(** FormModel.v -- what dxss uses of UFL and DOLFINx: bilinear and linear
    forms, their evaluation on a spatial discretisation, dof layouts of mixed
    spaces and assembly into matrices and vectors.

    Simplifications (see DESIGN.md):
    - a mesh is seen through its quadrature: for each measure a finite list of
      points with weights, local cell diameters, and the values of every basis
      function (and its gradient, normal derivative, Laplacian, gradient jump)
      at those points; one rule per measure;
    - serial execution: no ghost dofs, scatter_forward and allreduce are
      identities;
    - all numbers are reals. *)
From Coq Require Import Reals List ZArith Lra Lia Bool.
From Verif Require Import Base.
Import ListNotations.
Open Scope R_scope.

(** ufl measures dx, ds, dS *)
Inductive meas : Type := Dx | Ds | DS.
(** the two scalar spaces: CG(k) for u1, u2 and CG(kstar) for z1, z2 *)
Inductive fsp : Type := Vp | Vd.
(** v, grad(v), inner(n_facet, grad(v)), div(grad(v)), jump(grad(v)) *)
Inductive op : Type := Val | Grad | NGrad | Lap | JumpGrad.
(** scalar factors that vary in space: 1, the indicator of the data domain,
    h**2, lam_Nitsche / h, 0.5 * (h("+") + h("-")) *)
Inductive weight : Type :=
| WOne | WOm (om : nat -> R) | WH2 | WLamH (lam : R) | WHavg.

(** A mixed space has four blocks (u1, u2, z1, z2) of vector-valued functions;
    [Tr j] / [Te j]: trial / test function of block j. *)
Inductive var : Type := Tr (j : nat) | Te (j : nat).
Definition U1 := Tr 0. Definition U2 := Tr 1. Definition Z1 := Tr 2. Definition Z2 := Tr 3.
Definition W1 := Te 0. Definition W2 := Te 1. Definition Y1 := Te 2. Definition Y2 := Te 3.
Definition blk (v : var) : nat := match v with Tr j => j | Te j => j end.
Definition is_trial (v : var) : bool := match v with Tr _ => true | Te _ => false end.
(** blocks 0, 1 live in the primal, 2, 3 in the dual space *)
Definition spc (j : nat) : fsp := if Nat.ltb j 2 then Vp else Vd.

(** A linear combination of components: u[i] is [(1, (u, i))],
    u[i] - u[i'] is [(1, (u, i)); (-1, (u, i'))].  Component numbers are
    Python integers. *)
Definition arg : Type := list (R * (var * Z)).
Definition at_ (v : var) (i : Z) : arg := [(1, (v, i))].
Definition sub_ (v : var) (i i' : Z) : arg := [(1, (v, i)); (-1, (v, i'))].

(** coef * weight * inner(op1(arg1), op2(arg2)) * measure *)
Record bterm : Type := mkB {
  b_coef : R; b_wt : weight; b_m : meas;
  b_o1 : op; b_a1 : arg; b_o2 : op; b_a2 : arg }.
Definition bform : Type := list bterm.
Definition bneg (t : bterm) : bterm :=
  mkB (- b_coef t) (b_wt t) (b_m t) (b_o1 t) (b_a1 t) (b_o2 t) (b_a2 t).

(** coef * weight * inner(f, op(arg)) * measure with a known function f given
    by its components at the quadrature points *)
Record lterm : Type := mkL {
  l_coef : R; l_wt : weight; l_m : meas;
  l_f : nat -> nat -> R; l_o : op; l_a : arg }.
Definition lform : Type := list lterm.

(** * Spatial discretisation *)
Record disc : Type := mkDisc {
  d_gd : nat;                                (* geometric dimension *)
  d_pts : meas -> list nat;                  (* quadrature points *)
  d_w : meas -> nat -> R;                    (* their weights *)
  d_x : nat -> list R;                       (* coordinates of the dx points *)
  d_h : meas -> nat -> R;                    (* cell diameter (dx, ds) *)
  d_hp : nat -> R; d_hm : nat -> R;          (* h("+"), h("-") (dS) *)
  d_dim : fsp -> nat;                        (* scalar dofs *)
  d_tab : meas -> fsp -> op -> nat -> nat -> nat -> R
      (* measure, space, operator, basis function, point, component *) }.

Definition ncomp (D : disc) (o : op) : nat :=
  match o with Val | NGrad | Lap => 1%nat | Grad | JumpGrad => d_gd D end.

(** a scalar finite element function with coefficients c, after an operator,
    at a quadrature point *)
Definition fev (D : disc) (m : meas) (s : fsp) (o : op) (c : vec) (p comp : nat) : R :=
  sumn (d_dim D s) (fun l => c l * d_tab D m s o l p comp).

Definition wval (D : disc) (m : meas) (wt : weight) (p : nat) : R :=
  match wt with
  | WOne => 1
  | WOm om => om p
  | WH2 => d_h D m p ^ 2
  | WLamH lam => lam / d_h D m p
  | WHavg => 0.5 * (d_hp D p + d_hm D p)
  end.

(** integral over a measure of weight * inner(f, g) *)
Definition integ (D : disc) (m : meas) (wt : weight) (nc : nat)
  (f g : nat -> nat -> R) : R :=
  Rsum (d_pts D m) (fun p => d_w D m p * wval D m wt p * sumn nc (fun c => f p c * g p c)).

(** * Evaluation of forms *)

(** coefficients of a function in a mixed space: block, component, dof *)
Definition field : Type := nat -> nat -> nat -> R.

Definition pick (X Y : field) (v : var) : field := if is_trial v then X else Y.
Definition argval (D : disc) (m : meas) (o : op) (X Y : field) (a : arg) (p c : nat) : R :=
  Rsum a (fun '(r, (v, i)) => r * fev D m (spc (blk v)) o (pick X Y v (blk v) (Z.to_nat i)) p c).

(** value of a bilinear form at trial X and test Y *)
Definition eval_t (D : disc) (X Y : field) (t : bterm) : R :=
  b_coef t * integ D (b_m t) (b_wt t) (ncomp D (b_o1 t))
    (argval D (b_m t) (b_o1 t) X Y (b_a1 t))
    (argval D (b_m t) (b_o2 t) X Y (b_a2 t)).
Definition eval (D : disc) (f : bform) (X Y : field) : R := Rsum f (eval_t D X Y).

Definition leval_t (D : disc) (Y : field) (t : lterm) : R :=
  l_coef t * integ D (l_m t) (l_wt t) (ncomp D (l_o t)) (l_f t)
    (argval D (l_m t) (l_o t) Y Y (l_a t)).
Definition leval (D : disc) (f : lform) (Y : field) : R := Rsum f (leval_t D Y).

(** * Well-formedness checked by UFL / fem.form *)

(** same tensor shape *)
Definition same_shape (o1 o2 : op) : bool :=
  match o1, o2 with
  | (Val | NGrad | Lap), (Val | NGrad | Lap) => true
  | (Grad | JumpGrad), (Grad | JumpGrad) => true
  | _, _ => false
  end.
(** [nc j] components in block j, [nb] blocks *)
Definition wf_arg (nb : nat) (nc : nat -> nat) (trial : bool) (a : arg) : bool :=
  negb (Nat.eqb (length a) 0) &&
  forallb (fun '(_, (v, i)) =>
    Bool.eqb (is_trial v) trial && Nat.ltb (blk v) nb
    && Z.leb 0 i && Z.ltb i (Z.of_nat (nc (blk v)))) a.
(** dS terms need restricted factors (jump, avg h), dx / ds terms none *)
Definition wf_meas (m : meas) (o : op) (wt : weight) : bool :=
  match m with
  | DS => match o, wt with JumpGrad, WHavg => true | _, _ => false end
  | Dx => match o, wt with (JumpGrad | NGrad), _ => false | _, WHavg => false | _, _ => true end
  | Ds => match o, wt with JumpGrad, _ => false | _, WHavg => false | _, _ => true end
  end.
Definition wf_bterm (nb : nat) (nc : nat -> nat) (t : bterm) : bool :=
  same_shape (b_o1 t) (b_o2 t)
  && wf_meas (b_m t) (b_o1 t) (b_wt t) && wf_meas (b_m t) (b_o2 t) (b_wt t)
  && ((wf_arg nb nc true (b_a1 t) && wf_arg nb nc false (b_a2 t))
      || (wf_arg nb nc false (b_a1 t) && wf_arg nb nc true (b_a2 t))).
Definition wf_bform nb nc (f : bform) : bool := forallb (wf_bterm nb nc) f.
Definition wf_lterm (nb : nat) (nc : nat -> nat) (t : lterm) : bool :=
  wf_meas (l_m t) (l_o t) (l_wt t) && wf_arg nb nc false (l_a t).
Definition wf_lform nb nc (f : lform) : bool := forallb (wf_lterm nb nc) f.

(** ufl's ds and dS carry no mesh here (space_time.py:17), so the mesh is taken
    from the integrand; UFL folds a product with a zero factor to Zero, which
    has no mesh, and Measure.__rmul__ then raises ValueError.  dx is built with
    domain=..., so zero dx terms are harmless. *)
Definition has_domain (t : bterm) : bool :=
  match b_m t with
  | Dx => true
  | Ds | DS =>
      (if Req_EM_T (b_coef t) 0 then false else true)
      && match b_wt t with WLamH lam => if Req_EM_T lam 0 then false else true | _ => true end
  end.

(** a term UFL does not fold to Zero *)
Definition is_nz (r : R) : bool := if Req_EM_T r 0 then false else true.
Definition nonzero_t (t : bterm) : bool := is_nz (b_coef t).

(** fem.form of an expression and create_matrix of the result.  UFL raises
    while the expression is built or when the form is analysed, create_matrix
    raises RuntimeError if every term was folded to Zero (the form is then not
    bilinear); the exception leaves the set-up functions before they have any
    effect, so all are placed here. *)
Definition fem_form (nb : nat) (nc : nat -> nat) (f : bform) : res bform :=
  if forallb has_domain f then
    if wf_bform nb nc f then
      if existsb nonzero_t f then Ok f else Err RuntimeError
    else Err UFLError
  else Err ValueError.
Definition fem_lform (nb : nat) (nc : nat -> nat) (f : lform) : res lform :=
  if wf_lform nb nc f then Ok f else Err UFLError.

(** * Dof layouts and assembly *)

(** [lay_sub j i] is V.sub(j).sub(i).collapse()[1]: the global dof of each dof
    of the scalar component (j, i); [lay_dim] the number of dofs. *)
Record layout : Type := mkLay { lay_dim : nat; lay_sub : nat -> nat -> list nat }.
Definition dof (L : layout) (j i l : nat) : nat := nth l (lay_sub L j i) 0%nat.
Definition field_of (L : layout) (v : vec) : field := fun j i l => v (dof L j i l).
Definition unitv (I : nat) : vec := fun k => delta I k.

Definition matrix : Type := nat -> nat -> R.
(** assemble_matrix(form): entry (I, J) is the form at basis functions J
    (trial) and I (test) *)
Definition assemble (D : disc) (L : layout) (f : bform) : matrix :=
  fun I J => eval D f (field_of L (unitv J)) (field_of L (unitv I)).
(** assemble_vector(form) *)
Definition assemble_vec (D : disc) (L : layout) (f : lform) : vec :=
  fun I => leval D f (field_of L (unitv I)).
(** Mat.mult *)
Definition mult (n : nat) (A : matrix) (x : vec) : vec :=
  fun I => sumn n (fun J => A I J * x J).

(** A layout is well formed for blocks 0..nb-1 with [nc j] components of
    dimension [dm j]: every dof number below lay_dim is the dof of exactly one
    (block, component, local dof). *)
Definition all_dofs (nb : nat) (nc : nat -> nat) (L : layout) : list nat :=
  flat_map (fun j => flat_map (fun i => lay_sub L j i) (seq 0 (nc j))) (seq 0 nb).
Record wf_layout (nb : nat) (nc dm : nat -> nat) (L : layout) : Prop := {
  wl_len : forall j i, (j < nb)%nat -> (i < nc j)%nat -> length (lay_sub L j i) = dm j;
  wl_nodup : NoDup (all_dofs nb nc L);
  wl_range : forall I, In I (all_dofs nb nc L) <-> (I < lay_dim L)%nat }.
