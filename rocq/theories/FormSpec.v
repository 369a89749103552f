(** FormSpec.v -- specification of the space-time problem that the forms of
    /repo/src/dxss/space_time.py are meant to express: discrete functions of
    time and space, their time derivatives, integrals over the time slabs.
    Written without reference to the form builders of SpaceTimeForms.v. *)
From Coq Require Import Reals List ZArith Lra Lia Bool.
From Coquelicot Require Import Coquelicot.
From Verif Require Import Base TimeSpec FormModel.
Import ListNotations.
Open Scope R_scope.

(** * Spatial integrals *)

(** integral over measure m of weight w times inner(o1 a, o2 b), for finite
    element functions given by their coefficients a (space s1) and b (space s2) *)
Definition sp (D : disc) (m : meas) (w : weight) (o1 : op) (s1 : fsp) (o2 : op) (s2 : fsp)
  (a b : vec) : R :=
  integ D m w (ncomp D o1) (fev D m s1 o1 a) (fev D m s2 o2 b).

(** L2 product, product of gradients, product with the normal derivative on
    the boundary *)
Definition L2 (D : disc) s1 s2 (a b : vec) : R := sp D Dx WOne Val s1 Val s2 a b.
Definition H1 (D : disc) s1 s2 (a b : vec) : R := sp D Dx WOne Grad s1 Grad s2 a b.
Definition flux (D : disc) s1 s2 (a b : vec) : R := sp D Ds WOne NGrad s1 Val s2 a b.
(** weighted products: data domain, lam / h on the boundary, jumps of the
    gradient over interior facets *)
Definition L2w (D : disc) om s (a b : vec) : R := sp D Dx (WOm om) Val s Val s a b.
Definition bndw (D : disc) lam s (a b : vec) : R := sp D Ds (WLamH lam) Val s Val s a b.
Definition facet (D : disc) s (a b : vec) : R := sp D DS WHavg JumpGrad s JumpGrad s a b.

(** * Functions of time *)

(** Problem description: orders in time, slab length *)
Record tdisc : Type := mkTD { t_q : nat; t_qs : nat; t_dt : R }.
Definition ord (d : tdisc) (j : nat) : nat := if Nat.ltb j 2 then t_q d else t_qs d.

(** Block j (0: u1, 1: u2, 2: z1, 3: z2) of a discrete function X on slab n:
    its finite element coefficients at time t, by Lagrange interpolation of the
    slab's time nodes *)
Definition at_time (d : tdisc) (X : field) (j n : nat) (t : R) : vec := fun l =>
  sumn (S (ord d j)) (fun i =>
    lagrange (ord d j) i ((t - INR n * t_dt d) / t_dt d) * X j (n * S (ord d j) + i)%nat l).
(** time derivative *)
Definition ddt (f : R -> vec) (t : R) : vec := fun l => Derive (fun s => f s l) t.
Definition vsub (a b : vec) : vec := fun l => a l - b l.
(** right and left limit at the start of slab n, and the jump *)
Definition upper (d : tdisc) (X : field) (j n : nat) : vec := at_time d X j n (INR n * t_dt d).
Definition lower (d : tdisc) (X : field) (j n : nat) : vec := at_time d X j (n - 1) (INR n * t_dt d).
Definition jumpv (d : tdisc) (X : field) (j n : nat) : vec := vsub (upper d X j n) (lower d X j n).
Definition over_slab (d : tdisc) (n : nat) (f : R -> R) : R :=
  RInt f (INR n * t_dt d) (INR n * t_dt d + t_dt d).

(** * The variational problem *)
Section Problem.
  Variables (D : disc) (d : tdisc) (lam : R) (om : nat -> R).

  (** wave equation as a first-order system, tested with (y1, y2):
      (dt u2, y1) + (grad u1, grad y1) - (du1/dn, y1)_boundary + (dt u1 - u2, y2) *)
  Definition wave (U Y : field) (n : nat) : R := over_slab d n (fun t =>
    let u1 := at_time d U 0 n in let u2 := at_time d U 1 n in
    let y1 := at_time d Y 2 n in let y2 := at_time d Y 3 n in
    L2 D Vp Vd (ddt u2 t) (y1 t) + H1 D Vp Vd (u1 t) (y1 t) - flux D Vp Vd (u1 t) (y1 t)
    + L2 D Vp Vd (vsub (ddt u1 t) (u2 t)) (y2 t)).
  (** data term *)
  Definition data (U W : field) (n : nat) : R := over_slab d n (fun t =>
    L2w D om Vp (at_time d U 0 n t) (at_time d W 0 n t)).
  (** dual stabilisation: H1 product of z1, y1 with boundary penalty, L2 product of z2, y2 *)
  Definition dual (Y Z : field) (n : nat) : R := over_slab d n (fun t =>
    let y1 := at_time d Y 2 n t in let z1 := at_time d Z 2 n t in
    let y2 := at_time d Y 3 n t in let z2 := at_time d Z 3 n t in
    L2 D Vd Vd y1 z1 + H1 D Vd Vd y1 z1 + L2 D Vd Vd y2 z2 + bndw D lam Vd y1 z1).
  (** primal stabilisation: least squares of both equations
      (the second weighted by h^2), boundary values and facet jumps *)
  Definition res2 (U : field) (n : nat) (t : R) (p : nat) : R :=
    fev D Dx Vp Val (ddt (at_time d U 1 n) t) p 0 - fev D Dx Vp Lap (at_time d U 0 n t) p 0.
  Definition primal (U W : field) (n : nat) : R := over_slab d n (fun t =>
    let u1 := at_time d U 0 n in let u2 := at_time d U 1 n in
    let w1 := at_time d W 0 n in let w2 := at_time d W 1 n in
    L2 D Vp Vp (vsub (ddt u1 t) (u2 t)) (vsub (ddt w1 t) (w2 t))
    + integ D Dx WH2 1 (fun p _ => res2 U n t p) (fun p _ => res2 W n t p)
    + bndw D lam Vp (u1 t) (w1 t) + facet D Vp (u1 t) (w1 t)).
  (** energy-type product used for jumps in time and for initial data *)
  Definition energy (a1 a2 b1 b2 : vec) : R :=
    1 / t_dt d * L2 D Vp Vp a1 b1 + t_dt d * H1 D Vp Vp a1 b1 + 1 / t_dt d * L2 D Vp Vp a2 b2.
  (** jump penalty at the start of slab n >= 1 *)
  Definition jumps (U W : field) (n : nat) : R :=
    energy (jumpv d U 0 n) (jumpv d U 1 n) (jumpv d W 0 n) (jumpv d W 1 n).
  (** one-sided version used by the preconditioner *)
  Definition jumps_pre (U W : field) (n : nat) : R :=
    energy (jumpv d U 0 n) (jumpv d U 1 n) (upper d W 0 n) (upper d W 1 n).
  (** initial data *)
  Definition init (U W : field) : R :=
    energy (upper d U 0 0) (upper d U 1 0) (upper d W 0 0) (upper d W 1 0).
  (** jumps of the primal variables tested with the dual ones *)
  Definition fwjumps (U Y : field) (n : nat) : R :=
    L2 D Vp Vd (jumpv d U 1 n) (upper d Y 2 n) + L2 D Vp Vd (jumpv d U 0 n) (upper d Y 3 n).
  Definition dualjumps (Y Z : field) (n : nat) : R :=
    t_dt d * (L2 D Vd Vd (upper d Y 3 n) (upper d Z 3 n) + L2 D Vd Vd (upper d Y 2 n) (upper d Z 2 n)).
End Problem.
