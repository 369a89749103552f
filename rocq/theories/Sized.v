(** Sized.v -- the methods of SpaceTime that take vectors of the caller, with the
    lengths of these vectors (/repo/src/dxss/space_time.py:1135-1327, 1404-1441,
    1452-1463, 1584-1596, 1715-1718, 1829-1834).

    In SpaceTimeModel.v a vector is a function on the natural numbers.  Here the
    vector number i of the caller has [l i] entries, and an index at or beyond
    the length raises IndexError, before anything of that statement is stored.
    The arrays the object allocates itself have the dimension of their space,
    so that only the accesses to the caller's vectors are checked.  One process:
    [.array] has no ghost entries and as many entries as the vector. *)
From Coq Require Import Reals List ZArith Lra Lia Bool String.
From Verif Require Import Base TimeModel FormModel FormSpec FormProofs SpaceTimeForms SpaceTimeModel ErrorsModel Lifecycle.
Import ListNotations.
Open Scope R_scope.
Open Scope monad_scope.

(** arr[idx] of an array with [len] entries *)
Definition inside (len : nat) (idx : list nat) : bool := forallb (fun i => Nat.ltb i len) idx.
(** dst[...] = src[...] or dst[...] += src[...] for a list of components, in
    order, up to the first that is outside; [ld], [ls]: the number of entries of
    dst and src *)
Fixpoint move_in (add : bool) (Ld Ls : layout) (ld ls : nat) (prs : pairs) (src dst : vec) : res unit * vec :=
  match prs with
  | [] => (Ok tt, dst)
  | ((jd, id), (js, is)) :: prs' =>
      if inside ls (lay_sub Ls js is) && inside ld (lay_sub Ld jd id)
      then move_in add Ld Ls ld ls prs' src (move add Ld Ls [((jd, id), (js, is))] src dst)
      else (Err IndexError, dst)
  end.
(** a[:] = b[:] with [n] entries of a and [m] of b: a single value is repeated *)
Definition whole (n m : nat) (b : vec) : res vec :=
  if Nat.eqb m n then Ok b
  else if Nat.eqb m 1 then Ok (fun _ => b 0%nat)
  else Err ValueError.

Section Sized.
  Variable E : env.
  Variable l : nat -> nat.
  Notation c := (e_c E).
  Notation D := (e_D E).
  Notation Lf := (e_Lf E).
  Notation Lp := (e_Lp E).
  Notation Lc := (e_Lc E).
  Notation Lb := (e_Lb E).

  (** the component of vec_in that is read first in a slab; it is read before
      self.vec_slab1 is looked up (space_time.py:1147) *)
  Definition first_read (prs : pairs) : list nat :=
    match prs with [] => [] | (_, (j, i)) :: _ => lay_sub Lf j i end.

  (** apply_spacetime_matrix (space_time.py:1135-1184) *)
  Definition sz_apply_slab (vi vo n : nat) (k : counters) : M state unit :=
    need_fes TypeError ;;
    do s <- get;
    err_if (negb (inside (l vi) (first_read (slab_pairs c k)))) IndexError ;;
    do v1 <- need (s_vs1 s) AttributeError;
    let '(r, v1') := move_in false Lp Lf (lay_dim Lp) (l vi) (slab_pairs c k) (s_heap s vi) v1 in
    modify (w_vs1 (Some v1')) ;; lift r ;;
    do s <- get;
    do A <- need (s_njm s) AttributeError;
    let v2 := mult (lay_dim Lp) A v1' in
    modify (w_vs2 (Some v2)) ;;
    do s <- get;
    let '(r, o) := move_in true Lf Lp (l vo) (lay_dim Lp) (flip_pairs (slab_pairs c k)) v2 (s_heap s vo) in
    modify (put vo o) ;; lift r ;;
    if Nat.ltb 0 n then
      do s <- get;
      err_if (negb (inside (l vi) (first_read (coup_pairs k)))) IndexError ;;
      do w1 <- need (s_vc1 s) AttributeError;
      let '(r, w1') := move_in false Lc Lf (lay_dim Lc) (l vi) (coup_pairs k) (s_heap s vi) w1 in
      modify (w_vc1 (Some w1')) ;; lift r ;;
      do s <- get;
      do B <- need (s_com s) AttributeError;
      let w2 := mult (lay_dim Lc) B w1' in
      modify (w_vc2 (Some w2)) ;;
      do s <- get;
      let '(r, o) := move_in true Lf Lc (l vo) (lay_dim Lc) (flip_pairs (coup_pairs k)) w2 (s_heap s vo) in
      modify (put vo o) ;; lift r
    else ret tt.
  Definition sz_apply (vi vo : nat) : M state unit :=
    modify (put vo vzero) ;;
    slabs c (sz_apply_slab vi vo) (seq 0 (c_N c)) cnt0.

  (** pre_time_marching (space_time.py:1186-1258) *)
  Definition sz_pre_slab (gj : R) (b x n : nat) (k : counters) : M state unit :=
    need_fes TypeError ;;
    err_if (Nat.ltb 0 n && is_zero (c_dt c)) ZeroDivisionError ;;
    do s <- get;
    do f <- lift (fem_lform 4 (nc_pre c) (pre_lform c gj
      (fev D Dx Vp Val (s_u10p s)) (fev D Dx Vp Grad (s_u10p s)) (fev D Dx Vp Val (s_u20p s)) n));
    let '(r, v) := move_in true Lp Lf (lay_dim Lp) (l b) (slab_pairs c k) (s_heap s b) (assemble_vec D Lp f) in
    lift r ;;
    do u <- solve_slab n v;
    modify (fun s => w_u20p (comp_of Lp u 1 (c_q c)) (w_u10p (comp_of Lp u 0 (c_q c)) s)) ;;
    do s <- get;
    let '(r, o) := move_in false Lf Lp (l x) (lay_dim Lp) (flip_pairs (slab_pairs c k)) u (s_heap s x) in
    modify (put x o) ;; lift r.
  Definition sz_march (b x : nat) : M state unit :=
    do gj <- lift (lookup (c_stab c) "primal-jump");
    slabs c (sz_pre_slab gj b x) (seq 0 (c_N c)) cnt0.

  (** pre_time_marching_improved (space_time.py:1260-1327) *)
  Definition sz_imp_slab (b x n : nat) (k : counters) : M state unit :=
    need_fes TypeError ;;
    do s <- get;
    do r0 <- need (s_brp s) AttributeError;
    let '(r, v) := move_in true Lp Lf (lay_dim Lp) (l b) (slab_pairs c k) (s_heap s b) r0 in
    modify (w_brp (Some v)) ;; lift r ;;
    do u <- solve_slab n v;
    do s <- get;
    do _ <- need (s_vbi s) AttributeError;
    let vin := move true Lb Lp [((0, 0), (0, c_q c)); ((1, 0), (1, c_q c))]%nat u vzero in
    modify (w_vbi (Some vin)) ;;
    do s <- get;
    do B <- need (s_mam s) AttributeError;
    let vout := mult (lay_dim Lb) B vin in
    modify (w_vbo (Some vout)) ;;
    modify (w_brp (Some (move true Lp Lb [((0, 0), (0, 0)); ((1, 0), (1, 0))]%nat vout vzero))) ;;
    do s <- get;
    let '(r, o) := move_in false Lf Lp (l x) (lay_dim Lp) (flip_pairs (slab_pairs c k)) u (s_heap s x) in
    modify (put x o) ;; lift r.
  Definition sz_improved (b x : nat) : M state unit :=
    err_if (c_jumps c) ValueError ;;
    do _ <- lift (lookup (c_stab c) "primal-jump");
    do s <- get;
    do _ <- need (s_brp s) AttributeError;
    modify (w_brp (Some vzero)) ;;
    slabs c (sz_imp_slab b x) (seq 0 (c_N c)) cnt0.

  (** one component of prolongation / restriction (space_time.py:1410-1416,
      1427-1433); in the last statement the shapes are compared before the
      indices are looked at *)
  Definition sz_comp (interp : vec -> vec) (nsrc ndst lsrc ldst : nat) (src : vec) (is ids : list nat) : M vec unit :=
    lift (if inside lsrc is then Ok tt else Err IndexError) ;;
    do a <- lift (np_assign nsrc (gather src is));
    do b <- lift (np_assign (List.length ids) (map (interp (of_list a)) (seq 0 ndst)));
    lift (if inside ldst ids then Ok tt else Err IndexError) ;;
    modify (fun dst => scatter dst ids b).
  (** prolongation (space_time.py:1404-1419), restriction (1421-1436), q_op
      (1438-1441), whose temporaries have the dimension of the coarse space *)
  Definition sz_prolong (K : coarse) (lc lf : nat) (xc : vec) : M vec unit :=
    trans_loop E (fun '(j, i) => sz_comp (k_up K) (d_dim (k_D K) Vp) (d_dim D Vp) lc lf xc (lay_sub (k_L K) j i) (lay_sub Lf j i))
      (seq 0 (c_N c)) cnt0.
  Definition sz_restrict (K : coarse) (lc lf : nat) (xf : vec) : M vec unit :=
    trans_loop E (fun '(j, i) => sz_comp (k_down K) (d_dim D Vp) (d_dim (k_D K) Vp) lf lc xf (lay_sub Lf j i) (lay_sub (k_L K) j i))
      (seq 0 (c_N c)) cnt0.
  Definition sz_prolongation (xc xf : nat) : M state unit :=
    do K <- need_coarse; do s <- get; on_heap xf (sz_prolong K (l xc) (l xf) (s_heap s xc)).
  Definition sz_restriction (xc xf : nat) : M state unit :=
    do K <- need_coarse; do s <- get; on_heap xc (sz_restrict K (l xc) (l xf) (s_heap s xf)).
  Definition sz_q_op (xi xo : nat) : M state unit :=
    do K <- need_coarse;
    do s <- get;
    do t1 <- need (s_tc1 s) AttributeError;
    let '(r1, t1') := sz_restrict K (lay_dim (k_L K)) (l xi) (s_heap s xi) t1 in
    modify (w_tc1 (Some t1')) ;; lift r1 ;;
    do s <- get;
    do S0 <- need (s_sco s) AttributeError;
    do t2 <- need (s_tc2 s) AttributeError;
    do u <- lift (S0 t1' t2);
    modify (w_tc2 (Some u)) ;;
    on_heap xo (sz_prolong K (lay_dim (k_L K)) (l xo) u).

  (** self.uh.x.array[:] = u_inp.array[:] and what follows it in
      measured_errors (space_time.py:1459-1463) and plot_para_view (1830-1835) *)
  Definition sz_load (u : nat) : M state unit :=
    need_fes AttributeError ;;
    do s <- get;
    do v <- lift (whole (lay_dim Lf) (l u) (s_heap s u));
    modify (w_uh v) ;;
    do s <- get;
    modify (fun s => w_u10 (comp_of Lf (s_uh s) 0 (nc_full c 0 - 1)) s) ;;
    modify (fun s => w_u20 (comp_of Lf (s_uh s) 1 (nc_full c 1 - 1)) s).
  (** measured_errors (space_time.py:1452-1582) *)
  Definition sz_errors (u : nat) : M state errors :=
    sz_load u ;;
    do s <- get;
    do eT <- lift (py_sqrt (l2sq E (fun p => val E (s_u10 s) p - c_v c (c_T c) (d_x D p))));
    do a <- for_acc (seq 0 (c_N c)) (me_slab E) (([], []), 0);
    do m1 <- lift (py_max (fst (fst a)));
    do m2 <- lift (py_max (snd (fst a)));
    do l2 <- lift (py_sqrt (snd a));
    ret (mkErr eT m1 m2 l2).
  (** plot_para_view (space_time.py:1829-1866) *)
  Definition sz_para_view (pt : nat -> list R) (u : nat) : M state (vec * vec) :=
    sz_load u ;;
    do s <- get;
    ret (fun i => Rabs (c_v c (c_T c) (pt i) - s_u10 s i), fun i => Rabs (c_dv c (c_T c) (pt i) - s_u20 s i)).
  (** plot, plot_error (space_time.py:1584-1713, 1715-1827) up to the drawing *)
  Definition sz_plot (ev : vec -> R -> R) (u nsp nsub : nat) (abs_val : bool) : M state plotdata :=
    need_fes AttributeError ;;
    do s <- get;
    do v <- lift (whole (lay_dim Lf) (l u) (s_heap s u));
    err_if (is_zero (c_dt c) && Nat.ltb 0 nsp && Nat.ltb 0 nsub) ZeroDivisionError ;;
    ret (plot_arrays E ev (if abs_val then Rabs else fun x => x) v nsp nsub).

  (** a public call; those without a vector of the caller are as before *)
  Definition sz_step (k : call) : M state answer :=
    match k with
    | Apply vi vo => done (sz_apply vi vo)
    | March b x => done (sz_march b x)
    | Improved b x => done (sz_improved b x)
    | Prolong xc xf => done (sz_prolongation xc xf)
    | Restrict xc xf => done (sz_restriction xc xf)
    | Qop xi xo => done (sz_q_op xi xo)
    | Measure u => answers AErr (sz_errors u)
    | Paraview pt u => answers AFiles (sz_para_view pt u)
    | Plot ev u nsp nsub a => answers APlot (sz_plot ev u nsp nsub a)
    | Plot_error ev u nsp nsub => answers APlot (sz_plot ev u nsp nsub false)
    | k => step E k
    end.
End Sized.
