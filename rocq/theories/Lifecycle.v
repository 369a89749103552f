(** Lifecycle.v -- a SpaceTime object under an arbitrary sequence of public
    calls, successful or failing.  Each call is one method of
    /repo/src/dxss/space_time.py:SpaceTime, except Write, by which the caller
    changes one of their own vectors. *)
From Coq Require Import Reals List ZArith Lra Lia Bool String.
From Verif Require Import Base TimeModel FormModel FormSpec FormProofs SpaceTimeForms SpaceTimeModel ErrorsModel.
Import ListNotations.
Open Scope R_scope.
Open Scope monad_scope.

Inductive call : Type :=
| Setup_fes | Build_matrix (precond : bool) | Get_matrix (precond : bool) | Get_bfi (precond : bool)
| Setup_rhs | Get_rhs | Get_lfi
| Setup_coupling | Setup_mass | Setup_slab (with_jumps : bool)
| Get_slab_bfi | Get_slab_matrix | Get_first_bfi | Get_first_matrix
| Set_first (S0 : solver) | Set_slab (S0 : solver)
| Apply (vi vo : nat) | March (b x : nat) | Improved (b x : nat)
| Prepare | Prepare_coarse (K : coarse) | Get_coarse | Set_coarse (S0 : solver)
| Prolong (xc xf : nat) | Restrict (xc xf : nat) | Qop (xi xo : nat) | Twolvl (b x : nat)
| Measure (u : nat) | Paraview (pt : nat -> list R) (u : nat)
| Plot (ev : vec -> R -> R) (u nsp nsub : nat) (a : bool) | Plot_error (ev : vec -> R -> R) (u nsp nsub : nat)
| Write (i : nat) (v : vec).

(** what a call returns *)
Inductive answer : Type :=
| Done | AMat (A : option matrix) | AForm (f : option bform) | AMatForm (A : matrix) (f : bform)
| AVec (i : option nat) | ALform (f : option lform) | AErr (e : errors) | AFiles (d : vec * vec) | APlot (d : plotdata).

Definition answers {A} (f : A -> answer) (m : M state A) : M state answer := do a <- m; ret (f a).
Definition done (m : M state unit) : M state answer := answers (fun _ => Done) m.

Definition step (E : env) (k : call) : M state answer :=
  match k with
  | Setup_fes => done setup_fes
  | Build_matrix p => need_fes ValueError ;; do s <- get;
      answers (fun '(A, f) => AMatForm A f) (setup_spacetime_matrix E (e_D E) (e_Lf E) (s_om s) p)
  | Get_matrix p => answers AMat (get_spacetime_matrix E p)
  | Get_bfi p => answers AForm (get_spacetime_bfi E p)
  | Setup_rhs => done (setup_rhs E)
  | Get_rhs => answers AVec (get_spacetime_rhs E)
  | Get_lfi => answers ALform (get_spacetime_lfi E)
  | Setup_coupling => done (setup_coupling E)
  | Setup_mass => done (setup_scaled_mass E)
  | Setup_slab b => done (setup_slab_matrix E b)
  | Get_slab_bfi => answers AForm (get_slab_bfi E)
  | Get_slab_matrix => answers AMat (get_slab_matrix E)
  | Get_first_bfi => answers AForm get_slab_bfi_first
  | Get_first_matrix => answers AMat get_slab_matrix_first
  | Set_first S0 => done (set_solver_first S0)
  | Set_slab S0 => done (set_solver_slab S0)
  | Apply vi vo => done (apply_spacetime_matrix E vi vo)
  | March b x => done (pre_time_marching E b x)
  | Improved b x => done (pre_time_marching_improved E b x)
  | Prepare => done (prepare_precondition_gmres E)
  | Prepare_coarse K => done (prepare_coarse E K)
  | Get_coarse => answers AMat get_spacetime_matrix_coarse
  | Set_coarse S0 => done (set_solver_coarse S0)
  | Prolong xc xf => done (prolongation E xc xf)
  | Restrict xc xf => done (restriction E xc xf)
  | Qop xi xo => done (q_op E xi xo)
  | Twolvl b x => done (pre_twolvl b x)
  | Measure u => answers AErr (measured_errors E u)
  | Paraview pt u => answers AFiles (plot_para_view E pt u)
  | Plot ev u nsp nsub a => answers APlot (plot E ev u nsp nsub a)
  | Plot_error ev u nsp nsub => answers APlot (plot_error E ev u nsp nsub)
  | Write i v => done (modify (put i v))
  end.

(** the state after a sequence of calls; exceptions are caught by the caller *)
Definition after (E : env) (ks : list call) (s : state) : state :=
  fold_left (fun s k => snd (step E k s)) ks s.
Definition returns (E : env) (k : call) (s : state) : res answer := fst (step E k s).
