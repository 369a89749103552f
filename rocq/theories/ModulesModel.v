(** ModulesModel.v -- PyPardiso as an optional dependency: the import blocks and the
    constructor of PySolver in /repo/src/dxss/solve_1d.py, solve_2d.py, solve_3d.py, and
    /repo/tests/test_dxss.py, in one Python process (a pytest session).

    sys.modules is a dictionary from names to modules or None; a module object keeps its
    namespace, which its functions and classes read when they are called.  Printing and the
    text of the warning are left out; warnings are counted. *)
From Coq Require Import List Bool Arith.
From Verif Require Import DriverModel DriverConfig.
Import ListNotations.

(** names in sys.modules *)
Inductive name : Type := N_pypardiso | N_solve (d : driver).
Definition driver_eqb (a b : driver) : bool :=
  match a, b with Driver1D, Driver1D | Driver2D, Driver2D | Driver3D, Driver3D => true | _, _ => false end.
Definition name_eqb (a b : name) : bool :=
  match a, b with N_pypardiso, N_pypardiso => true | N_solve d, N_solve e => driver_eqb d e | _, _ => false end.
(** sys.modules[name] = None makes every import of it fail *)
Inductive entry : Type := IsNone | Module (id : nat).
(** the names defined by the import block of a driver: is pypardiso a module (not None), and
    SOLVER_TYPE *)
Record space : Type := mkSpc { has_pypardiso : bool; its_solver : solver_type }.
Record session : Type := mkSes { modules : name -> option entry; spaces : nat -> space; next_id : nat }.

(** exceptions; OtherExn is whatever the rest of a module or a driver raises, Failed is the
    failure of pytest.raises and pytest.warns *)
Inductive pexn : Type := ImportError | SysKeyError | ReloadTypeError | AssertionError | Failed | OtherExn.
Inductive pres (A : Type) : Type := Val (a : A) | Exc (e : pexn).
Arguments Val {A} a.
Arguments Exc {A} e.
Definition prog (A : Type) : Type := session -> pres A * session.
Definition pret {A} (a : A) : prog A := fun s => (Val a, s).
Definition praise {A} (e : pexn) : prog A := fun s => (Exc e, s).
Definition pbind {A B} (m : prog A) (f : A -> prog B) : prog B :=
  fun s => match m s with (Val a, s') => f a s' | (Exc e, s') => (Exc e, s') end.
(** try: m  except ImportError: h *)
Definition except_import {A} (m h : prog A) : prog A :=
  fun s => match m s with (Exc ImportError, s') => h s' | x => x end.

Definition set_module (n : name) (o : option entry) (s : session) : session :=
  mkSes (fun m => if name_eqb m n then o else modules s m) (spaces s) (next_id s).
Definition set_space (id : nat) (a : space) (s : session) : session :=
  mkSes (modules s) (fun i => if Nat.eqb i id then a else spaces s i) (next_id s).

Section Session.
  (** is PyPardiso installed; do the statements after the import block (mesh, SpaceTime object,
      set-up) complete *)
  Variables (installed : bool) (completes : driver -> bool).

  (** import pypardiso *)
  Definition import_pypardiso : prog unit := fun s =>
    match modules s N_pypardiso with
    | Some IsNone => (Exc ImportError, s)
    | Some (Module _) => (Val tt, s)
    | None => if installed
              then (Val tt, mkSes (modules (set_module N_pypardiso (Some (Module (next_id s))) s)) (spaces s) (S (next_id s)))
              else (Exc ImportError, s)
    end.
  (** the body of a driver module (solve_1d.py:23-120, solve_2d.py:22-127, solve_3d.py:24-192):
      try: import pypardiso; SOLVER_TYPE = "pypardiso"
      except ImportError: pypardiso = None; SOLVER_TYPE = "petsc-LU" *)
  Definition exec_module (d : driver) (id : nat) : prog unit :=
    pbind (except_import
      (pbind import_pypardiso (fun _ s => (Val tt, set_space id (mkSpc true Pypardiso) s)))
      (fun s => (Val tt, set_space id (mkSpc false PetscLU) s)))
    (fun _ => if completes d then pret tt else praise OtherExn).
  (** import dxss.solve_{1,2,3}d: the module is entered before its body runs and removed if
      that fails *)
  Definition import_driver (d : driver) : prog nat := fun s =>
    match modules s (N_solve d) with
    | Some IsNone => (Exc ImportError, s)
    | Some (Module id) => (Val id, s)
    | None =>
        let id := next_id s in
        match exec_module d id (mkSes (modules (set_module (N_solve d) (Some (Module id)) s)) (spaces s) (S id)) with
        | (Val _, s') => (Val id, s')
        | (Exc e, s') => (Exc e, set_module (N_solve d) None s')
        end
    end.
  (** importlib.reload(sys.modules["dxss.solve_1d"]) *)
  Definition reload_driver (d : driver) : prog unit := fun s =>
    match modules s (N_solve d) with
    | None => (Exc SysKeyError, s)
    | Some IsNone => (Exc ReloadTypeError, s)
    | Some (Module id) => exec_module d id s
    end.
  (** PySolver(Asp, psolver) of module [id] (solve_1d.py:45-52): the number of warnings *)
  Definition PySolver_warnings (id : nat) : prog nat := fun s =>
    (Val (if has_pypardiso (spaces s id) then 0 else 1), s).
  (** with pytest.warns(UserWarning): PySolver(Asp=None, psolver=None) *)
  Definition warns_PySolver (id : nat) : prog unit :=
    pbind (PySolver_warnings id) (fun k => if Nat.ltb 0 k then pret tt else praise Failed).
  (** with pytest.raises(ImportError): import pypardiso *)
  Definition raises_import : prog unit := fun s =>
    match import_pypardiso s with
    | (Val _, s') => (Exc Failed, s')
    | (Exc ImportError, s') => (Val tt, s')
    | x => x
    end.
  (** mocker.patch.dict(sys.modules, {"pypardiso": None}); at the end of the test the whole
      dictionary gets its old contents back *)
  Definition patched (m : prog unit) : prog unit := fun s =>
    match m (set_module N_pypardiso (Some IsNone) s) with
    | (r, s') => (r, mkSes (modules s) (spaces s') (next_id s'))
    end.

  (** test_pardiso (test_dxss.py:14-25) *)
  Definition test_pardiso : prog unit :=
    pbind (import_driver Driver1D) (fun id s =>
      if has_pypardiso (spaces s id) then import_pypardiso s else warns_PySolver id s).
  (** assert pypardiso is None; the warning *)
  Definition check_none (id : nat) : prog unit := fun s =>
    if has_pypardiso (spaces s id) then (Exc AssertionError, s) else warns_PySolver id s.
  (** test_mock_no_pypardiso_for_solve_1d (test_dxss.py:28-42), which reloads the module *)
  Definition test_mock_1d : prog unit := patched
    (pbind (reload_driver Driver1D) (fun _ =>
     pbind raises_import (fun _ =>
     pbind (import_driver Driver1D) check_none))).
  (** test_mock_no_pypardiso_for_solve_2d and _3d (test_dxss.py:45-65), which do not *)
  Definition test_mock (d : driver) : prog unit := patched
    (pbind raises_import (fun _ =>
     pbind (import_driver d) check_none)).
  (** test_solve_1d_smoke.py imports solve_problem when it is collected; the branch it takes
      when it runs is read from the module then *)
  Definition branch_taken (id : nat) (s : session) : solver_type := its_solver (spaces s id).

  (** what can happen in a session; exceptions do not end it *)
  Inductive event : Type := Import_driver (d : driver) | Import_pypardiso | Test_pardiso | Test_mock_1d | Test_mock (d : driver).
  Definition happen (e : event) (s : session) : session :=
    match e with
    | Import_driver d => snd (import_driver d s)
    | Import_pypardiso => snd (import_pypardiso s)
    | Test_pardiso => snd (test_pardiso s)
    | Test_mock_1d => snd (test_mock_1d s)
    | Test_mock d => snd (test_mock d s)
    end.
  Definition session_after (es : list event) (s : session) : session := fold_left (fun s e => happen e s) es s.
End Session.
(** a new process; the namespaces of modules not yet created are irrelevant *)
Definition new_session (sp : nat -> space) : session := mkSes (fun _ => None) sp 0.
