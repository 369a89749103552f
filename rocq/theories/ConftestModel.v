(** ConftestModel.v -- /repo/tests/conftest.py: the option --seed, the parametrisation of
    the tests, the fixture rng; and the random numbers drawn by the tests.

    argparse, as pytest uses it (no abbreviations), is modelled for the option --seed only;
    random generators are streams of numbers. *)
From Coq Require Import Reals List ZArith Bool String.
From Verif Require Import Base.
Import ListNotations.

(** * The command line *)
(** a word of the command line: one that int() accepts (negative numbers too: the parser
    has no option that looks like one), --seed, --seed=value, another option, other text *)
Inductive word : Type := WInt (n : Z) | WSeed | WSeedEq (v : option Z) | WOpt (s : string) | WText (s : string).
(** conftest.py:6 *)
Definition DEFAULT_SEED : Z := 6357141078224089020.
(** nargs="*", type=int: all words up to the next option; None where int() fails *)
Fixpoint values (l : list word) : option (list Z) :=
  match l with
  | WInt n :: l => match values l with Some v => Some (n :: v) | None => None end
  | WText _ :: _ => None
  | _ => Some []
  end.
(** conftest.py:9-16: the value of the option; the last occurrence counts.  [Err
    UsageError] is modelled by ValueError (argparse reports int()'s ValueError) *)
Fixpoint parse (cur : list Z) (l : list word) : res (list Z) :=
  match l with
  | [] => Ok cur
  | WSeed :: l => match values l with Some v => parse v l | None => Err ValueError end
  | WSeedEq v :: l => match v with Some n => parse [n] l | None => Err ValueError end
  | _ :: l => parse cur l
  end.
Definition getoption_seed (argv : list word) : res (list Z) := parse [DEFAULT_SEED] argv.

(** * The tests *)
(** where a test takes its random numbers from: the fixture, np.random.default_rng(), nowhere *)
Inductive source : Type := FromFixture | FromEntropy | NoNumbers.
Record test : Type := mkTest {
  t_file : string; t_name : string;
  t_args : list string;                 (* arguments of the function *)
  t_marks : list (string * nat);        (* parametrize marks: name and number of values *)
  t_skip : bool;                        (* mark skip *)
  t_source : source }.
(** the functions of /repo/tests *)
Definition suite : list test := [
  mkTest "test_dxss" "test_dummy" [] [] false NoNumbers;
  mkTest "test_dxss" "test_pardiso" [] [] false NoNumbers;
  mkTest "test_dxss" "test_mock_no_pypardiso_for_solve_1d" ["mocker"] [] false NoNumbers;
  mkTest "test_dxss" "test_mock_no_pypardiso_for_solve_2d" ["mocker"] [] false NoNumbers;
  mkTest "test_dxss" "test_mock_no_pypardiso_for_solve_3d" ["mocker"] [] false NoNumbers;
  (* test_gmres.py:25-40 *)
  mkTest "test_gmres" "test_get_gmres_solution" ["rng"; "dimension"; "matrix"] [("dimension", 4%nat); ("matrix", 2%nat)] false FromFixture;
  (* test_slab_solver_2d.py:122-182 *)
  mkTest "test_slab_solver_2d" "test_slab_problem" [] [] false FromEntropy;
  mkTest "test_slab_solver_2d" "test_spacetime_solve" [] [] true FromEntropy;
  (* test_slab_solver_3d.py:141-168 *)
  mkTest "test_slab_solver_3d" "test_slab_problem" [] [] false FromEntropy;
  mkTest "test_solve_1d_smoke" "test_solve_1d_smoke" [] [] false NoNumbers;
  mkTest "test_spacetime_parameters" "test_defaults" [] [] false NoNumbers;
  mkTest "test_spacetime_parameters" "test_setting_well_posed" [] [] false NoNumbers;
  mkTest "test_spacetime_parameters" "test_setting_jumps_in_fw_problem" [] [] false NoNumbers;
  mkTest "test_spacetime_parameters" "test_spacetime_defaults" [] [] true NoNumbers ]%string.

(** the fixtures that can be asked for and what they ask for: rng (conftest.py:24-26),
    mocker (pytest-mock) *)
Definition fixture_args (f : string) : list string := if String.eqb f "rng" then ["seed"]%string else [].
(** metafunc.fixturenames: arguments and what their fixtures need; one step is enough *)
Definition fixturenames (t : test) : list string := t_args t ++ flat_map fixture_args (t_args t).

(** an instance: the seed if the test has one, the positions in the lists of the marks *)
Record instance : Type := mkInst { i_test : test; i_seed : option Z; i_pos : list nat; i_skip : bool }.
Fixpoint positions (marks : list (string * nat)) : list (list nat) :=
  match marks with
  | [] => [[]]
  | (_, n) :: marks => flat_map (fun p => map (fun k => k :: p) (seq 0 n)) (positions marks)
  end.
(** pytest_generate_tests (conftest.py:19-21) with the marks; an empty list of values makes
    pytest put one skipped instance in the place of each combination *)
Definition has_seed (t : test) : bool := existsb (String.eqb "seed") (fixturenames t).
Definition generate (seeds : list Z) (t : test) : list instance :=
  flat_map (fun p =>
    if has_seed t then
      match seeds with
      | [] => [mkInst t None p true]
      | _ => map (fun s => mkInst t (Some s) p (t_skip t)) seeds
      end
    else [mkInst t None p (t_skip t)]) (positions (t_marks t)).
(** pytest's collection: all tests *)
Definition collect (argv : list word) : res (list instance) :=
  rbind (getoption_seed argv) (fun seeds => Ok (flat_map (generate seeds) suite)).

(** * Random numbers *)
Section Numbers.
  (** the stream of the generator with a given seed, and with fresh entropy *)
  Variables (seeded : Z -> nat -> R) (fresh : nat -> nat -> R).
  (** np.random.default_rng(seed) *)
  Definition default_rng (s : Z) : res (nat -> R) := if Z.ltb s 0 then Err ValueError else Ok (seeded s).
  (** What a run of an instance draws; [e] is the entropy of the operating system at that
      moment.  None: it is skipped *)
  Definition draws (e : nat) (i : instance) : option (res (option (nat -> R))) :=
    if i_skip i then None else
    Some (match t_source (i_test i) with
          | FromFixture => match i_seed i with
                           | Some s => rbind (default_rng s) (fun g => Ok (Some g))
                           | None => Err KeyError
                           end
          | FromEntropy => Ok (Some (fresh e))
          | NoNumbers => Ok None
          end).
End Numbers.
