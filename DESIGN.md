# Formal model of UCL/dxss in Rocq (Coq 8.16.1)

The Python code under `/repo/src/dxss` is modelled function by function in
`/verif/rocq/theories`.  `properties.jsonl` lists what is claimed of the code, `MANIFEST.json`
maps each property to theorems, `seeded/LOG.jsonl` records the wrong programs the theorems were
tried against.

## 1. Trusted base

1. Coq's kernel (8.16.1), and `coqchk`, which `vcheck` runs over the compiled files.
2. The axioms that `Print Assumptions` lists, all from Coq's standard library:
   - `ClassicalDedekindReals.sig_forall_dec`, `ClassicalDedekindReals.sig_not_dec` (classical reals),
   - `FunctionalExtensionality.functional_extensionality_dep`,
   - `Classical_Prop.classic` (reached through Coquelicot's integrals and limits).

   No axiom, parameter or admitted proof is added.  Section variables are all discharged.
   Coquelicot is used for derivatives and integrals, Flocq for rounding; they add no axiom.
3. That the definitions of the model files (section 2) describe the Python code, and that the
   assumptions on external libraries (section 4) hold.  Each definition cites the lines it models.

What `Print Assumptions` lists for each theorem of the manifest
(generated by `tools/gen_assumptions.py`; the same commands are at the end of each `Props_*.v`):

<!-- assumptions begin -->
- no axiom (closed under the global context) (71): C42_refuted, C43_doubles_refuted, C50_accepted, C50_refused, C50_shape, C51_solve, C51_warns, C52_unpack, C57_refuted, C58_cells, C59_edges, C78_parameters, C81_consistent, C81_warns, C81_pardiso, C81_mock_1d, C81_mock, C81_reload_stays, C81_pytest, C81_refuted, C81_import_block, C81_import_block_used, C85_option, C85_collected, C85_skipped, C85_partial, C85_refuted, C85_nonvacuous, C87_reason, C87_special, C89_tables, C89_not_exact, C90_order_refuted, C91_accepted, C91_partial, C92_terms, C92_scratch, C94_ends, C95_entities, C96_points, C97_slabs, C97_unique, C97_copies, C97_scratch, C97_causal, C102_defaults, C102_constants, C102_nonconvex_refuted, C105_create, C105_no_groups, C105_files, C105_through, C105_no_lines, C105_lengths, C105_lengths_nonvacuous, C105_both_needed, C108_slabs, C108_unique, C108_causal, C108_nan, C108_kept, C108_agree, C109_maps, C109_again, C109_entries, C110_zero, C110_nan, C111_components, C111_local, C111_back, C111_q_op
- `sig_forall_dec` (21): C41_single_value, C58_extraction, C58_refuted, C84_load, C88_partial, C88_size, C88_rank, C88_all_ranks, C88_divides, C88_same_orders, C91_blocks, C92_reals, C97_reals, C106_prolongation, C106_restriction, C106_failed_prolongation, C106_failed_restriction, C106_history, C107_stops, C107_refuted, C110_reals
- `functional_extensionality_dep`, `sig_forall_dec` (152): C01_basis_is_nodal, C01_endpoints, C02_basis_reproduces_polynomials, C06_supported_orders, C15_accepted_terms, C48_only_converged, C48_returns_iff, C49_configuration, C49_exactly, C49_refused, C49_options_win, C49_repeatable, C50_entries, C50_nonsingular, C51_exact, C51_wrong_shape, C53_1d, C53_2d, C53_3d, C53_3d_ufl, C53_3d_side, C56_partial, C56_convex, C56_3d, C56_refuted, C57_functions_refuted, C57_other_ranks_refuted, C57_square_never_returns, C58_functions, C59, C60_partial, C60_refuted, C60_3d_refuted, C60_3d_consequence, C61_partial, C61_numbered, C61_convex_regions, C61_lines, C61_refuted, C61_inclusion_refuted, C65_convex, C65_nonconvex, C65_around, C65_disc, C65_bottom, C65_3d, C65_inclusion, C65_square_full, C65_square_fill, C65_refuted, C65_square_degenerate, C66_frame, C66_levels, C78_gmres_run, C78_matrices, C78_iterates, C84_partial, C84_refuted, C84_first_slab, C84_rhs, C84_rhs_refuted, C84_matrices, C84_errors_reduced, C86_one_slab, C87_line, C87_order, C87_columns, C87_log, C87_rejected, C87_nonvacuous, C88_refuted, C89_ends, C89_ends_refuted, C89_nonvacuous, C91_entries, C91_ranks, C91_refuted, C91_one, C91_nonvacuous, C93_gmres, C95_agree, C95_accepted, C95_classes, C95_parameters, C95_defaults_refuted, C95_bottom_default, C95_solid, C95_new_model, C95_stuck, C95_stuck_surfaces, C95_again_refuted, C95_after_inclusion_refuted, C95_nonvacuous, C95_refused, C95_refused_nonvacuous, C96_unsolvable, C96_more_functions, C96_interval_blind, C98_vanishes, C98_definite, C98_products, C98_no_blind, C98_lagrange, C99_convex, C99_nonconvex, C99_around, C99_connected, C99_fitted, C100_disc, C100_disc_parts, C100_disc_refuted, C100_disc_fitted, C100_disc_cells, C100_bottom, C100_bottom_parts, C100_inclusion, C100_inclusion_fitted, C100_nonvacuous, C101_same, C101_hierarchy, C101_nonconvex, C101_disc, C101_around, C101_convex, C101_nodes, C101_3d, C101_no_file, C101_number, C101_nonvacuous, C103_low, C103_low_parts, C103_low_refuted, C103_high, C103_high_parts, C103_hole, C103_commands, C103_nonvacuous, C104_volumes, C104_connected, C104_indicator, C104_indicator_refuted, C104_cells, C104_cells_refuted, C104_nonvacuous, C105_markers, C105_nonvacuous, C106_after_prolongation, C106_after_restriction, C107_share, C107_one, C108_reals, C111_reals
- `classic`, `functional_extensionality_dep`, `sig_forall_dec` (2): C53_3d_variants, C78_gmres_stops
- `functional_extensionality_dep`, `sig_forall_dec`, `sig_not_dec` (137): C07_stored_rule, C09_admissible_nodes_and_weights, C10_rule_selection, C15_forms_well_formed, C15_forms_accepted, C15_zero_weights_rejected, C15_order_zero_rejected, C16_guard_harmless, C17_slab_coupling, C20_matrix_free_product, C20_when, C21_difference, C21_wellposed_refuted, C21_fwjumps_refuted, C22_pure_linear, C22_deterministic, C23_aliased_product_is_zero, C24_time_marching, C25_improved_time_marching, C25_routines_agree, C26_linear_operator, C27_in_place, C27_in_place_improved, C28_jumps_refused, C29_causal, C29_causal_improved, C30_any_history, C31_partial, C31_getter_first_refuted, C32_wellposed_order, C32_documented_order_fails, C33_first_request_wins, C34_matrices_stable, C34_which_matrices, C34_rhs_stable, C34_rhs_replaced, C35_partial, C35_fitted_ignored, C36_partial, C36_who_changes_initial_data, C36_setup_clears, C36_same_after_setup, C36_refuted, C37_start_time_refuted, C38_missing_weight, C39_no_spaces, C39_operators_fail, C40_prolongation, C40_restriction, C40_linear, C40_linear_restriction, C40_restrict_prolong, C41_refuted, C41_different_orders_refuted, C42_partial, C42_prepared, C42_coarse_matrix, C43_partial, C47_paraview, C52_mode, C55_third_choice_wrong, C55_refuted, C62_only_outputs_change, C64_rhs, C64_refuted, C73_accepted, C73_refused, C73_mesh_1d, C73_mesh_2d, C73_mesh_3d, C74_rows, C74_krylov, C74_attained, C75_regular, C78_gmres_test_partial, C78_gmres_test_identity, C78_gmres_test_refuted, C78_test_settings, C78_test_constants, C78_spacetime_solve, C78_spacetime_solve_refuted, C79_isolation, C79_failed_constructor, C79_as_if_alone, C79_fitted_forgets, C79_unfitted_too_late, C79_two_meshes, C79_stale_matrix, C79_unbound, C79_assignments, C80_driver_order, C86_partial, C88_driver_1d, C88_driver_1d_shipped, C88_driver_3d, C88_nonvacuous, C92_additive_refuted, C93_same, C93_session, C93_matrix_and_rhs, C93_prefix, C93_matrix_failure, C93_errors, C93_no_samples, C93_backwards, C93_rhs_once, C93_matrix_once, C93_driver, C93_stops, C94_enough, C94_short, C94_stops, C94_tail, C94_overwritten, C94_one_entry, C94_other_length, C94_nonvacuous, C96_space_time, C96_slab, C96_kernel, C96_operator, C96_no_solver, C98_elements, C98_volume, C98_rule, C98_square, C98_cube, C98_triangles_nonvacuous, C99_one_centre, C106_nonvacuous, C106_failed_nonvacuous, C107_nonvacuous, C110_nonvacuous, C110_nan_nonvacuous, C111_back_refuted, C111_nonvacuous, C111_back_nonvacuous
- `classic`, `functional_extensionality_dep`, `sig_forall_dec`, `sig_not_dec` (170): C03_tabulated_derivatives, C04_elmat_entries_are_time_integrals, C05_elmat_structure, C07_quadrature_exactness, C08_radau_4_5_error, C08_radau_4_5_exactness_refuted, C11_theta_ref, C12_variational_form, C12_stored_matrix, C13_symmetry, C14_saddle_point_signs, C14_kernel, C18_rhs_consistent, C18_stored_rhs, C19_exact_waves, C23_aliasing_refuted, C33_refuted, C35_refuted, C43_doubles, C43_doubles_exact, C43_doubles_powers, C44_reconstruction, C44_sampled, C45_maximum, C46_total_nonnegative, C46_zero_when_exact, C47_plot_arrays, C54_1d, C54_2d, C54_3d, C55_partial, C63_fixed_operators, C63_gmres, C67_slab_problem, C67_exact_solvers, C68_space_time_problem, C68_preconditioner, C69_stability, C69_energy_definite, C70_measurement_noise, C71_error_bound, C71_exact_recovery, C72_full_data, C72_first_slab, C72_space_time_problem, C72_preconditioner, C72_exact_solvers, C72_stability, C72_measurement_noise, C72_error_bound, C73_solvers, C73_constants, C74_injective, C74_gmres, C75_continuous, C75_mass, C75_stiffness, C75_flux, C75_penalty, C75_jumps, C75_laplacian, C75_definite, C76_primal_controls, C76_no_measurements, C76_interval, C76_driver, C77_delivered_stability, C77_no_data_no_solution, C77_errors, C77_solve_1d, C77_reported, C78_slab_test, C78_smoke_test, C80_convergence, C80_data_domain, C80_driver, C82_control_data, C82_control_elliptic, C82_delivered, C82_reported, C82_driver_energy, C82_driver_reported, C83_automaton, C83_setup_calls, C83_mass, C83_apply, C83_march, C83_improved, C83_coarse, C83_exceptions, C83_once_works_always_works, C86_onto, C86_refuted, C89_basis, C89_round_trip, C89_sample, C89_evaluated, C89_theta, C89_lifting, C89_lifting_sample, C89_points, C89_interval, C89_measured, C89_exact, C90_integral, C90_succeeds, C90_nan, C90_nonnegative, C90_maximum, C90_norm_accuracy, C90_final_accuracy, C90_l2_accuracy, C90_zero, C90_nan_hidden_refuted, C90_zero_refuted, C90_nonvacuous, C92_accuracy, C92_finite, C92_no_overflow, C92_nan, C92_zero, C92_nonvacuous, C93_rows, C93_nonvacuous, C96_slab_iff, C96_space_time_iff, C96_interval, C96_interval_solvable, C96_shipped, C96_nonvacuous, C96_example, C97_rhs, C97_residual, C97_finite, C97_no_overflow, C97_nan, C97_zero, C97_nonvacuous, C97_nan_nonvacuous, C98_slab, C98_space_time, C98_driver, C98_driver_3d, C98_full_data, C98_nonvacuous, C99_centres, C99_convex_marked, C99_nonconvex_marked_refuted, C99_accepted, C99_nonvacuous, C102_bottom, C102_fitted, C102_inclusion, C102_inclusion_corners, C102_inclusion_refuted, C102_nonvacuous, C102_model_convex, C102_model_around, C102_model_nonconvex, C102_model_bottom, C102_model_fitted, C102_model_inclusion, C102_model_nonvacuous, C108_residual, C108_lost, C108_nonvacuous, C108_lost_nonvacuous, C108_agree_nonvacuous, C108_nan_nonvacuous, C109_nonvacuous
<!-- assumptions end -->

## 2. What is modelled

| Python | model | remarks |
|---|---|---|
| `precomp_time_int.py` (all: `get_elmat_time`, `QuadRule`, `theta_ref`, `d_theta_ref`) | `TimeModel.v` | sympy expressions are coefficient lists |
| the bilinear and linear forms built in `space_time.py` (`setup_spacetime_matrix`, `setup_rhs`, coupling, scaled mass, slab matrix, slab right-hand side) | `SpaceTimeForms.v` | loops with the same integer counters; constructor's derived quantities in `construct` |
| UFL / dolfinx / PETSc assembly as far as used | `FormModel.v` | section 3 |
| class `SpaceTime`, every method up to `pre_twolvl` | `SpaceTimeModel.v` | record state, `option` for `None`, vectors by name so that aliasing is visible |
| `measured_errors`, `plot`, `plot_error`, `plot_para_view` | `ErrorsModel.v` | the computed arrays; drawing and files left out |
| the sampling test of `measured_errors` in IEEE doubles | `FloatModel.v` | `SpecFloat` of the standard library, 53 bits; `FloatRound.v` proves with Flocq that its operations are correctly rounded |
| `gmres.py`, the two PETSc wrapper classes | `GmresModel.v` | PETSc's KSP is an arbitrary program that calls the two operators |
| `solve_1d/2d/3d.py`, `get_sparse_matrix`, `PySolver`, `ProblemParameters`, indicators, sample solutions | `DriverModel.v` | |
| the module-level constants of the drivers as functions of ORDER, N or REF_LVL, GCC | `DriverConfig.v` | 1D and 3D meshes by their number of cells |
| `tests/test_gmres.py`, `test_slab_solver_2d.py`, `test_slab_solver_3d.py`, `test_spacetime_parameters.py`; `test_solve_1d_smoke.py` is `solve_problem` of `DriverModel.v` | `TestsModel.v` | random vectors are arguments; `numpy.roll`, `allclose`, `norm` by definition; the direct solver is an argument |
| `tests/test_dxss.py` and the import blocks of the drivers | `ModulesModel.v` | `sys.modules`, reload and `patch.dict` as in Python; the rest of a module completes or not |
| `tests/conftest.py`, the list of test functions and where they take random numbers from | `ConftestModel.v` | argparse for `--seed` only; generators are streams |
| `gmres.py`: `convergence_monitor` and the lines printed by `get_gmres_solution` | `MonitorModel.v` | doubles as in `FloatModel.v`; output of `ksp.view()` left out |
| `precomp_time_int.py`: `basis_in_time`, `theta_ref`, `d_theta_ref`, the 4- and 5-point rules, and the time coordinates of `measured_errors` and the plots, in doubles | `FloatTime.v` | as `FloatModel.v` |
| `measured_errors`: integrals, square roots, maxima and sums in doubles | `FloatErrors.v` | differences at the quadrature points are given; one order of summation, point by point and cell by cell |
| `get_sparse_matrix` and PyPardiso's `factorize` on several processes | `MpiSparse.v` | the row ranges of the ranks are given; PyPardiso's check is that of `_check_A` (square, no empty row) |
| `apply_spacetime_matrix` in doubles | `FloatApply.v` | the stored entries of the two matrices are given; a row is summed in the order of storage, without fused multiply-add |
| `pre_time_marching_improved` in doubles | `FloatMarch.v` | the slab solvers are arbitrary functions of the right-hand side and of uh_pre; the scaled mass matrix as above |
| `pre_time_marching` in doubles | `FloatPre.v` | slab solvers and the assembly of l_pre are arbitrary functions; the exception for delta_t = 0 is in `SpaceTimeModel.v` only |
| the two wrapper classes under a Krylov method, in doubles | `FloatClient.v` | the method is any program that calls the two wrappers; products in place are excluded |
| `apply_spacetime_matrix` with one vector, in doubles | `FloatAlias.v` | matrices given by their stored entries |
| `prolongation`, `restriction`, `q_op` in doubles | `FloatTransfer.v` | interpolation and coarse solver are any maps; equal numbers of primal and dual functions (otherwise C41) |
| Lagrange elements and dx rules on simplices and cubes (`"CG"` elements, `quadrature_degree`, meshes of `meshes.py` and `solve_3d.py`) | `Simplex.v`, `SimplexRule.v`, `BoxCell.v` | the tables of the elements at the points of the rule, as far as C98 uses them; rule and nodes inside basix not modelled; Jacobian positive at the points |
| `print` statements of `space_time.py`, `gmres.py` and the drivers | `OutputModel.v` | lines of text and numbers; how a number is written is left out; one process |
| lengths of the caller's vectors in the methods of `SpaceTime` | `Sized.v` | the object's own arrays have the dimension of their space; one process |
| `meshes.py`, every function | `MeshModel.v` | gmsh commands are recorded; what gmsh answers is arbitrary |
| `print` statements of `meshes.py` | `MeshOutput.v` | as `OutputModel.v`; any rank |
| arguments of `addRectangle` in `meshes.py` | `FloatMesh.v` | doubles; gmsh's far sides are one addition each; within 2^-46 of the real-number rectangles of `MeshModel.v` (C102_model) |
| `create_mesh` and the two xdmf files in `meshes.py` | `MeshFiles.v` | mesh.msh as cell blocks with their markers; the tags read back are dropped, as in the code; `MeshModel.v` keeps only the cells of each type |
| `u_node_fine`, `u_node_coarse` in `prolongation` and `restriction` | `ScratchNodes.v` | contents kept between the calls |
| `prolongation` and `restriction` on several processes | `MpiTransfer.v` | as `MpiModel.v`; what the collective interpolation leaves on a rank is given |
| what gmsh refuses: flat rectangles, tags in use, unknown operands | `MeshTags.v` | entities after a fragment and tags of faces are arbitrary; cut always binds its tag |
| degree of the dx rule; which blocks the forms see through values at its points | `Blind.v` | number of points of basix's rule on an interval |
| finite elements and quadrature on an interval, as in `solve_1d.py` (basix/dolfinx side) | `Space1D.v` | an instance of section 3: any mesh, equispaced Lagrange nodes, any rule |
| any sequence of method calls | `Lifecycle.v` | `call` lists all public methods, `after` runs a history |
| the same statements on several MPI processes, up to the first collective operation; the row distribution of the shell matrix in `get_gmres_solution` | `MpiModel.v` | owned and ghost dofs as in DOLFINx; the other files describe one process |
| several objects sharing `DataDomain` objects and dictionaries of weights | `WorldModel.v` | arguments kept by reference; the constructor writes to the shared domain |

Specifications are in `TimeSpec.v`, `FormSpec.v`, `ErrorsSpec.v` and in the `Props_*.v` files;
they use integrals (`RInt`), derivatives (`is_derive`, `Derive`), sums and sets of points rather
than the helpers of the model.  `*Proofs.v` and the other files hold lemmas.  `OpsExample.v` and
`FormExample.v` hold the concrete objects used to show that hypotheses can be met.

Not modelled: `ksp.view()`, drawing and file output; `__init__.py`;
`sys.setrecursionlimit` and the timing in the drivers.

### Style

- Numbers (floats, PETSc scalars, sympy numbers) are reals, except in `FloatModel.v`, `FloatTime.v`, `FloatErrors.v`, `FloatApply.v`, `FloatMarch.v`, `FloatPre.v` and `MonitorModel.v`.
- Python exceptions are values of `exn`; methods run in a monad `state -> result * state` whose
  state survives an exception, as in Python.
- A name ending in `_partial` proves part of a property, one in `_refuted` proves that the
  property as stated is false of the code.  In the second case the manifest says "partial" and
  the theorems beside it say what the code does instead.

## 3. Spatial discretisation

dolfinx assembles a form by numerical quadrature.  The model is therefore: a mesh is a finite list
of weighted points for each of the measures `dx`, `ds`, `dS`; a scalar finite element space is a
number of basis functions with tabulated values, gradients, normal derivatives, Laplacians
and gradient jumps at these points; a form is a list of terms
`coefficient * weight * inner(op(argument), op(argument)) * measure`; its value on trial and test
coefficients is the weighted sum over points.  The assembled matrix has entries
`a(basis_J, basis_I)`; multiplication is the ordinary matrix-vector product.  Nothing is assumed
of the tabulated numbers, so the theorems hold for every mesh, dimension and element; where a
theorem needs more (for instance nonnegative weights) it says so.

Degree-of-freedom maps (`sub(j).sub(i).collapse()[1]`) are lists of indices, assumed
duplicate-free, pairwise disjoint and covering (`wf_layout`; a concrete layout is given).
Slab solvers are functions of the right-hand side and the old contents of the solution vector;
exactness (`A x = b`) is a hypothesis of the theorems that need it.

## 4. Simplifications and assumptions

Object and assembly
- One process, except in the gmsh life-cycle (`rank`) and in `MpiModel.v`, `MpiSparse.v` and `MpiTransfer.v`.
- The caller's vectors have the dimension of the space they are used with, except in `Sized.v`.
- The numbering of a collapsed sub-space is the same for all components of a block.
- One quadrature rule per measure; UFL's simplification is modelled only where it changes the
  outcome (terms with coefficient zero, forms without a domain).
- A stored linear form holds evaluated coefficients.
- SpaceTimeModel.v leaves out the contents of the scratch functions `u_node_*`; ScratchNodes.v has them, and C106 shows that this changes nothing.
- Indicator and interpolation of the coarse grid are arbitrary functions.
- A failing slab solve leaves `uh_pre` unchanged.
- numpy's broadcast of length-one arrays is modelled in the grid transfer and where a whole vector is copied.
- `np.sqrt` of a negative number is an error in `ErrorsModel.v` (a nan in Python and in `FloatErrors.v`).

GMRES
- The external KSP is an arbitrary finite interaction with the two operators; option values of
  types PETSc does not accept are ignored; `buildResidual` is part of the external outcome.

Drivers
- PyPardiso and PETSc's LU are arbitrary functions; PyPardiso's phase attribute is modelled.

Meshes
- What gmsh, meshio and dolfinx return is an arbitrary function of the recorded commands.
- Tie order of `argsort` and dolfinx's own renumbering of cells are not modelled.
- `MeshModel.v` takes every gmsh command as accepted; `MeshTags.v` adds the refusals.
- Files written by rank 0 are visible to the other ranks (`remote`).
- In `Props_Geometry.v` fragment and cut have their point-set meaning.

## 5. Findings

Places where the code does not do what its documentation or its other parts suggest, each settled
by a theorem:

| finding | theorem |
|---|---|
| a fitted `DataDomain` (the default, used by all drivers) sets the indicator to 0, so the data never enter the right-hand side | C35_refuted, C64_refuted |
| 4- and 5-point Gauss-Radau tables carry six digits | C08_radau_4_5_exactness_refuted |
| `get_spacetime_matrix(precond)` caches the first result whatever `precond` is | C33_refuted |
| `apply_spacetime_matrix` leaves out the forward-jump and initial-data terms | C21_fwjumps_refuted, C21_wellposed_refuted |
| applying in place gives the zero vector | C23_aliased_product_is_zero |
| after `get_slab_matrix` the improved preconditioner can never be used | C31_getter_first_refuted |
| in the well-posed mode `prepare_precondition_gmres` never builds the matrix without jumps | C32_documented_order_fails |
| `measured_errors` overwrites the initial data used by a later `setup_rhs` | C36_refuted |
| the start time `t` has no effect | C37_start_time_refuted |
| `prolongation`, `restriction` use the primal space for dual components | C41_refuted |
| `pre_twolvl` fails on every call | C42_refuted |
| with doubles the sample at `T` is missed for some numbers of slabs (N = 6, T = 1); no other sample ever is | C43_doubles_refuted, C43_doubles |
| on two or more processes the operator, the preconditioners and `measured_errors` raise, and the right-hand side is incomplete | C84_refuted, C84_rhs_refuted |
| `get_gmres_solution` leaves the distribution of the rows to PETSc; `solve_1d.py` as shipped cannot be solved on 2 to 6 processes | C88_refuted, C88_driver_1d_shipped |
| in doubles the last cubic basis function is 1 + 2^-52, not 1, at the end of a slab | C89_ends_refuted |
| a nan at a sample time after the first does not show in the reported L-infinity errors: `max` keeps the earlier number | C90_nan_hidden_refuted |
| with the PyPardiso solver, on two or more processes at most one rank gets a square matrix; the others raise ValueError | C91_ranks, C91_refuted |
| in doubles the system operator is not additive, so GMRES works with an operator that is linear only up to rounding | C92_additive_refuted |
| with T < 0 the object can be built, but measured_errors prints its first line and fails: no sample time lies in a slab | C93_backwards |
| measured_errors and the plots take a vector with one entry for a constant function instead of refusing it | C94_one_entry |
| vectors longer than the dimension are accepted silently by the operator, the preconditioners and the grid transfers | C94_enough, C94_tail |
| on several processes prolongation and restriction raise IndexError on every process with a ghost node | C107_stops, C107_refuted |
| apply_spacetime_matrix has already overwritten its output when it finds that the input is too short | C94_overwritten, C94_stops |
| a sample time on an interface is printed twice by measured_errors, once for each slab | C93_rows |
| the slab tests draw from fresh entropy whatever `--seed` says; `--seed` without values skips the GMRES test | C85_refuted |
| with `jumps_in_fw_problem`, `pre_time_marching` leaves out the jump terms of the adjoint equation that the assembled preconditioning matrix has, and adds terms on the first slab | C86_refuted |
| direct-solver branch of the drivers exchanges the arguments of `solve` | C55_refuted |
| three mesh functions fail with dolfinx 0.7 | C56_refuted |
| the check for sequential node numbers is inverted | C57_refuted |
| `get_mesh_inclusion_square` uses an unbound name | C57_square_never_returns |
| gmsh sessions are left open | C60_refuted |
| get_mesh_inclusion_square() with its default arguments asks gmsh for a rectangle of height zero (y_r = eta) and is refused | C95_defaults_refuted |
| get_3d_mesh_data_all_around fails when it is called a second time | C95_again_refuted |
| after a failed get_mesh_inclusion no mesh hierarchy can be made in the same process | C95_after_inclusion_refuted |
| the dx quadrature degree ignores kstar: in one dimension all matrices are singular as soon as kstar >= k + 2 | C96_interval_solvable |
| two region markers are exchanged, the boundary test of the inclusion meshes is wrong | C61_refuted, C61_inclusion_refuted |
| `get_mesh_inclusion_square` can leave a hole | C65_refuted |
| in `get_mesh_inclusion_square` the hole of the frame ends at eta - 0.1 (1.15 instead of 1.25), so a strip of the target is a region of its own; from eta = 1.5 on the domain is too high, and above 1.6 it has a hole | C103_low_refuted, C103_high, C103_hole |
| `get_3d_mesh_data_all_around` puts the interface at 0.2, `solve_3d.py` the data domain at 0.25, so its meshes would not resolve it | C104_indicator_refuted, C104_cells_refuted |
| after `test_mock_no_pypardiso_for_solve_1d` the smoke test no longer runs the PyPardiso branch; three tests depend on what was imported before | C81_reload_stays, C81_refuted |
| a zero dual or primal weight (or `T = 0`) makes a form without integrals, which is rejected | C15_zero_weights_rejected |

Properties settled by `_refuted` keep their wording in `properties.jsonl`: they say what a user
would expect.

## 6. Plan per property

C01-C03 time basis: tables as real functions; `field`/`ring`, Coquelicot derivatives.
C04 antiderivative evaluation proved equal to the Riemann integral.
C05 definiteness by explicit sums of squares.
C06 orders as integers; dictionary lookups are partial.
C07-C10 quadrature: exactness on monomials of the reference interval, lifted to all polynomials and intervals.
C11 `theta_ref` loops over the point list as in the code.
C12 the specification is an integral over each slab, independent of the builders.
C13-C19 block decomposition of the form, C12 and sums of squares.
C20-C29 operators: imperative loops; invariants by induction on the slab number.
C30-C39 life cycle: invariants over arbitrary histories of method calls.
C40-C42 grid transfer; C43-C47 errors and plots; C48-C49, C63 GMRES.
C50-C55, C64 utilities and drivers; C56-C61, C65, C66 meshes; C62 the caller's vectors.
C67, C68 energy identity with test function (u,-z), Young for the 1e-20 term, uniqueness on a slab by comparing coefficients in time.
C69, C70 the same identity and the trace bound for dual functions; positivity of the Radau weights and a sum-of-squares bound for the rule on squares of cubics.
C71 adds Young's inequality for each part of the bilinear form and an approximation bound (1e-5) for the rule on products of cubics.
C72 absorbs the remainders of C69-C71 by the hypothesis of control; trace bound in time for measurements everywhere.
C73 settings as functions of the edited numbers; cells as products of open intervals.
C74 both operators as assembled forms; their difference has 2 (N-1) dim V non-zero rows; a relation among Krylov vectors by counting equations; injectivity by testing with the flipped field slab by slab.
C75 tabulated values as derivatives of explicit polynomials; exactness of the rule turns point sums into integrals.
C76 inverse inequality in time; on an interval a discrete function is recovered from second derivatives, slope jumps and end values.
C77 the delivered operator tested with the flipped field; bounds of C76; triangle inequality; the mean square of a sine over equidistant points.
C78 runs of the tests reduced to a statement on the returned vector; skew part of the circular difference gives positivity; least squares by finite-dimensional projection; explicit Krylov spaces in dimension 5.
C79 invariant of one object along the history of the whole program.
C80 Lagrange interpolation error (Rolle) in time and space; consistency of the forms with the interpolant; stability of C69 applied to the difference.
C81 invariant of sys.modules and the namespaces along the session.
C82 energy of the difference for the delivered system (the extra 1e-20 products are absorbed); from the energy to the sampled reconstruction by inverse inequalities in time.
C83 a finite automaton over the attributes that exist; every call of the model follows it (simulation, loops over the slabs included), and the conditions are read off it by induction over the history.
C84 sums over points split by rank; local indices of owned dofs are below the number of owned dofs, those of ghosts are not; a chain of points seen by a common basis function crosses from one process to another at a ghost.
C85 induction over the command line; the collected instances by enumeration of the test functions.
C86 sum of the slab equations, slab by slab comparison with the assembled form; the slab equations determine the vector by induction over the slabs.
C87 the decimal exponent by search; the digits are the nearest integer to the scaled number; the text is taken apart character by character.
C88 owned entries of a process come in multiples of two per node, PETSc's even division leaves a remainder of one, so both agree only when the division is exact; then count nodes.
C89 error bounds are computed from the formulas and proved sound once for all formulas; the round trip is followed operation by operation; the two meet through the bound on the derivative.
C90 sums of squares stay in the doubles without sign, where addition and multiplication by a weight cannot give nan; each rounding is a factor between 1 - 2^-53 and 1 + 2^-53, and such factors pass through sums of nonnegative terms.
C91 a rank's rows are a slice of the compressed rows; the largest column of the slice is at least its last row, as the diagonal is stored.
C92 the loops are written once for any type of numbers and have a closed form for each entry; a signed sum of products is compared with the sum of the absolute values, one factor 1 + 2^-53 for each operation in a row.
C93 the printing versions agree with the silent ones by one rule per construct of the monad; the lines of a call are those of its parts in order, so a failing call prints a first part.
C94 a run with lengths beside the one without: equal as long as every index list is inside, IndexError at the first that is not; all lists of all slabs are inside iff the vector has the dimension, because the lists cover the space.
C95 the mesh functions again with gmsh's refusals; equal to the recorded ones unless refused, then the refusals of each geometry in an empty model, and two invariants of an open session with a group 1 that every call keeps.
C96 every term is checked to contain u2 and z2 in dx integrals and without derivatives; a function that vanishes at the points then gives a kernel from both sides; the converse is C67/C68, existence on an interval by counting.
C97 the loops once for any type of numbers, as in C92: an invariant gives the equations of the slabs bit by bit; errors of a row as in C92.
C98 polynomials of d variables as functions of lists, iterated Riemann integrals over the reference simplex and cube; a nonnegative polynomial with integral zero vanishes (induction on d, continuity along segments); the Lagrange basis from binomial coefficients; rules from the 5-point Gauss rule by collapsed or tensor coordinates; then C67, C68, C72, C96.
C99 surfaces as the points inside some of the rectangles and off the others (`denote` of C65); connectedness by polygons; centres by iterated Riemann integrals of the indicator times 1, x, y over a grid; then C61, C95, C56 and C66.
C100 as C99, with eta a variable: each rectangle gives linear inequalities, the patterns that can occur are found by linear arithmetic; the disk by a few products.
C101 by a relation between a printing program and the silent one that is kept by sequencing, and one that collects the lines along a run; the runs are those of C56.
C102 with Flocq: a double in a binade is an integer multiple of its last place, so eta - 1/4 is exact; numbers within half a last place of 1 and 3/2 round to them (ties to even).  C102_model adds up the errors of at most three operations (Props_MeshLink.v).
C103 as C100, with one lemma per rectangle and one for the frame.
C104 as C99 with three coordinates; the shell is connected through the slab next to x = 0.
C105 by induction over the blocks; the link to MeshModel.v forgets the blocks (`summary`).
C106 by a relation between the runs with and without node functions, kept by the loops.
C107 from the lemmas of C84 about reading and writing on a rank.
C108 by induction over the slabs, as C97; the lost term from Flocq's midpoint lemmas for round to nearest.
C109 by induction over the program, from C92, C97 and C108.
C110 the vector stays zero from slab to slab; for nan, the slabs not yet reached are zero when they are read, and nan stays.
C111 by induction over the slabs and the components of each slab, for any type of numbers; with real numbers the same loops as in C40.

## 7. Wrong programs

Each entry of `seeded/LOG.jsonl` is one deliberate fault put into a scratch copy of a model file.
The copy is compiled again; a theorem "failed" if its proof no longer goes through, or if it rests
on a lemma whose proof no longer goes through.  Faults that no theorem noticed led to new or
stronger theorems, named in the entry.

Entries with an id such as `9-K3` are written by hand, with the replaced text in `change`.  All
proofs that break are listed, up to a time limit of five minutes per fault.  Entries `auto-...` replace
one token (a number, a comparison, an operation, a boolean, an exception) at an offset of a model
file.  There the compilation stops at the first proof that breaks, and `theorems_failed` lists the
theorems that use this proof by name, directly or through others; so it may name a theorem that
could be proved in another way.  Faults that do not type-check are not logged.

Entries without a failed theorem survive.  Their `note` says why: nearly all change a branch that
the code never takes, or a default that is never read, so the programs agree on every run the
theorems speak of.
