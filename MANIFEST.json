{
 "claims": [
  {
   "property": "C01",
   "status": "proved",
   "theorems": [
    "C01_basis_is_nodal",
    "C01_endpoints"
   ],
   "note": ""
  },
  {
   "property": "C02",
   "status": "proved",
   "theorems": [
    "C02_basis_reproduces_polynomials"
   ],
   "note": ""
  },
  {
   "property": "C03",
   "status": "proved",
   "theorems": [
    "C03_tabulated_derivatives"
   ],
   "note": ""
  },
  {
   "property": "C04",
   "status": "proved",
   "theorems": [
    "C04_elmat_entries_are_time_integrals"
   ],
   "note": ""
  },
  {
   "property": "C05",
   "status": "proved",
   "theorems": [
    "C05_elmat_structure"
   ],
   "note": ""
  },
  {
   "property": "C06",
   "status": "proved",
   "theorems": [
    "C06_supported_orders"
   ],
   "note": ""
  },
  {
   "property": "C07",
   "status": "proved",
   "theorems": [
    "C07_quadrature_exactness",
    "C07_stored_rule"
   ],
   "note": ""
  },
  {
   "property": "C08",
   "status": "proved",
   "theorems": [
    "C08_radau_4_5_error",
    "C08_radau_4_5_exactness_refuted"
   ],
   "note": "Error bound proved on every interval; exactness of degree 2n-2 refuted (6-digit tables)."
  },
  {
   "property": "C09",
   "status": "proved",
   "theorems": [
    "C09_admissible_nodes_and_weights"
   ],
   "note": ""
  },
  {
   "property": "C10",
   "status": "proved",
   "theorems": [
    "C10_rule_selection"
   ],
   "note": ""
  },
  {
   "property": "C11",
   "status": "proved",
   "theorems": [
    "C11_theta_ref"
   ],
   "note": ""
  },
  {
   "property": "C12",
   "status": "proved",
   "theorems": [
    "C12_variational_form",
    "C12_stored_matrix"
   ],
   "note": ""
  },
  {
   "property": "C13",
   "status": "proved",
   "theorems": [
    "C13_symmetry"
   ],
   "note": ""
  },
  {
   "property": "C14",
   "status": "proved",
   "theorems": [
    "C14_saddle_point_signs",
    "C14_kernel"
   ],
   "note": ""
  },
  {
   "property": "C15",
   "status": "proved",
   "theorems": [
    "C15_forms_well_formed",
    "C15_forms_accepted",
    "C15_zero_weights_rejected",
    "C15_order_zero_rejected",
    "C15_accepted_terms"
   ],
   "note": "Also: which forms are accepted when compiled, and that zero dual or primal weights (or T = 0) are rejected."
  },
  {
   "property": "C16",
   "status": "proved",
   "theorems": [
    "C16_guard_harmless"
   ],
   "note": ""
  },
  {
   "property": "C17",
   "status": "proved",
   "theorems": [
    "C17_slab_coupling"
   ],
   "note": ""
  },
  {
   "property": "C18",
   "status": "proved",
   "theorems": [
    "C18_rhs_consistent",
    "C18_stored_rhs"
   ],
   "note": ""
  },
  {
   "property": "C19",
   "status": "proved",
   "theorems": [
    "C19_exact_waves"
   ],
   "note": ""
  },
  {
   "property": "C20",
   "status": "proved",
   "theorems": [
    "C20_matrix_free_product",
    "C20_when"
   ],
   "note": ""
  },
  {
   "property": "C21",
   "status": "partial",
   "theorems": [
    "C21_difference",
    "C21_wellposed_refuted",
    "C21_fwjumps_refuted"
   ],
   "note": "REFUTED as stated: the product leaves out the initial-data and forward-jump terms; the exact difference is proved."
  },
  {
   "property": "C22",
   "status": "proved",
   "theorems": [
    "C22_pure_linear",
    "C22_deterministic"
   ],
   "note": ""
  },
  {
   "property": "C23",
   "status": "partial",
   "theorems": [
    "C23_aliased_product_is_zero",
    "C23_aliasing_refuted"
   ],
   "note": "REFUTED as stated: an aliased call always leaves the zero vector."
  },
  {
   "property": "C24",
   "status": "proved",
   "theorems": [
    "C24_time_marching"
   ],
   "note": ""
  },
  {
   "property": "C25",
   "status": "proved",
   "theorems": [
    "C25_improved_time_marching",
    "C25_routines_agree"
   ],
   "note": ""
  },
  {
   "property": "C26",
   "status": "proved",
   "theorems": [
    "C26_linear_operator"
   ],
   "note": ""
  },
  {
   "property": "C27",
   "status": "proved",
   "theorems": [
    "C27_in_place",
    "C27_in_place_improved"
   ],
   "note": ""
  },
  {
   "property": "C28",
   "status": "proved",
   "theorems": [
    "C28_jumps_refused"
   ],
   "note": ""
  },
  {
   "property": "C29",
   "status": "proved",
   "theorems": [
    "C29_causal",
    "C29_causal_improved"
   ],
   "note": ""
  },
  {
   "property": "C30",
   "status": "proved",
   "theorems": [
    "C30_any_history"
   ],
   "note": ""
  },
  {
   "property": "C31",
   "status": "partial",
   "theorems": [
    "C31_partial",
    "C31_getter_first_refuted"
   ],
   "note": "REFUTED as stated: after get_slab_matrix or get_slab_bfi the improved preconditioner fails for good; proved when the slab matrix was not built before preparing."
  },
  {
   "property": "C32",
   "status": "proved",
   "theorems": [
    "C32_wellposed_order",
    "C32_documented_order_fails"
   ],
   "note": "The documented order alone does not work: the slab matrix without jumps has to be set up by hand first."
  },
  {
   "property": "C33",
   "status": "partial",
   "theorems": [
    "C33_first_request_wins",
    "C33_refuted"
   ],
   "note": "REFUTED as stated: the first request decides; the argument of later calls is ignored."
  },
  {
   "property": "C34",
   "status": "proved",
   "theorems": [
    "C34_matrices_stable",
    "C34_which_matrices",
    "C34_rhs_stable",
    "C34_rhs_replaced"
   ],
   "note": ""
  },
  {
   "property": "C35",
   "status": "partial",
   "theorems": [
    "C35_partial",
    "C35_fitted_ignored",
    "C35_refuted"
   ],
   "note": "REFUTED as stated: for a fitted data domain the indicator is replaced by zero; proved for unfitted ones."
  },
  {
   "property": "C36",
   "status": "partial",
   "theorems": [
    "C36_partial",
    "C36_who_changes_initial_data",
    "C36_setup_clears",
    "C36_same_after_setup",
    "C36_refuted"
   ],
   "note": "REFUTED as stated in the well-posed mode: the initial data of a later right-hand side are overwritten; the exact difference is proved, and that it is zero in the other modes."
  },
  {
   "property": "C37",
   "status": "partial",
   "theorems": [
    "C37_start_time_refuted"
   ],
   "note": "REFUTED: the start time has no effect in any history."
  },
  {
   "property": "C38",
   "status": "proved",
   "theorems": [
    "C38_missing_weight"
   ],
   "note": ""
  },
  {
   "property": "C39",
   "status": "proved",
   "theorems": [
    "C39_no_spaces",
    "C39_operators_fail"
   ],
   "note": ""
  },
  {
   "property": "C40",
   "status": "proved",
   "theorems": [
    "C40_prolongation",
    "C40_restriction",
    "C40_linear",
    "C40_linear_restriction",
    "C40_restrict_prolong"
   ],
   "note": ""
  },
  {
   "property": "C41",
   "status": "partial",
   "theorems": [
    "C41_refuted",
    "C41_different_orders_refuted",
    "C41_single_value"
   ],
   "note": "REFUTED as stated: the dual components are moved with the spaces of the primal variable; for different orders in space the transfer fails."
  },
  {
   "property": "C42",
   "status": "partial",
   "theorems": [
    "C42_refuted",
    "C42_partial",
    "C42_prepared",
    "C42_coarse_matrix"
   ],
   "note": "REFUTED: pre_twolvl fails on every call; what the coarse correction q_op computes is proved."
  },
  {
   "property": "C43",
   "status": "partial",
   "theorems": [
    "C43_partial",
    "C43_doubles_refuted",
    "C43_doubles",
    "C43_doubles_exact",
    "C43_doubles_powers"
   ],
   "note": "Proved in exact arithmetic; REFUTED in double precision (e.g. T = 1, N = 6: the final time is never evaluated). In doubles, for all T between 2^-900 and 2^1000 and N up to 2^53, only the final time can be missed, and exactly when (N-1)*delta_t + delta_t rounds below T; nothing is missed when the slab length and its multiples are doubles, e.g. T and N powers of two (the drivers)."
  },
  {
   "property": "C44",
   "status": "proved",
   "theorems": [
    "C44_reconstruction",
    "C44_sampled"
   ],
   "note": ""
  },
  {
   "property": "C45",
   "status": "proved",
   "theorems": [
    "C45_maximum"
   ],
   "note": ""
  },
  {
   "property": "C46",
   "status": "proved",
   "theorems": [
    "C46_total_nonnegative",
    "C46_zero_when_exact"
   ],
   "note": ""
  },
  {
   "property": "C47",
   "status": "proved",
   "theorems": [
    "C47_plot_arrays",
    "C47_paraview"
   ],
   "note": ""
  },
  {
   "property": "C48",
   "status": "proved",
   "theorems": [
    "C48_only_converged",
    "C48_returns_iff"
   ],
   "note": ""
  },
  {
   "property": "C49",
   "status": "proved",
   "theorems": [
    "C49_configuration",
    "C49_exactly",
    "C49_refused",
    "C49_options_win",
    "C49_repeatable"
   ],
   "note": "Arguments PETSc accepts; entries of the options database win over arguments (C49_options_win); -2 means PETSc's own default."
  },
  {
   "property": "C50",
   "status": "proved",
   "theorems": [
    "C50_accepted",
    "C50_refused",
    "C50_entries",
    "C50_shape",
    "C50_nonsingular"
   ],
   "note": ""
  },
  {
   "property": "C51",
   "status": "proved",
   "theorems": [
    "C51_solve",
    "C51_warns",
    "C51_exact",
    "C51_wrong_shape"
   ],
   "note": ""
  },
  {
   "property": "C52",
   "status": "proved",
   "theorems": [
    "C52_unpack",
    "C52_mode"
   ],
   "note": ""
  },
  {
   "property": "C53",
   "status": "proved",
   "theorems": [
    "C53_1d",
    "C53_2d",
    "C53_3d",
    "C53_3d_ufl",
    "C53_3d_variants",
    "C53_3d_side"
   ],
   "note": ""
  },
  {
   "property": "C54",
   "status": "proved",
   "theorems": [
    "C54_1d",
    "C54_2d",
    "C54_3d"
   ],
   "note": ""
  },
  {
   "property": "C55",
   "status": "partial",
   "theorems": [
    "C55_partial",
    "C55_third_choice_wrong",
    "C55_refuted"
   ],
   "note": "Holds for the two GMRES choices (C55_partial: the outcome is that of the external GMRES on plain vectors with two fixed maps, right-hand side intact). False for the third choice: the arguments of the direct solve are swapped, so u_sol is zero and b_rhs is overwritten (C55_refuted)."
  },
  {
   "property": "C56",
   "status": "partial",
   "theorems": [
    "C56_partial",
    "C56_convex",
    "C56_3d",
    "C56_refuted"
   ],
   "note": "Holds with dolfinx 0.6; with 0.7 three of the functions fail at the first refinement (C56_refuted). get_mesh_convex and the 3D function hold for both."
  },
  {
   "property": "C57",
   "status": "partial",
   "theorems": [
    "C57_refuted",
    "C57_functions_refuted",
    "C57_other_ranks_refuted",
    "C57_square_never_returns"
   ],
   "note": "REFUTED: the check is inverted. Sequential numbers are refused, all others accepted."
  },
  {
   "property": "C58",
   "status": "partial",
   "theorems": [
    "C58_extraction",
    "C58_cells",
    "C58_functions",
    "C58_refuted"
   ],
   "note": "The pairs are extracted and sorted by node number (C58_extraction); the placement is REFUTED because only non-sequential numberings pass the check."
  },
  {
   "property": "C59",
   "status": "proved",
   "theorems": [
    "C59",
    "C59_edges"
   ],
   "note": "Assumes that dolfinx refine only adds midpoints of vertices."
  },
  {
   "property": "C60",
   "status": "partial",
   "theorems": [
    "C60_partial",
    "C60_refuted",
    "C60_3d_refuted",
    "C60_3d_consequence"
   ],
   "note": "Holds for three functions on every rank; REFUTED for the others."
  },
  {
   "property": "C61",
   "status": "partial",
   "theorems": [
    "C61_partial",
    "C61_numbered",
    "C61_convex_regions",
    "C61_lines",
    "C61_refuted",
    "C61_inclusion_refuted"
   ],
   "note": "Each surface has one marker, chosen by its centre. REFUTED: in the non-convex mesh two of the three region markers are exchanged, and on the inclusion meshes the boundary test is wrong."
  },
  {
   "property": "C62",
   "status": "proved",
   "theorems": [
    "C62_only_outputs_change"
   ],
   "note": ""
  },
  {
   "property": "C63",
   "status": "proved",
   "theorems": [
    "C63_fixed_operators",
    "C63_gmres"
   ],
   "note": ""
  },
  {
   "property": "C64",
   "status": "partial",
   "theorems": [
    "C64_rhs",
    "C64_refuted"
   ],
   "note": "False as stated: with a fitted data domain (the drivers' default) the right-hand side is 1e-20 times integrals of test functions and contains no data (C64_refuted); C64_rhs says what it always contains."
  },
  {
   "property": "C65",
   "status": "partial",
   "theorems": [
    "C65_convex",
    "C65_nonconvex",
    "C65_around",
    "C65_disc",
    "C65_bottom",
    "C65_3d",
    "C65_inclusion",
    "C65_square_full",
    "C65_square_fill",
    "C65_refuted",
    "C65_square_degenerate"
   ],
   "note": "REFUTED for get_mesh_inclusion_square with a target narrower than the part cut out (C65_refuted); proved for all others."
  },
  {
   "property": "C66",
   "status": "proved",
   "theorems": [
    "C66_frame",
    "C66_levels"
   ],
   "note": ""
  },
  {
   "property": "C67",
   "status": "proved",
   "theorems": [
    "C67_slab_problem",
    "C67_exact_solvers"
   ],
   "note": "With jump terms in the forward problem the condition is (1+eps)^2 + 16e-40 < 4 g_jump g_dual, without them 16e-40 < 4 g_jump g_dual."
  },
  {
   "property": "C68",
   "status": "proved",
   "theorems": [
    "C68_space_time_problem",
    "C68_preconditioner"
   ],
   "note": ""
  },
  {
   "property": "C69",
   "status": "proved",
   "theorems": [
    "C69_stability",
    "C69_energy_definite"
   ],
   "note": ""
  },
  {
   "property": "C70",
   "status": "proved",
   "theorems": [
    "C70_measurement_noise"
   ],
   "note": ""
  },
  {
   "property": "C71",
   "status": "proved",
   "theorems": [
    "C71_error_bound",
    "C71_exact_recovery"
   ],
   "note": ""
  },
  {
   "property": "C72",
   "status": "proved",
   "theorems": [
    "C72_full_data",
    "C72_first_slab",
    "C72_space_time_problem",
    "C72_preconditioner",
    "C72_exact_solvers",
    "C72_stability",
    "C72_measurement_noise",
    "C72_error_bound"
   ],
   "note": "Observability is a hypothesis (it depends on mesh and data domain); C72_full_data proves it for measurements everywhere."
  },
  {
   "property": "C73",
   "status": "proved",
   "theorems": [
    "C73_accepted",
    "C73_refused",
    "C73_solvers",
    "C73_mesh_1d",
    "C73_mesh_2d",
    "C73_mesh_3d",
    "C73_constants"
   ],
   "note": "C73_accepted also says that the right-hand side is without data in every setting but the coarsest 3D mesh (C64)."
  },
  {
   "property": "C74",
   "status": "proved",
   "theorems": [
    "C74_rows",
    "C74_injective",
    "C74_krylov",
    "C74_gmres",
    "C74_attained"
   ],
   "note": "Exact arithmetic, no restart before the stated dimension; observability as in C72."
  },
  {
   "property": "C75",
   "status": "proved",
   "theorems": [
    "C75_continuous",
    "C75_mass",
    "C75_stiffness",
    "C75_flux",
    "C75_penalty",
    "C75_jumps",
    "C75_laplacian",
    "C75_regular",
    "C75_definite"
   ],
   "note": "Equispaced Lagrange nodes in each cell; rule exact to the degree of the integrand."
  },
  {
   "property": "C76",
   "status": "proved",
   "theorems": [
    "C76_primal_controls",
    "C76_no_measurements",
    "C76_interval",
    "C76_driver"
   ],
   "note": "C76_interval gives the bound on an interval; in higher dimensions it is a hypothesis."
  },
  {
   "property": "C77",
   "status": "proved",
   "theorems": [
    "C77_delivered_stability",
    "C77_no_data_no_solution",
    "C77_errors",
    "C77_solve_1d",
    "C77_reported"
   ],
   "note": "Exact arithmetic; the solver is assumed to return a solution of the system."
  },
  {
   "property": "C78",
   "status": "partial",
   "theorems": [
    "C78_gmres_run",
    "C78_matrices",
    "C78_iterates",
    "C78_gmres_stops",
    "C78_gmres_test_partial",
    "C78_gmres_test_identity",
    "C78_gmres_test_refuted",
    "C78_slab_test",
    "C78_test_settings",
    "C78_test_constants",
    "C78_spacetime_solve",
    "C78_spacetime_solve_refuted",
    "C78_parameters",
    "C78_smoke_test"
   ],
   "note": "REFUTED as stated: with the circular difference matrix of dimension 5 an exact GMRES stops within its tolerance and the test fails for a right-hand side with small entries (C78_gmres_test_refuted); the skipped space-time test fails for every large enough jump between slabs (C78_spacetime_solve_refuted). Proved: the slab tests and ProblemParameters tests for all inputs, the smoke test exactly when GMRES does not report divergence, the gmres test for the identity, for dimension <= 2 and for right-hand sides without small entries."
  },
  {
   "property": "C79",
   "status": "proved",
   "theorems": [
    "C79_isolation",
    "C79_failed_constructor",
    "C79_as_if_alone",
    "C79_fitted_forgets",
    "C79_unfitted_too_late",
    "C79_two_meshes",
    "C79_stale_matrix",
    "C79_unbound",
    "C79_assignments"
   ],
   "note": "Each object numbers its own vectors; OrderTime and OrderSpace objects are not modified after construction."
  },
  {
   "property": "C80",
   "status": "proved",
   "theorems": [
    "C80_convergence",
    "C80_data_domain",
    "C80_driver",
    "C80_driver_order"
   ],
   "note": "Exact arithmetic; the solver is assumed to return a solution of the system. C80_convergence and C80_data_domain are for any mesh and wave; C80_driver gives the numbers of solve_1d.py."
  },
  {
   "property": "C81",
   "status": "partial",
   "theorems": [
    "C81_consistent",
    "C81_warns",
    "C81_pardiso",
    "C81_mock_1d",
    "C81_mock",
    "C81_reload_stays",
    "C81_pytest",
    "C81_refuted",
    "C81_import_block",
    "C81_import_block_used"
   ],
   "note": "The choice of solver is proved consistent in every session. REFUTED for the tests: the test that reloads solve_1d fails with a KeyError unless the module was imported before, and its reload stays, so that the smoke test afterwards no longer runs the PyPardiso branch; the tests for solve_2d and solve_3d fail after an import of those modules with PyPardiso. Exactly when each passes is proved, and that all pass in pytest's own order."
  },
  {
   "property": "C82",
   "status": "proved",
   "theorems": [
    "C82_control_data",
    "C82_control_elliptic",
    "C82_delivered",
    "C82_reported",
    "C82_driver_energy",
    "C82_driver_reported"
   ],
   "note": "Exact arithmetic; the solver is assumed to return a solution of the system. The floor is the rounding of the tabulated Radau weights (C08); the bounds for the reported errors of order 1 are true but above the size of the solution."
  },
  {
   "property": "C83",
   "status": "proved",
   "theorems": [
    "C83_automaton",
    "C83_setup_calls",
    "C83_mass",
    "C83_apply",
    "C83_march",
    "C83_improved",
    "C83_coarse",
    "C83_exceptions",
    "C83_once_works_always_works"
   ],
   "note": "solvers passed by the caller are assumed to answer, coarse spaces to fit (C41 treats the others); quadrature weights non-negative"
  },
  {
   "property": "C84",
   "status": "partial",
   "theorems": [
    "C84_partial",
    "C84_refuted",
    "C84_first_slab",
    "C84_load",
    "C84_rhs",
    "C84_rhs_refuted",
    "C84_matrices",
    "C84_errors_reduced"
   ],
   "note": "true of the matrices and of the sums in the error norms; false of the rest as soon as a process has ghost nodes, which some process has on every connected mesh: IndexError when the first slab is filled, ValueError when a solution is loaded, and the right-hand side lacks what other processes' cells contribute. Without ghosts (in particular on one process) all steps agree with the serial model"
  },
  {
   "property": "C85",
   "status": "partial",
   "theorems": [
    "C85_option",
    "C85_collected",
    "C85_skipped",
    "C85_partial",
    "C85_refuted",
    "C85_nonvacuous"
   ],
   "note": "true of test_get_gmres_solution; false of the slab tests, which draw from fresh entropy whatever the seeds, and --seed without values makes the GMRES test skipped"
  },
  {
   "property": "C86",
   "status": "partial",
   "theorems": [
    "C86_partial",
    "C86_one_slab",
    "C86_onto",
    "C86_refuted"
   ],
   "note": "false as stated; proved: the system solved is the assembled one minus march_gap (the dual values tested with the jumps of the test functions, 1e-15 terms, and in well-posed mode the start of the first slab), every vector is the result of some run, so the difference occurs; without jump terms or with one slab and no initial data the statement holds"
  },
  {
   "property": "C87",
   "status": "proved",
   "theorems": [
    "C87_line",
    "C87_order",
    "C87_columns",
    "C87_log",
    "C87_rejected",
    "C87_reason",
    "C87_special",
    "C87_nonvacuous"
   ],
   "note": "format(x, '4.2e') on doubles, exact decimal rounding to even; equal length also needs the residual to be zero or between 1e-99 and 1e99"
  },
  {
   "property": "C88",
   "status": "partial",
   "theorems": [
    "C88_partial",
    "C88_refuted",
    "C88_size",
    "C88_rank",
    "C88_all_ranks",
    "C88_divides",
    "C88_same_orders",
    "C88_driver_1d",
    "C88_driver_1d_shipped",
    "C88_driver_3d",
    "C88_nonvacuous"
   ],
   "note": "true on one process; on several, no process gets a PETSc error exactly when all own equally many entries, which needs the number of processes to divide the number of unknowns; with equal orders it must divide the number of nodes, so solve_1d.py as shipped fails on any number of processes other than 1, 7, 23, 161, however the mesh is distributed. Only the comparison of local sizes in ksp.solve is modelled here, C84 has what comes after it"
  },
  {
   "property": "C89",
   "status": "proved",
   "theorems": [
    "C89_basis",
    "C89_round_trip",
    "C89_sample",
    "C89_evaluated",
    "C89_theta",
    "C89_lifting",
    "C89_lifting_sample",
    "C89_points",
    "C89_tables",
    "C89_interval",
    "C89_measured",
    "C89_exact",
    "C89_ends",
    "C89_ends_refuted",
    "C89_nonvacuous",
    "C89_not_exact"
   ],
   "note": "exactly nodal at both ends for orders 0, 1, 2; the last cubic function is 1 + 2^-52 at the end of its slab (C89_ends_refuted). T between 2^-900 and 2^1000"
  },
  {
   "property": "C90",
   "status": "partial",
   "theorems": [
    "C90_integral",
    "C90_succeeds",
    "C90_nan",
    "C90_nonnegative",
    "C90_maximum",
    "C90_norm_accuracy",
    "C90_final_accuracy",
    "C90_l2_accuracy",
    "C90_zero",
    "C90_nan_hidden_refuted",
    "C90_order_refuted",
    "C90_zero_refuted",
    "C90_nonvacuous"
   ],
   "note": "refuted as stated in two places, with exact characterisations: Python's max ignores a nan unless it comes first, so a nan at a later sample time is not reported in the L-infinity errors (C90_nan: exactly the first sample decides; the L2-L2 error and the error at T do report it), and differences around 2^-600 are reported as zero because their squares underflow (C90_zero: not above 2^-350)"
  },
  {
   "property": "C91",
   "status": "partial",
   "theorems": [
    "C91_entries",
    "C91_accepted",
    "C91_ranks",
    "C91_refuted",
    "C91_partial",
    "C91_one",
    "C91_nonvacuous",
    "C91_blocks"
   ],
   "note": "the entries are right; acceptance is refuted: csr_matrix infers the number of columns from global column numbers, so on two or more processes at most one rank (the one with the first rows, if they are not coupled to later columns) gets a square matrix and all others raise ValueError (C91_ranks says exactly which). It holds on one process (C91_partial, C91_one)."
  },
  {
   "property": "C92",
   "status": "partial",
   "theorems": [
    "C92_terms",
    "C92_scratch",
    "C92_accuracy",
    "C92_finite",
    "C92_no_overflow",
    "C92_nan",
    "C92_zero",
    "C92_reals",
    "C92_additive_refuted",
    "C92_nonvacuous"
   ],
   "note": "all but additivity, which is refuted (as for any sum in doubles): the two sides differ by at most the bounds of C92_accuracy"
  },
  {
   "property": "C93",
   "status": "proved",
   "theorems": [
    "C93_same",
    "C93_session",
    "C93_matrix_and_rhs",
    "C93_prefix",
    "C93_matrix_failure",
    "C93_errors",
    "C93_rows",
    "C93_no_samples",
    "C93_backwards",
    "C93_rhs_once",
    "C93_matrix_once",
    "C93_gmres",
    "C93_driver",
    "C93_stops",
    "C93_nonvacuous"
   ],
   "note": "how Python writes a number is left out except in the lines of gmres.py; without ksp.view() and the output of meshes.py"
  },
  {
   "property": "C94",
   "status": "proved",
   "theorems": [
    "C94_enough",
    "C94_short",
    "C94_ends",
    "C94_stops",
    "C94_tail",
    "C94_overwritten",
    "C94_one_entry",
    "C94_other_length",
    "C94_nonvacuous"
   ],
   "note": "one process, where the array of a vector has its entries and no ghosts; that a shorter vector raises is stated for calls that would otherwise have returned"
  },
  {
   "property": "C95",
   "status": "proved",
   "theorems": [
    "C95_agree",
    "C95_accepted",
    "C95_classes",
    "C95_entities",
    "C95_refused",
    "C95_parameters",
    "C95_defaults_refuted",
    "C95_bottom_default",
    "C95_solid",
    "C95_new_model",
    "C95_stuck",
    "C95_stuck_surfaces",
    "C95_again_refuted",
    "C95_after_inclusion_refuted",
    "C95_nonvacuous",
    "C95_refused_nonvacuous"
   ],
   "note": "refusals modelled: edges of length zero, tags in use, unknown operands; the parameters are real numbers, so in doubles the values listed are those that round to a zero length"
  },
  {
   "property": "C96",
   "status": "proved",
   "theorems": [
    "C96_unsolvable",
    "C96_space_time",
    "C96_slab",
    "C96_kernel",
    "C96_operator",
    "C96_more_functions",
    "C96_slab_iff",
    "C96_space_time_iff",
    "C96_no_solver",
    "C96_points",
    "C96_interval_blind",
    "C96_interval",
    "C96_interval_solvable",
    "C96_shipped",
    "C96_nonvacuous",
    "C96_example"
   ],
   "note": "that basix takes (degree + 2) // 2 Gauss points on an interval is part of the model; for other meshes the criterion is the number of dx points against the dimension of the space"
  },
  {
   "property": "C97",
   "status": "proved",
   "theorems": [
    "C97_slabs",
    "C97_unique",
    "C97_copies",
    "C97_scratch",
    "C97_causal",
    "C97_rhs",
    "C97_residual",
    "C97_finite",
    "C97_no_overflow",
    "C97_nan",
    "C97_zero",
    "C97_reals",
    "C97_nonvacuous",
    "C97_nan_nonvacuous"
   ],
   "note": "the slab solvers are arbitrary functions of the right-hand side that return doubles for doubles; PETSc is assumed to add up a row in the order of the stored entries without fused multiply-add"
  },
  {
   "property": "C98",
   "status": "proved",
   "theorems": [
    "C98_vanishes",
    "C98_definite",
    "C98_products",
    "C98_no_blind",
    "C98_slab",
    "C98_space_time",
    "C98_driver",
    "C98_elements",
    "C98_lagrange",
    "C98_volume",
    "C98_rule",
    "C98_square",
    "C98_cube",
    "C98_driver_3d",
    "C98_full_data",
    "C98_nonvacuous",
    "C98_triangles_nonvacuous"
   ],
   "note": "the rule is any rule with positive weights exact for degree 2k+3 (basix is not modelled); the shipped nodes may differ from the equidistant ones of C98_lagrange, the theorems ask only for polynomials determined by values at points of the cells; on curved or bilinear cells the Jacobian is taken to be positive at the points of the rule"
  },
  {
   "property": "C99",
   "status": "partial",
   "theorems": [
    "C99_convex",
    "C99_nonconvex",
    "C99_around",
    "C99_connected",
    "C99_centres",
    "C99_one_centre",
    "C99_convex_marked",
    "C99_nonconvex_marked_refuted",
    "C99_accepted",
    "C99_fitted",
    "C99_nonvacuous"
   ],
   "note": "the markers of the non-convex geometry are refuted as intended (B without omega and the rest are exchanged, C99_nonconvex_marked_refuted); that gmsh reports the surfaces of the fragment, and meshes each of them separately, is assumed"
  },
  {
   "property": "C100",
   "status": "partial",
   "theorems": [
    "C100_disc",
    "C100_disc_parts",
    "C100_disc_refuted",
    "C100_disc_fitted",
    "C100_disc_cells",
    "C100_bottom",
    "C100_bottom_parts",
    "C100_inclusion",
    "C100_inclusion_fitted",
    "C100_nonvacuous"
   ],
   "note": "that B_minus is one surface is refuted (C100_disc_refuted): b_plus and top_remainder start at y_eta = eta - 0.25, a height, instead of at eta, so the line y = eta - 0.25 is a second interface and there are seven pieces; the rest is proved, under the same assumptions on gmsh as C99"
  },
  {
   "property": "C101",
   "status": "proved",
   "theorems": [
    "C101_same",
    "C101_hierarchy",
    "C101_nonconvex",
    "C101_disc",
    "C101_around",
    "C101_convex",
    "C101_nodes",
    "C101_3d",
    "C101_no_file",
    "C101_number",
    "C101_nonvacuous"
   ],
   "note": "lines as lists of text, integers, points, edges and entities; how Python writes them, and what gmsh itself prints, left out"
  },
  {
   "property": "C102",
   "status": "proved",
   "theorems": [
    "C102_bottom",
    "C102_fitted",
    "C102_inclusion",
    "C102_inclusion_corners",
    "C102_inclusion_refuted",
    "C102_defaults",
    "C102_constants",
    "C102_nonconvex_refuted",
    "C102_nonvacuous",
    "C102_model_convex",
    "C102_model_around",
    "C102_model_nonconvex",
    "C102_model_bottom",
    "C102_model_fitted",
    "C102_model_inclusion",
    "C102_model_nonvacuous"
   ],
   "note": "trusted: gmsh computes a far side by one addition in doubles; the two _refuted theorems give the counterexamples the claim mentions"
  },
  {
   "property": "C103",
   "status": "proved",
   "theorems": [
    "C103_low",
    "C103_low_parts",
    "C103_low_refuted",
    "C103_high",
    "C103_high_parts",
    "C103_hole",
    "C103_commands",
    "C103_nonvacuous"
   ],
   "note": "same assumption on gmsh as C99: its surfaces are those of the fragment; C103_low_refuted is the part of the claim that the target below eta is not one region"
  },
  {
   "property": "C104",
   "status": "proved",
   "theorems": [
    "C104_volumes",
    "C104_connected",
    "C104_indicator",
    "C104_indicator_refuted",
    "C104_cells",
    "C104_cells_refuted",
    "C104_nonvacuous"
   ],
   "note": "assumed as in C99: a cell of the generated mesh lies in one volume, a refined cell in a cell of the mesh before; the _refuted theorems are the counterexamples the claim mentions"
  },
  {
   "property": "C105",
   "status": "proved",
   "theorems": [
    "C105_create",
    "C105_no_groups",
    "C105_files",
    "C105_through",
    "C105_no_lines",
    "C105_markers",
    "C105_nonvacuous",
    "C105_lengths",
    "C105_lengths_nonvacuous",
    "C105_both_needed"
   ],
   "note": "trusted: meshio's get_cells_type, get_cell_data and the length check of its Mesh; assumed in C105_markers: gmsh saves each entity of a group with the tag of the group"
  },
  {
   "property": "C106",
   "status": "proved",
   "theorems": [
    "C106_prolongation",
    "C106_restriction",
    "C106_after_prolongation",
    "C106_after_restriction",
    "C106_failed_prolongation",
    "C106_failed_restriction",
    "C106_history",
    "C106_nonvacuous",
    "C106_failed_nonvacuous"
   ],
   "note": "interpolation is a given map of the source function: it sets every dof of the target"
  },
  {
   "property": "C107",
   "status": "partial",
   "theorems": [
    "C107_stops",
    "C107_share",
    "C107_one",
    "C107_refuted",
    "C107_nonvacuous"
   ],
   "note": "REFUTED as stated: a process with a ghost node in either mesh raises IndexError at the first component and writes nothing (C107_stops), and some process has one as soon as two processes share a connected mesh (C107_refuted); proved for processes without ghosts, so for one process"
  },
  {
   "property": "C108",
   "status": "proved",
   "theorems": [
    "C108_slabs",
    "C108_unique",
    "C108_causal",
    "C108_residual",
    "C108_nan",
    "C108_lost",
    "C108_kept",
    "C108_agree",
    "C108_reals",
    "C108_nonvacuous",
    "C108_lost_nonvacuous",
    "C108_agree_nonvacuous",
    "C108_nan_nonvacuous"
   ],
   "note": "the assembly of l_pre is an arbitrary function of the two coefficient vectors; with the reals and the form of SpaceTimeModel.v the loops are those of the model (C108_reals)"
  },
  {
   "property": "C109",
   "status": "proved",
   "theorems": [
    "C109_maps",
    "C109_again",
    "C109_entries",
    "C109_nonvacuous"
   ],
   "note": "for the improved preconditioner, which the wrapper calls, and for the plain one; a product with vec_in and vec_out the same vector is excluded (see C23)"
  },
  {
   "property": "C110",
   "status": "proved",
   "theorems": [
    "C110_zero",
    "C110_nan",
    "C110_reals",
    "C110_nonvacuous",
    "C110_nan_nonvacuous"
   ],
   "note": "the result is not the product (C23); non-finite entries of the coupling matrix are not treated"
  },
  {
   "property": "C111",
   "status": "proved",
   "theorems": [
    "C111_components",
    "C111_local",
    "C111_back",
    "C111_q_op",
    "C111_reals",
    "C111_back_refuted",
    "C111_nonvacuous",
    "C111_back_nonvacuous"
   ],
   "note": "C111_back_refuted: without the condition on the interpolation the bits do not come back (sign of zero, overflow); the interpolation itself is any map of the coefficients"
  }
 ]
}
