{"id": "C01", "title": "Time basis is nodal", "statement": "For each supported temporal order q, the value functions in the time basis table are the Lagrange functions of the q+1 equispaced nodes of [0,1]: function i is 1 at node i and 0 at every other node. In particular the first is 1 (all others 0) at the slab's start and the last is 1 (all others 0) at the slab's end, which is what the slab coupling relies on.", "quantifier": "all supported orders and all node pairs", "why_tests_cant": "A test evaluates a few nodes in floating point; the claim is an exact identity for every order and node.", "anchors": ["src/dxss/precomp_time_int.py:basis_in_time"]}
{"id": "C02", "title": "Time basis reproduces polynomials", "statement": "For each supported order q, interpolating any polynomial of degree at most q at the q+1 nodes and summing against the basis gives back that polynomial at every time t; in particular the basis sums to 1 everywhere.", "quantifier": "all polynomials of degree <= q, all real t", "why_tests_cant": "Ranges over a continuum of polynomials and times.", "anchors": ["src/dxss/precomp_time_int.py:basis_in_time"]}
{"id": "C03", "title": "Tabulated time derivatives are the derivatives", "statement": "Every derivative function in the time basis table is the derivative of the matching value function at every real t, and the derivatives of one order sum to zero.", "quantifier": "all orders, all basis functions, all real t", "why_tests_cant": "A finite-difference test samples a few points with truncation error.", "anchors": ["src/dxss/precomp_time_int.py:basis_in_time"]}
{"id": "C04", "title": "Precomputed time matrices are the time integrals", "statement": "Each entry of the six matrices returned by get_elmat_time(q, qstar) equals the integral over [0,1] of the corresponding product of (derivatives of) the callable basis functions, with rows indexed by the test and columns by the trial function.", "quantifier": "all supported pairs (q, qstar) and all entries", "why_tests_cant": "Tests can compare decimals of chosen entries; equality with the Riemann integral is a real-analysis statement.", "anchors": ["src/dxss/precomp_time_int.py:get_elmat_time", "src/dxss/precomp_time_int.py:basis_in_time"]}
{"id": "C05", "title": "Algebraic structure of the time matrices", "statement": "The primal and dual temporal mass matrices are symmetric positive definite; the temporal stiffness matrix is symmetric positive semi-definite with kernel exactly the constants; the convection matrix satisfies discrete integration by parts (D + D^T = end-point evaluation minus start-point evaluation).", "quantifier": "all supported orders and all coefficient vectors", "why_tests_cant": "Definiteness quantifies over all vectors.", "anchors": ["src/dxss/precomp_time_int.py:get_elmat_time"]}
{"id": "C06", "title": "Supported temporal orders", "statement": "get_elmat_time succeeds exactly when both orders are in {0,1,2,3} and then returns exactly six matrices with the advertised shapes; any other order raises KeyError.", "quantifier": "all integer order pairs", "why_tests_cant": "Infinitely many rejected orders.", "anchors": ["src/dxss/precomp_time_int.py:get_elmat_time"]}
{"id": "C07", "title": "Quadrature rules are exact to their order on every interval", "statement": "For the Gauss (1,2,3 points), Gauss-Radau (3 points), Newton-Cotes (2,3 points) and midpoint rules, the sum of t_weights(b-a)[i] * f(current_pts(a,b)[i]) equals the integral of f over [a,b] for every polynomial f up to the rule's order (2n-1, 2n-2, 1/3, 1).", "quantifier": "all a, b, all polynomials up to the degree", "why_tests_cant": "Continuum of intervals and polynomials.", "anchors": ["src/dxss/precomp_time_int.py:QuadRule"]}
{"id": "C08", "title": "The 4- and 5-point Gauss-Radau rules used by the solver", "statement": "The tabulated 4-/5-point Gauss-Radau rules integrate every polynomial of degree <= 6 / <= 8 over [0,1] with error at most 3e-7 times the sum of the absolute coefficients, and integrate constants exactly; they are not exact beyond constants because of the 6-digit tables.", "quantifier": "all polynomials of degree <= 6 / 8", "why_tests_cant": "Continuum of polynomials; tests only show a few integrands.", "anchors": ["src/dxss/precomp_time_int.py:QuadRule", "src/dxss/space_time.py:SpaceTime.__init__"]}
{"id": "C09", "title": "Quadrature nodes and weights are admissible", "statement": "For every available rule and every a<b: as many points as weights, every point in [a,b], every weight positive, weights summing to b-a; the first Gauss-Radau node is a itself and no node is b.", "quantifier": "all rules, all a<b", "why_tests_cant": "Continuum of intervals.", "anchors": ["src/dxss/precomp_time_int.py:QuadRule"]}
{"id": "C10", "title": "Quadrature rule selection", "statement": "Constructing a rule succeeds exactly for the tabulated (name, npoints) pairs; a known name with an untabulated number of points raises KeyError (ZeroDivisionError for one-point Newton-Cotes); an unknown name builds an object whose current_pts and t_weights return None for every argument.", "quantifier": "all names and point counts", "why_tests_cant": "Infinitely many inputs.", "anchors": ["src/dxss/precomp_time_int.py:QuadRule"]}
{"id": "C11", "title": "Lifting polynomial for the time reconstruction", "statement": "theta_ref is 1 at -1, 0 at 0 and at 1, and d_theta_ref is its derivative at every real argument.", "quantifier": "all real arguments", "why_tests_cant": "Derivative identity over the reals.", "anchors": ["src/dxss/precomp_time_int.py:theta_ref", "src/dxss/precomp_time_int.py:d_theta_ref"]}
{"id": "C12", "title": "The assembled form is the space-time variational form", "statement": "In the default mode the bilinear form assembled by get_spacetime_matrix is, for all discrete trial and test functions, the sum over slabs of the time integrals of the wave operator tested with the dual variables, its adjoint, data term, dual and primal stabilisation, plus the inter-slab jump terms, plus a 1e-20 perturbation.", "quantifier": "all N, q, qstar, meshes, stabilisation weights, trial and test functions", "why_tests_cant": "Equality of two bilinear forms on spaces of every size.", "anchors": ["src/dxss/space_time.py:SpaceTime.setup_spacetime_matrix"]}
{"id": "C13", "title": "Symmetry of the space-time matrix", "statement": "The space-time matrix without the preconditioner option is symmetric up to the explicit 1e-20 entry block between the first primal and the first dual component, in every problem mode.", "quantifier": "all N, orders, modes, meshes, and pairs of vectors", "why_tests_cant": "Quantifies over all matrix sizes.", "anchors": ["src/dxss/space_time.py:SpaceTime.setup_spacetime_matrix"]}
{"id": "C14", "title": "Saddle-point sign structure", "statement": "Testing the assembled operator with (u, -z) for trial (u, z) yields data misfit plus primal stabilisation (a sum of squares, >= 0) plus dual stabilisation (>= 0), up to the 1e-20 term; consequently with positive weights any kernel element of the unperturbed operator has zero dual part and zero stabilisation residuals.", "quantifier": "all discrete functions, meshes, N, orders, nonnegative weights", "why_tests_cant": "Positivity over all vectors.", "anchors": ["src/dxss/space_time.py:SpaceTime.setup_spacetime_matrix"]}
{"id": "C15", "title": "Forms are well formed for every discretisation", "statement": "Every term of every bilinear form built by the solver has exactly one trial and one test factor of matching tensor shape and refers only to components that exist in the function space, for every number of slabs and orders.", "quantifier": "all N, q, qstar and modes", "why_tests_cant": "Unbounded N.", "anchors": ["src/dxss/space_time.py:SpaceTime.setup_spacetime_matrix", "src/dxss/space_time.py:SpaceTime.setup_slab_matrix", "src/dxss/space_time.py:SpaceTime.setup_coupling_matrix_between_slices", "src/dxss/space_time.py:SpaceTime.setup_scaled_mass_matrix_between_slices"]}
{"id": "C16", "title": "Dropping small Nitsche coefficients is harmless", "statement": "Skipping the boundary-flux terms whose time coefficient is below 1e-10 never changes the form: every skipped coefficient is exactly zero.", "quantifier": "all supported order pairs, all entries, all functions", "why_tests_cant": "Exactness, not closeness, of dropped coefficients.", "anchors": ["src/dxss/space_time.py:SpaceTime.setup_spacetime_matrix", "src/dxss/space_time.py:SpaceTime.setup_slab_matrix"]}
{"id": "C17", "title": "Slab coupling structure", "statement": "The space-time form only couples equal or adjacent slabs; with the preconditioner option (and no jumps in the forward problem) a slab's equations involve only that slab and the one before it.", "quantifier": "all N, slab pairs, functions", "why_tests_cant": "Unbounded number of slabs.", "anchors": ["src/dxss/space_time.py:SpaceTime.setup_spacetime_matrix"]}
{"id": "C18", "title": "Right-hand side is consistent with the data term", "statement": "If the supplied solution coincides at the quadrature points with a discrete function in time, the assembled right-hand side equals the data term of the space-time form applied to that function, up to the error of the time quadrature (<= 3e-7 relative to coefficient size) and the 1e-20 term.", "quantifier": "all discrete functions and test functions, N, q", "why_tests_cant": "Continuum of data.", "anchors": ["src/dxss/space_time.py:SpaceTime.setup_rhs"]}
{"id": "C19", "title": "Stabilisation vanishes on exact discrete waves", "statement": "If a discrete function satisfies, at the spatial quadrature points and for all times, u2 = d/dt u1 and d/dt u2 = Laplace u1, vanishes on the boundary, has no gradient jumps and no jumps between slabs, then the primal stabilisation tested with anything is zero.", "quantifier": "all such functions, all test functions", "why_tests_cant": "Continuum of functions.", "anchors": ["src/dxss/space_time.py:SpaceTime.setup_spacetime_matrix"]}
{"id": "C20", "title": "Matrix-free application equals the assembled matrix", "statement": "In the default mode, apply_spacetime_matrix(x, y) leaves in y the product of the assembled space-time matrix with x, up to an explicit 1e-20-weighted term, for every vector x.", "quantifier": "all vectors, N >= 1, orders, meshes, dof numberings", "why_tests_cant": "Quantifies over all vectors and all sizes.", "anchors": ["src/dxss/space_time.py:SpaceTime.apply_spacetime_matrix", "src/dxss/space_time.py:SpaceTime.get_spacetime_matrix", "src/dxss/space_time.py:SpaceTimePETScMatrixWrapper.mult"]}
{"id": "C21", "title": "Matrix-free application in the other problem modes", "statement": "The matrix-free application also agrees with the assembled matrix when jumps_in_fw_problem or well_posed is set (up to 1e-20-size terms).", "quantifier": "all modes, vectors", "why_tests_cant": "All vectors and modes.", "anchors": ["src/dxss/space_time.py:SpaceTime.apply_spacetime_matrix", "src/dxss/space_time.py:SpaceTime.setup_spacetime_matrix"]}
{"id": "C22", "title": "Matrix-free application is a pure linear map of its input", "statement": "The result depends only on the input vector (not on earlier calls or the old content of the output), is linear, leaves the input and all other vectors unchanged.", "quantifier": "all call histories, vectors, scalars", "why_tests_cant": "All histories.", "anchors": ["src/dxss/space_time.py:SpaceTime.apply_spacetime_matrix"]}
{"id": "C23", "title": "Aliased matrix-free application", "statement": "Calling apply_spacetime_matrix with the same vector as input and output still returns the product of the matrix with the original content.", "quantifier": "all vectors", "why_tests_cant": "All vectors.", "anchors": ["src/dxss/space_time.py:SpaceTime.apply_spacetime_matrix"]}
{"id": "C24", "title": "Time marching inverts the preconditioning matrix", "statement": "With exact slab solvers and no jumps in the forward problem, pre_time_marching(b, x) produces x with P x = b where P is the assembled matrix with precond=True, up to 1e-20-weighted terms, in both the standard and the well-posed mode.", "quantifier": "all right-hand sides, N, orders, meshes", "why_tests_cant": "All vectors and sizes; induction over slabs.", "anchors": ["src/dxss/space_time.py:SpaceTime.pre_time_marching"]}
{"id": "C25", "title": "Improved time marching inverts the preconditioning matrix", "statement": "Same as for pre_time_marching for pre_time_marching_improved (the routine GMRES uses); the two routines give the same result up to the effect of the 1e-20 right-hand-side term.", "quantifier": "all right-hand sides, N, orders, meshes", "why_tests_cant": "All vectors and sizes.", "anchors": ["src/dxss/space_time.py:SpaceTime.pre_time_marching_improved", "src/dxss/space_time.py:SpaceTimePETScPreconditionerWrapper.apply"]}
{"id": "C26", "title": "The preconditioner is a fixed linear operator", "statement": "For linear slab solvers, the improved preconditioner is linear and its result depends only on its input, not on previous applications, previous content of the output or other solver activity: what GMRES needs from a preconditioner.", "quantifier": "all histories, vectors, scalars", "why_tests_cant": "All histories.", "anchors": ["src/dxss/space_time.py:SpaceTime.pre_time_marching_improved"]}
{"id": "C27", "title": "In-place preconditioning is safe", "statement": "Calling either time-marching routine with the same vector as right-hand side and solution gives the same result as with distinct vectors; with distinct vectors the right-hand side is unchanged.", "quantifier": "all vectors", "why_tests_cant": "All vectors.", "anchors": ["src/dxss/space_time.py:SpaceTime.pre_time_marching", "src/dxss/space_time.py:SpaceTime.pre_time_marching_improved"]}
{"id": "C28", "title": "Improved time marching refuses jumps in the forward problem", "statement": "With jumps_in_fw_problem set, pre_time_marching_improved raises ValueError whatever the state, and changes nothing.", "quantifier": "all states and vectors", "why_tests_cant": "All states.", "anchors": ["src/dxss/space_time.py:SpaceTime.pre_time_marching_improved"]}
{"id": "C29", "title": "Causality of time marching", "statement": "The part of the time-marching result on slabs 0..n depends only on the right-hand side on slabs 0..n.", "quantifier": "all n, all pairs of right-hand sides", "why_tests_cant": "All vectors and slab counts.", "anchors": ["src/dxss/space_time.py:SpaceTime.pre_time_marching_improved", "src/dxss/space_time.py:SpaceTime.pre_time_marching"]}
{"id": "C30", "title": "The documented call order works in every later history", "statement": "After construction (default mode), setup_spacetime_finite_elements and prepare_precondition_gmres, no later sequence of public calls (successful or failing) can make apply_spacetime_matrix fail or return anything but the matrix product.", "quantifier": "all later call sequences", "why_tests_cant": "All histories.", "anchors": ["src/dxss/space_time.py:SpaceTime"]}
{"id": "C31", "title": "The preconditioner is available however the object was prepared", "statement": "After prepare_precondition_gmres and setting both slab solvers, the improved preconditioner runs without error regardless of which getters were called before preparing.", "quantifier": "all call histories", "why_tests_cant": "All histories.", "anchors": ["src/dxss/space_time.py:SpaceTime.prepare_precondition_gmres", "src/dxss/space_time.py:SpaceTime.get_slab_matrix"]}
{"id": "C32", "title": "GMRES can be run in the well-posed mode", "statement": "With well_posed=True there is an order of public set-up calls after which both the matrix-free application and the improved preconditioner work.", "quantifier": "all call sequences", "why_tests_cant": "All histories.", "anchors": ["src/dxss/space_time.py:SpaceTime.prepare_precondition_gmres", "src/dxss/space_time.py:SpaceTime.apply_spacetime_matrix"]}
{"id": "C33", "title": "get_spacetime_matrix honours its precond argument", "statement": "get_spacetime_matrix(precond) / get_spacetime_bfi(precond) return the matrix/form for the requested precond value at every call.", "quantifier": "all call sequences", "why_tests_cant": "Depends on history.", "anchors": ["src/dxss/space_time.py:SpaceTime.get_spacetime_matrix", "src/dxss/space_time.py:SpaceTime.get_spacetime_bfi"]}
{"id": "C34", "title": "Getters are stable", "statement": "Once a getter has returned a matrix, form or vector, every later call in every history returns the same object content (for the right-hand side: until setup_rhs is called again or the caller writes to it), and matrix and form returned always belong to the same assembly; the first-slab matrix is the jump-free one exactly in the non-well-posed mode.", "quantifier": "all call sequences", "why_tests_cant": "All histories.", "anchors": ["src/dxss/space_time.py:SpaceTime"]}
{"id": "C35", "title": "The user's data domain is used", "statement": "The indicator function supplied in DataDomain determines the data term of matrix and right-hand side.", "quantifier": "all indicator functions, fitted or not", "why_tests_cant": "All inputs.", "anchors": ["src/dxss/space_time.py:SpaceTime.__init__"]}
{"id": "C36", "title": "Measuring errors does not disturb the problem", "statement": "measured_errors and plot_para_view leave everything later assembled unchanged (in particular the right-hand side built afterwards).", "quantifier": "all histories", "why_tests_cant": "All histories.", "anchors": ["src/dxss/space_time.py:SpaceTime.measured_errors", "src/dxss/space_time.py:SpaceTime.plot_para_view", "src/dxss/space_time.py:SpaceTime.setup_rhs"]}
{"id": "C37", "title": "Start time", "statement": "The start time passed to the constructor shifts the time interval on which the problem is posed.", "quantifier": "all start times", "why_tests_cant": "All inputs.", "anchors": ["src/dxss/space_time.py:SpaceTime.__init__"]}
{"id": "C38", "title": "Missing stabilisation weights", "statement": "If a required stabilisation key is missing, every matrix set-up raises KeyError and no matrix, form or vector of the object changes.", "quantifier": "all weight dictionaries and states", "why_tests_cant": "All states.", "anchors": ["src/dxss/space_time.py:SpaceTime.setup_spacetime_matrix", "src/dxss/space_time.py:SpaceTime.setup_slab_matrix"]}
{"id": "C39", "title": "Set-up order is enforced", "statement": "Before setup_spacetime_finite_elements, every assembling call raises and changes nothing; no such call silently returns a wrong matrix.", "quantifier": "all call sequences without the set-up call", "why_tests_cant": "All histories.", "anchors": ["src/dxss/space_time.py:SpaceTime"]}
{"id": "C40", "title": "Grid transfer acts component by component", "statement": "Prolongation and restriction replace every entry of the output by the spatial interpolation of the matching component, depend on nothing else, are linear for linear interpolation, and restriction after prolongation is the identity when the spatial interpolations are.", "quantifier": "all vectors, N, orders, meshes", "why_tests_cant": "All vectors and sizes.", "anchors": ["src/dxss/space_time.py:SpaceTime.prolongation", "src/dxss/space_time.py:SpaceTime.restriction", "src/dxss/space_time.py:SpaceTime.q_op"]}
{"id": "C41", "title": "Grid transfer for different primal and dual orders", "statement": "Prolongation and restriction work for every combination of spatial orders k and kstar.", "quantifier": "all k, kstar", "why_tests_cant": "All orders.", "anchors": ["src/dxss/space_time.py:SpaceTime.prolongation", "src/dxss/space_time.py:SpaceTime.restriction"]}
{"id": "C42", "title": "Two-level preconditioner", "statement": "After preparing the coarse grid correction and all solvers, pre_twolvl(b, x) runs and yields coarse correction plus time marching of the remaining residual.", "quantifier": "all states, vectors", "why_tests_cant": "All states.", "anchors": ["src/dxss/space_time.py:SpaceTime.pre_twolvl", "src/dxss/space_time.py:SpaceTime.q_op"]}
{"id": "C43", "title": "Every error sample time is evaluated", "statement": "measured_errors evaluates the error at each of its 105 sample times in [0,T] at least once (so the maxima are over non-empty lists and include the final time).", "quantifier": "all T > 0, N >= 1 (exact and IEEE double arithmetic)", "why_tests_cant": "All N and T.", "anchors": ["src/dxss/space_time.py:SpaceTime.measured_errors"]}
{"id": "C44", "title": "The time reconstruction is continuous", "statement": "The function whose error measured_errors samples takes the same value at a slab interface from both sides, agrees with the discrete solution at each slab's end, and the sampled derivative is its time derivative.", "quantifier": "all discrete solutions, N, orders, interfaces", "why_tests_cant": "All vectors.", "anchors": ["src/dxss/space_time.py:SpaceTime.measured_errors", "src/dxss/precomp_time_int.py:theta_ref"]}
{"id": "C45", "title": "Meaning of the reported L-infinity error", "statement": "The reported L-infty-L2 error of u is the maximum over the 105 sample times of the L2 error of one continuous-in-time reconstruction; double evaluation at interfaces does not change it.", "quantifier": "all solutions, N, T", "why_tests_cant": "All vectors.", "anchors": ["src/dxss/space_time.py:SpaceTime.measured_errors"]}
{"id": "C46", "title": "Error measurement is total and nonnegative", "statement": "On any prepared object measured_errors returns all four error measures, all nonnegative, never taking the square root of a negative number; all vanish when reconstruction and exact solution coincide at the quadrature points.", "quantifier": "all vectors, N >= 1, T > 0", "why_tests_cant": "All vectors.", "anchors": ["src/dxss/space_time.py:SpaceTime.measured_errors"]}
{"id": "C47", "title": "Plot arrays are aligned", "statement": "plot and plot_error build a strictly increasing list of N*n_time_subdiv times, row r of the value array holds the discrete solution (and its time derivative) at time r of that list, and error rows hold its distance to the exact solution at the same time and point. plot_para_view writes the absolute differences of both components from the exact solution and its derivative at the final time.", "quantifier": "all N, n_time_subdiv, n_space >= 1, solutions", "why_tests_cant": "All sizes.", "anchors": ["src/dxss/space_time.py:SpaceTime.plot", "src/dxss/space_time.py:SpaceTime.plot_error"]}
{"id": "C48", "title": "GMRES never returns an unconverged solution", "statement": "get_gmres_solution returns a pair only if the linear solver reports a nonnegative convergence reason, returns exactly the solver's vector and residual, and raises PETSc.Error otherwise.", "quantifier": "all solver outcomes", "why_tests_cant": "All outcomes of the external solver.", "anchors": ["src/dxss/gmres.py:get_gmres_solution"]}
{"id": "C49", "title": "GMRES configuration", "statement": "The tolerances, restart length and iteration limit used are exactly those passed (including zero) and the documented defaults when omitted; the monitor is installed exactly when printrates is set; operator and preconditioner are installed before solving.", "quantifier": "all argument combinations", "why_tests_cant": "All inputs.", "anchors": ["src/dxss/gmres.py:get_gmres_solution"]}
{"id": "C50", "title": "Sparse export preserves the operator", "statement": "get_sparse_matrix represents the same linear operator entry by entry; its shape agrees with the original exactly when the last column holds a stored entry.", "quantifier": "all CSR matrices", "why_tests_cant": "All matrices.", "anchors": ["src/dxss/space_time.py:get_sparse_matrix"]}
{"id": "C51", "title": "Slab solver adapter", "statement": "PySolver.solve writes the back-substitution result for its own matrix into every entry of the output and leaves the right-hand side alone; constructing it warns exactly when PyPardiso is missing.", "quantifier": "all vectors and solvers", "why_tests_cant": "All inputs.", "anchors": ["src/dxss/solve_1d.py:PySolver", "src/dxss/solve_2d.py:PySolver", "src/dxss/solve_3d.py:PySolver"]}
{"id": "C52", "title": "Problem parameters unpack in order", "statement": "Unpacking a ProblemParameters object yields (jumps_in_fw_problem, well_posed) in that order for all values, so a SpaceTime runs in the mode the user requested.", "quantifier": "all parameter values", "why_tests_cant": "All inputs (finite), all constructor paths.", "anchors": ["src/dxss/space_time.py:ProblemParameters"]}
{"id": "C53", "title": "Data-domain indicators of the drivers", "statement": "The indicator functions in the example drivers return 1 exactly on the data domain and 0 elsewhere for every list of points; the unfitted and fitted 3D variants agree away from the interface.", "quantifier": "all point lists", "why_tests_cant": "Continuum of points.", "anchors": ["src/dxss/solve_1d.py:omega_ind_convex", "src/dxss/solve_1d.py:omega_ind_nogcc", "src/dxss/solve_2d.py:omega_ind_convex", "src/dxss/solve_3d.py:omega_ind"]}
{"id": "C54", "title": "Manufactured solutions", "statement": "In 1D, 2D and 3D drivers the sample solution solves the wave equation, vanishes on the boundary of the unit cube, and the supplied time derivative is its time derivative.", "quantifier": "all times and points", "why_tests_cant": "Continuum.", "anchors": ["src/dxss/solve_1d.py:sample_sol", "src/dxss/solve_2d.py:sample_sol", "src/dxss/solve_3d.py:sample_sol"]}
{"id": "C55", "title": "Driver dispatch", "statement": "solve_problem returns a solution of the assembled problem for every solver choice and leaves the right-hand side intact.", "quantifier": "all solver choices and outcomes", "why_tests_cant": "All outcomes.", "anchors": ["src/dxss/solve_1d.py:solve_problem", "src/dxss/solve_2d.py:solve_problem", "src/dxss/solve_3d.py:solve_problem"]}
{"id": "C56", "title": "Mesh hierarchies", "statement": "get_mesh_hierarchy*(n_ref), get_mesh_data_all_around and the 3D variant return n_ref+1 meshes, the first the initial mesh, each next the refinement of the previous; get_mesh_convex returns n_ref meshes with scale factors halving each time.", "quantifier": "all n_ref, meshes", "why_tests_cant": "All n_ref.", "anchors": ["src/dxss/meshes.py:get_mesh_hierarchy", "src/dxss/meshes.py:get_mesh_hierarchy_nonconvex", "src/dxss/meshes.py:get_mesh_hierarchy_fitted_disc", "src/dxss/meshes.py:get_mesh_data_all_around", "src/dxss/meshes.py:get_mesh_convex", "src/dxss/meshes.py:get_3d_mesh_data_all_around"]}
{"id": "C57", "title": "Node numbering check in the inclusion meshes", "statement": "get_mesh_inclusion, get_mesh_inclusion_square and get_mesh_bottom_data accept meshes whose node numbers are sequential and reject others.", "quantifier": "all node numberings", "why_tests_cant": "All permutations.", "anchors": ["src/dxss/meshes.py:get_mesh_inclusion", "src/dxss/meshes.py:get_mesh_inclusion_square", "src/dxss/meshes.py:get_mesh_bottom_data"]}
{"id": "C58", "title": "Planar coordinates are extracted correctly", "statement": "From the flat coordinate list (x0,y0,z0,x1,y1,z1,...) the inclusion meshes obtain exactly the pairs (x_i,y_i), placed at the position given by their node number.", "quantifier": "all node lists and numberings", "why_tests_cant": "All lengths.", "anchors": ["src/dxss/meshes.py:get_mesh_inclusion"]}
{"id": "C59", "title": "Refinement marks every cell", "statement": "In the hierarchies on the unit square each refinement refines all cells.", "quantifier": "all meshes in x >= 0", "why_tests_cant": "All meshes.", "anchors": ["src/dxss/meshes.py:get_mesh_hierarchy"]}
{"id": "C60", "title": "gmsh sessions are closed", "statement": "Every mesh function leaves gmsh finalised on every MPI rank.", "quantifier": "all ranks and functions", "why_tests_cant": "All ranks.", "anchors": ["src/dxss/meshes.py"]}
{"id": "C61", "title": "Region and boundary markers", "statement": "Surfaces get the region marker of their centre of mass, each surface in exactly one group, and exactly the lines whose centre lies on the boundary of the unit square are collected as boundary.", "quantifier": "all surface and line lists", "why_tests_cant": "All lists.", "anchors": ["src/dxss/meshes.py:create_initial_mesh_convex", "src/dxss/meshes.py:get_mesh_hierarchy_nonconvex", "src/dxss/meshes.py:get_mesh_data_all_around"]}
{"id": "C62", "title": "The caller's vectors", "statement": "A vector owned by the caller or returned to the caller changes only through a call that has it as its output argument (or a write by the caller), whatever else is called and whether or not the calls raise.", "quantifier": "all call sequences, all vectors", "why_tests_cant": "All histories; a test checks a few vectors after a few calls.", "anchors": ["src/dxss/space_time.py:SpaceTime"]}
{"id": "C63", "title": "GMRES works with two fixed operators", "statement": "Between the set-up and the end of get_gmres_solution the matrix and preconditioner callbacks act as two fixed maps, whatever vectors the solver uses and however often it calls them: the space-time operator of apply_spacetime_matrix and one preconditioner map, linear for linear slab solvers and inverting the preconditioner matrix (up to the 1e-20 term) for exact ones; the right-hand side is not changed.", "quantifier": "all external solver programs, states, histories, N, orders", "why_tests_cant": "The callbacks share scratch vectors and mutable state; only a proof covers all interleavings.", "anchors": ["src/dxss/space_time.py:SpaceTimePETScPreconditionerWrapper", "src/dxss/space_time.py:SpaceTimePETScMatrixWrapper", "src/dxss/gmres.py:get_gmres_solution", "src/dxss/space_time.py:SpaceTime.apply_spacetime_matrix", "src/dxss/space_time.py:SpaceTime.pre_time_marching_improved"]}
{"id": "C64", "title": "Data enter the right-hand side of the drivers", "statement": "In the set-up used by the example drivers (fitted data domain, not well posed) the assembled right-hand side contains the measured data.", "quantifier": "all solutions, indicators, meshes, N, orders", "why_tests_cant": "All data.", "anchors": ["src/dxss/space_time.py:SpaceTime.__init__", "src/dxss/space_time.py:SpaceTime.setup_rhs", "src/dxss/solve_1d.py:solve_problem"]}
{"id": "C65", "title": "Geometries cover their domain", "statement": "The rectangles, discs and boxes of each mesh function together cover exactly its domain: the unit square, the square [-1.5,1.5]^2, or the unit cube.", "quantifier": "all points, interface heights and target rectangles", "why_tests_cant": "Continuum of points and parameters.", "anchors": ["src/dxss/meshes.py:create_initial_mesh_convex", "src/dxss/meshes.py:get_mesh_hierarchy_nonconvex", "src/dxss/meshes.py:get_mesh_hierarchy_fitted_disc", "src/dxss/meshes.py:get_mesh_inclusion", "src/dxss/meshes.py:get_mesh_inclusion_square", "src/dxss/meshes.py:get_mesh_bottom_data", "src/dxss/meshes.py:get_mesh_data_all_around", "src/dxss/meshes.py:get_3d_mesh_data_all_around"]}
{"id": "C66", "title": "Mesh and data domain of the 2D driver", "statement": "The data domain of the 2D driver is the frame its mesh geometry resolves, and every refinement level has a mesh (refined that many times) and a number of slabs 2^level.", "quantifier": "all points of the unit square, levels, meshes", "why_tests_cant": "Continuum of points; all mesh generators.", "anchors": ["src/dxss/solve_2d.py:omega_ind_convex", "src/dxss/meshes.py:get_mesh_data_all_around"]}
{"id": "C67", "title": "Slab problems are uniquely solvable", "statement": "The slab matrix with jump terms has exactly one solution for every right-hand side, so the slab solvers demanded by the preconditioners exist, whenever the mass forms are definite on the quadrature points and the stabilisation weights are positive and their product dominates the regularisation and the primal-dual coupling.", "quantifier": "all accepted parameters, meshes, spaces, numberings, weights, right-hand sides", "why_tests_cant": "Invertibility for all meshes, orders and weights cannot be sampled.", "anchors": ["src/dxss/space_time.py:SpaceTime.setup_slab_matrix", "src/dxss/space_time.py:SpaceTime.get_slab_matrix", "src/dxss/space_time.py:SpaceTime.set_solver_slab"]}
{"id": "C68", "title": "Well-posed space-time problem is uniquely solvable", "statement": "With initial data (well_posed) the space-time matrix has exactly one solution for every right-hand side; so has the matrix used as preconditioner (without jump terms in the forward problem), also in the ill-posed mode as soon as the first slab matrix is invertible.", "quantifier": "all accepted parameters, meshes, spaces, numberings, N, weights, right-hand sides", "why_tests_cant": "Invertibility for all meshes, numbers of slabs and weights cannot be sampled.", "anchors": ["src/dxss/space_time.py:SpaceTime.setup_spacetime_matrix", "src/dxss/space_time.py:SpaceTime.get_spacetime_matrix"]}
{"id": "C69", "title": "Stability of the space-time problem", "statement": "In the energy made of data, dual, primal and jump stabilisation, every discrete function is bounded by its image under the space-time matrix, tested with its dual part negated (factor 2, plus the regularisation times the squared initial value over weight and step; factor 4 and no remainder with initial data). The energy vanishes only for zero once the initial values vanish or are prescribed.", "quantifier": "all accepted parameters, meshes, spaces, numberings, N, weights, vectors", "why_tests_cant": "An inequality for all vectors and meshes, with constants independent of both.", "anchors": ["src/dxss/space_time.py:SpaceTime.setup_spacetime_matrix", "src/dxss/space_time.py:SpaceTime.get_spacetime_matrix"]}
{"id": "C70", "title": "Noise in the measurements is not amplified", "statement": "Two problems that differ only in the measured function have solutions whose squared energy distance is at most 4 times (8 times with initial data, without remainder) the data weight times the squared distance of the measurements at the sampled times and quadrature points, plus the regularisation remainder.", "quantifier": "all pairs of measurement functions, parameters, meshes, N, weights", "why_tests_cant": "Every perturbation of the data on every mesh.", "anchors": ["src/dxss/space_time.py:SpaceTime.setup_rhs", "src/dxss/space_time.py:SpaceTime.get_spacetime_rhs", "src/dxss/space_time.py:SpaceTime.setup_spacetime_matrix"]}
{"id": "C71", "title": "Error of the computed solution", "statement": "The squared energy distance of the computed solution from any discrete function U (dual part zero) is at most 2 times (4 times with initial data, without remainder) the squared residuals of U: misfit with the measurements at the sampled times, wave equation residual, primal stabilisation, jumps, initial data, plus the accuracy of the quadrature weights and the regularisation. A discrete exact wave that produced the data is recovered up to 8e-10 times its data norm and 1e-38 size terms.", "quantifier": "all accepted parameters, meshes, spaces, numberings, N, weights, measurement functions, comparison functions", "why_tests_cant": "A bound for all meshes and all functions; a test sees one error on one mesh.", "anchors": ["src/dxss/space_time.py:SpaceTime.setup_spacetime_matrix", "src/dxss/space_time.py:SpaceTime.setup_rhs", "src/dxss/space_time.py:SpaceTime.get_spacetime_rhs"]}
{"id": "C72", "title": "Without initial data the measurements decide", "statement": "In the ill-posed mode, if the data term and the primal stabilisation control the values at the start (discrete observability), the first slab problem, the space-time problem and the preconditioner have exactly one solution, the slab solvers exist, and stability, noise and error bounds hold without remainder. Measurements on the whole domain control the start with constant g_data*w0*dt^2/16.", "quantifier": "all accepted parameters, meshes, spaces, numberings, N, weights, right-hand sides, constants of control", "why_tests_cant": "Invertibility and bounds for all meshes and data domains cannot be sampled.", "anchors": ["src/dxss/space_time.py:SpaceTime.setup_spacetime_matrix", "src/dxss/space_time.py:SpaceTime.setup_slab_matrix", "src/dxss/space_time.py:SpaceTime.setup_rhs"]}
{"id": "C73", "title": "Drivers work for every setting of their tables", "statement": "For orders 1 to 3 and every entry of the level tables (negative indices included) each driver's constants are accepted, satisfy the conditions for unique slab solves, and its set-up returns a right-hand side; orders above 3, N = 0 and other levels are refused with KeyError, ZeroDivisionError and IndexError. The solver switch takes only its two correct branches. The flag 'fitted' of the 3D driver is set exactly when the mesh resolves the data domain; the 1D meshes always do; in 2D level l has 2^l slabs and the mesh refined l times.", "quantifier": "all orders, levels (any integer), numbers of slabs, both solver availabilities, both values of GCC, all cells and points of the meshes", "why_tests_cant": "The drivers run at import with one hard-coded setting; tests see that one.", "anchors": ["src/dxss/solve_1d.py:STABS", "src/dxss/solve_2d.py:REF_LVL_TO_N", "src/dxss/solve_3d.py:Nxs", "src/dxss/solve_3d.py:SOLVER_TYPE"]}
{"id": "C74", "title": "GMRES needs few steps in exact arithmetic", "statement": "Without jump terms in the forward problem, the operator delivered to GMRES and the matrix inverted by the improved preconditioner agree in all rows except those of the last primal time coefficient of each slab but the last (and the first coefficient in the well-posed mode). With exact slab solvers, and measurements that control the start of a slab, the delivered system has one solution, it lies in the Krylov space of dimension 2 (N-1) dim V + 1 (2 N dim V + 1 when well posed) of the preconditioned operator, and every minimiser of the preconditioned residual over that space, as returned by get_gmres_solution, is that solution.", "quantifier": "all meshes, N, orders, right-hand sides, histories, external solver programs", "why_tests_cant": "All sizes; a statement about Krylov spaces of arbitrary dimension.", "anchors": ["src/dxss/space_time.py:SpaceTime.apply_spacetime_matrix", "src/dxss/space_time.py:SpaceTime.pre_time_marching_improved", "src/dxss/gmres.py:get_gmres_solution"]}
{"id": "C75", "title": "Forms on an interval", "statement": "With continuous piecewise polynomials on any mesh of an interval the spatial products inside all forms are the integrals of products of values, derivatives and second derivatives of the finite element functions, the boundary terms are their end values and outer derivatives, the facet terms the jumps of their derivative; mass forms vanish only for zero.", "quantifier": "all meshes of an interval, degrees, coefficient vectors, exact quadrature rules with positive weights", "why_tests_cant": "All meshes and functions.", "anchors": ["src/dxss/space_time.py:SpaceTime.setup_spacetime_matrix", "src/dxss/solve_1d.py"]}
{"id": "C76", "title": "Unique solvability without any measurement", "statement": "If the spatial elements bound the mean square of a function by its cell-wise Laplacian, boundary penalty and gradient jumps, the primal stabilisation alone determines the discrete solution. In one dimension this bound holds, and all linear systems of solve_1d.py (space-time system, preconditioner, both slab systems) have exactly one solution for orders 1 to 3 and every N up to 10^6 (order 1) or 512 (orders 2, 3), whatever the indicator.", "quantifier": "all orders, N, indicators, numberings, quadrature rules", "why_tests_cant": "All N and data domains.", "anchors": ["src/dxss/solve_1d.py", "src/dxss/space_time.py:SpaceTime.get_precond_spacetime", "src/dxss/space_time.py:SpaceTime.setup_spacetime_matrix"]}
{"id": "C77", "title": "Solution of the drivers when no data reach the right-hand side", "statement": "The operator delivered to GMRES is bounded below in the energy. With the right-hand side that a fitted data domain produces, the solution is zero up to a bound of order 1e-20 times powers of N, and the errors reported by solve_1d.py at the final time and in the maximum are 1/sqrt(2), the norm of the exact solution, for every order and N in the range.", "quantifier": "all orders, N, numberings, rules, solvers that solve the system", "why_tests_cant": "All N; a test would show one number and not that it never improves.", "anchors": ["src/dxss/solve_1d.py", "src/dxss/space_time.py:SpaceTime.__init__", "src/dxss/space_time.py:SpaceTime.measured_errors"]}
{"id": "C78", "title": "The project's tests, for all inputs", "statement": "The assertion of each test holds whatever random numbers it draws: test_get_gmres_solution for every dimension, both matrices and every right-hand side, test_slab_problem in 2D and 3D for every input vector, the skipped test_spacetime_solve for every input vector, the tests of ProblemParameters, and the smoke test of solve_1d.py for every order and number of slabs.", "quantifier": "all dimensions, right-hand sides, input vectors, external solvers meeting their contract", "why_tests_cant": "The tests draw one random vector each.", "anchors": ["tests/test_gmres.py", "tests/test_slab_solver_2d.py", "tests/test_slab_solver_3d.py", "tests/test_spacetime_parameters.py", "tests/test_solve_1d_smoke.py"]}
{"id": "C79", "title": "Several SpaceTime objects in one program", "statement": "A call on one object changes no other object and none of the shared arguments, and a constructor that raises changes nothing. As long as nobody assigns to an object's DataDomain or weights, and a fitted domain is used on one mesh only, the object behaves as if it were alone, however many others share its arguments. A fitted DataDomain loses the caller's indicator for good: marking it unfitted later gives an object without data. A changed weight does not reach a stored matrix.", "quantifier": "all programs (histories of constructors, calls and assignments), parameters, meshes, indicators", "why_tests_cant": "Interleavings of any number of objects, shared by reference, cannot be enumerated.", "anchors": ["src/dxss/space_time.py:SpaceTime.__init__", "src/dxss/space_time.py:DataDomain"]}
{"id": "C80", "title": "Convergence of the computed solution on an interval", "statement": "For every smooth solution of the wave equation on an interval with zero boundary values, the vector solving the assembled space-time system differs from its nodal interpolant by at most a constant times the interpolation rate in the energy norm of the method, plus the guard terms of size 1e-20; the misfit in the data domain obeys the same bound. For solve_1d.py with its exact solution and mesh the bound is explicit for orders 1 to 3, and doubling N divides the rate by 2^order.", "quantifier": "all smooth waves, meshes, orders, numbers of slabs, indicators, numberings, rules exact to the needed degree", "why_tests_cant": "Convergence is a statement on all refinements; a test sees a few.", "anchors": ["src/dxss/solve_1d.py", "src/dxss/space_time.py:SpaceTime.setup_spacetime_matrix", "src/dxss/space_time.py:SpaceTime.setup_rhs"]}
{"id": "C81", "title": "PyPardiso as an optional dependency, in any session", "statement": "Whether or not PyPardiso is installed, a driver module always chooses a solver it has, the PySolver objects of the drivers never warn, and each test of test_dxss.py passes and leaves later tests unaffected, whatever was imported and tested before in the same process.", "quantifier": "all sessions (sequences of imports and tests), installed or not", "why_tests_cant": "Test order and import history are fixed in any one run.", "anchors": ["tests/test_dxss.py", "tests/test_solve_1d_smoke.py", "src/dxss/solve_1d.py:PySolver", "src/dxss/solve_2d.py:PySolver", "src/dxss/solve_3d.py:PySolver"]}
{"id": "C82", "title": "Convergence of the reported errors", "statement": "The system delivered to GMRES (slab by slab, with its 1e-20 products) obeys the convergence bound of the assembled system as soon as the energy controls the values on each slab. If the measurements cover the interval, the errors that measured_errors reports at the final time, in the maximum over the 105 samples, and for the time derivative, are bounded by the square root of that bound times explicit powers of the step. For solve_1d.py with an unfitted indicator equal to 1 the set-up succeeds, the system has one solution, and the reported errors obey explicit bounds of order N^(1/2-order) and N^(3/2-order) plus a floor from the rounded time quadrature, for orders 1 to 3 and every N up to 10^9; for any indicator the energy and the error in the data domain do, in the range of C76.", "quantifier": "all smooth waves, meshes, orders, N, indicators, numberings, rules, solvers that solve the system", "why_tests_cant": "Reported numbers for all N and all solvers; a test shows a few levels.", "anchors": ["src/dxss/space_time.py:SpaceTime.measured_errors", "src/dxss/space_time.py:SpaceTime.apply_spacetime_matrix", "src/dxss/solve_1d.py"]}
{"id": "C83", "title": "Which calls succeed, after any history", "statement": "For a SpaceTime object with admissible parameters and any sequence of public calls on it, whether a further call returns or raises, and which exception, is decided by a finite automaton on the set of attributes that exist. In particular: every set-up call succeeds exactly when setup_spacetime_finite_elements has been called; the operator, the two preconditioners, and the transfer and coarse-level operations succeed exactly when the named earlier calls were made (after the function spaces); only ValueError, TypeError, RuntimeError and AttributeError occur, each in its stated circumstances; a call that once succeeds succeeds ever after.", "quantifier": "all call sequences, parameters, meshes, answering solvers and fitting coarse spaces", "why_tests_cant": "Infinitely many histories; tests run two or three fixed orders.", "anchors": ["src/dxss/space_time.py:SpaceTime"]}
{"id": "C84", "title": "Runs on several processes", "statement": "On any number of MPI processes the matrices, the right-hand side, the copies between slab and space-time vectors and the loading of a solution are each process's share of what one process computes, and the error norms are those of the whole mesh.", "quantifier": "all meshes, distributions over processes, numberings, N, orders, vectors", "why_tests_cant": "All distributions; the tests run on one process.", "anchors": ["src/dxss/space_time.py:SpaceTime.setup_rhs", "src/dxss/space_time.py:SpaceTime.apply_spacetime_matrix", "src/dxss/space_time.py:SpaceTime.pre_time_marching", "src/dxss/space_time.py:SpaceTime.pre_time_marching_improved", "src/dxss/space_time.py:SpaceTime.measured_errors"]}
{"id": "C85", "title": "Seeds of the tests", "statement": "The numbers given with --seed (by default one fixed number) are the seeds of all random numbers in the tests: each test that draws is run once per seed and combination of its parameters, and what it draws depends on the seed alone.", "quantifier": "all command lines, seeds, states of the system's entropy", "why_tests_cant": "The tests never vary their own command line.", "anchors": ["tests/conftest.py:pytest_addoption", "tests/conftest.py:pytest_generate_tests", "tests/conftest.py:rng", "tests/test_gmres.py:test_get_gmres_solution", "tests/test_slab_solver_2d.py:test_slab_problem"]}
{"id": "C86", "title": "Time marching with jump terms", "statement": "With exact slab solvers and jump terms in the forward problem, pre_time_marching solves with the assembled preconditioning matrix, up to the 1e-20 regularisation.", "quantifier": "all accepted parameters, meshes and spaces, histories of calls, right-hand sides", "why_tests_cant": "The tests march only with GMRES around it and never compare with the assembled matrix; the jump terms are switched on in few of them.", "anchors": ["src/dxss/space_time.py:SpaceTime.pre_time_marching", "src/dxss/space_time.py:SpaceTime.setup_slab_matrix", "src/dxss/space_time.py:SpaceTime.setup_spacetime_matrix"]}
{"id": "C87", "title": "Convergence log", "statement": "With printrates, get_gmres_solution prints one line per call of the monitor; reading a line back gives the iteration number and the residual norm to within half a per cent, as near as three digits can; larger residuals never print as smaller ones; lines below iteration 1000 are equally long. Then come the reason code and, on failure, the number of iterations.", "quantifier": "all doubles that can be a norm, iteration numbers, settings, outcomes", "why_tests_cant": "The tests never read what is printed.", "anchors": ["src/dxss/gmres.py:convergence_monitor", "src/dxss/gmres.py:get_gmres_solution"]}
{"id": "C88", "title": "Distribution of the solver's vectors", "statement": "On any number of MPI processes the shell matrix that get_gmres_solution creates has on each process as many rows as the right-hand side has entries there, so ksp.solve accepts the two.", "quantifier": "all numbers of processes, distributions of the mesh, orders, slab counts", "why_tests_cant": "The tests run on one process.", "anchors": ["src/dxss/gmres.py:get_gmres_solution", "src/dxss/solve_1d.py:solve_problem"]}
{"id": "C89", "title": "Evaluation in time with doubles", "statement": "In double arithmetic the time basis functions differ from their exact values by at most 2^-44 and their derivatives by at most 2^-43 at every double in [-5/4, 5/4]; a local coordinate turned into a time of slab n and back is off by at most (n+11) 2^-53; times accepted by the slab test have coordinates in [0, 1 + (n+10) 2^-53]; so measured_errors and the plots use basis values that are off by at most (n+15) 2^-45, and values of the lifting theta_ref by at most (72n+430) 2^-53. The quadrature points used lie in [0, 1]. With powers of two for T and N and short binary coordinates there is no error. At slab ends the basis is nodal up to one unit in the last place.", "quantifier": "all doubles T, coordinates, numbers of slabs up to 2^50, orders", "why_tests_cant": "The tests compare norms of a few runs with coarse tolerances.", "anchors": ["src/dxss/precomp_time_int.py:basis_in_time", "src/dxss/precomp_time_int.py:theta_ref", "src/dxss/precomp_time_int.py:d_theta_ref", "src/dxss/precomp_time_int.py:QuadRule.current_pts", "src/dxss/space_time.py:SpaceTime.measured_errors", "src/dxss/space_time.py:SpaceTime.plot_error"]}
{"id": "C90", "title": "Reported errors in doubles", "statement": "In double arithmetic, for any differences (nan and infinities included) and positive weights, measured_errors fails only if there is no sample time: no sum of squares is negative. A nan difference always shows in the reported numbers. Without overflow and underflow every reported norm equals the exact one up to one relative rounding per operation, whatever cancels. A zero is reported only if all differences are zero.", "quantifier": "all meshes, numbers of points, cells, slabs and samples, all doubles as differences", "why_tests_cant": "The tests compare a few norms with coarse tolerances; no test contains nan, overflow or underflow.", "anchors": ["src/dxss/space_time.py:SpaceTime.measured_errors"]}
{"id": "C91", "title": "PyPardiso on several processes", "statement": "The sparse export of a distributed matrix on a rank has the entries of the rank's rows, and the PyPardiso set-up of the drivers (export, then factorize) accepts it on every rank.", "quantifier": "all matrices, all distributions of the rows over any number of processes", "why_tests_cant": "The tests run on one process, where rows and columns of the export have the same range.", "anchors": ["src/dxss/space_time.py:get_sparse_matrix", "src/dxss/solve_1d.py:solve_problem", "src/dxss/solve_2d.py:solve_problem", "src/dxss/solve_3d.py:solve_problem"]}
{"id": "C92", "title": "The system operator in doubles", "statement": "In double arithmetic every entry of the result of apply_spacetime_matrix is the exact one up to one relative rounding per operation and a least underflow per product; it does not depend on the scratch vectors; a value read that is not finite shows in the result, a nan as a nan; the operator is additive.", "quantifier": "all layouts, numbers of slabs, sparse slab and coupling matrices and vectors of doubles, nan and infinities included", "why_tests_cant": "The tests compare a few norms with coarse tolerances; none looks at the operator itself, at rounding or at values that are not finite.", "anchors": ["src/dxss/space_time.py:SpaceTime.apply_spacetime_matrix"]}
{"id": "C93", "title": "What is printed", "statement": "Printing changes no result.  The initial-data, form and assembly lines appear exactly when the matrix or the right-hand side is put together, and a failing call prints a first part of them; measured_errors prints the errors it returns, with verbose=True one row per slab and sample time in it; the lines of a GMRES run are the reported norms, the reason and on failure the iterations; a driver prints solver lines, time, errors and memory in this order, and the memory only if it succeeds.", "quantifier": "all discretisations, states, sessions of calls, external solvers, options, drivers and solver types; one process", "why_tests_cant": "No test reads the output; a print in the wrong place, with the wrong number or only sometimes would pass.", "anchors": ["src/dxss/space_time.py:SpaceTime.measured_errors", "src/dxss/space_time.py:SpaceTime.setup_spacetime_matrix", "src/dxss/space_time.py:SpaceTime.setup_rhs", "src/dxss/gmres.py:get_gmres_solution", "src/dxss/solve_1d.py:solve_problem", "src/dxss/solve_3d.py:solve_problem"]}
{"id": "C94", "title": "Vectors of the wrong length", "statement": "With vectors of at least the dimension of the space the operator, the preconditioners and the grid transfers act as on vectors of exactly that dimension; what lies beyond it is set to zero by apply_spacetime_matrix and kept by the others.  With a shorter vector every call that would have returned raises IndexError, after the slabs that fit have been worked through and stored.  measured_errors, plot, plot_error and plot_para_view refuse every other length with ValueError and leave the object as it was, except that a vector with a single entry is taken for a constant one.", "quantifier": "all discretisations, states, calls and lengths; one process", "why_tests_cant": "The tests pass vectors of the right length only; nothing in the code compares lengths, so the behaviour comes from index lists and numpy's rules.", "anchors": ["src/dxss/space_time.py:SpaceTime.apply_spacetime_matrix", "src/dxss/space_time.py:SpaceTime.pre_time_marching", "src/dxss/space_time.py:SpaceTime.pre_time_marching_improved", "src/dxss/space_time.py:SpaceTime.prolongation", "src/dxss/space_time.py:SpaceTime.restriction", "src/dxss/space_time.py:SpaceTime.q_op", "src/dxss/space_time.py:SpaceTime.measured_errors", "src/dxss/space_time.py:SpaceTime.plot", "src/dxss/space_time.py:SpaceTime.plot_para_view"]}
{"id": "C95", "title": "Commands gmsh refuses", "statement": "In a closed gmsh session the commands of get_mesh_data_all_around and get_mesh_inclusion are all accepted; those of the functions with parameters are refused exactly for the values listed, among them the default arguments of get_mesh_inclusion_square; the functions that mark surfaces by their centre are refused exactly when two surfaces fall into one class.  Once a session with a boundary group has been left open, as by a failed get_mesh_inclusion, every later hierarchy on rank 0 fails and the session stays open; after get_3d_mesh_data_all_around has returned, calling it again fails.  Where nothing is refused the functions are those of the other properties.", "quantifier": "all answers of gmsh, all parameters, sequences of calls of any length", "why_tests_cant": "No test calls a mesh function twice in one session, or any of them with other arguments than one; the refusals depend on the tags left in gmsh by earlier calls.", "anchors": ["src/dxss/meshes.py:get_mesh_inclusion_square", "src/dxss/meshes.py:get_mesh_inclusion", "src/dxss/meshes.py:get_mesh_bottom_data", "src/dxss/meshes.py:get_mesh_hierarchy", "src/dxss/meshes.py:get_mesh_hierarchy_nonconvex", "src/dxss/meshes.py:get_mesh_hierarchy_fitted_disc", "src/dxss/meshes.py:get_mesh_data_all_around", "src/dxss/meshes.py:get_3d_mesh_data_all_around", "src/dxss/meshes.py:create_initial_mesh_convex"]}
{"id": "C96", "title": "Quadrature degree and the order of the dual space", "statement": "The degree of the dx rule is 2k+3 whatever kstar is.  u2 and z2 enter every form through their values at the dx points only: if a nonzero function of either space vanishes there, the space-time matrix, its preconditioner and all slab matrices are singular, no solver answers every right-hand side, and the function can be added to the solution unnoticed.  Otherwise the slab systems and, with initial data, the space-time system have exactly one solution.  On an interval with k+2 points per cell the first case is exactly kstar >= k + 2.", "quantifier": "all discretisations, orders, weights, numbers of slabs, meshes of an interval, rules of degree 2k+3 with k+2 points", "why_tests_cant": "Singularity is a statement about all vectors; the tests use kstar <= k only.", "anchors": ["src/dxss/space_time.py:SpaceTime.__init__", "src/dxss/space_time.py:SpaceTime.setup_spacetime_matrix", "src/dxss/space_time.py:SpaceTime.setup_slab_matrix", "src/dxss/space_time.py:SpaceTime.setup_rhs"]}
{"id": "C97", "title": "Improved preconditioner in double precision", "statement": "In doubles every slab of the result of pre_time_marching_improved is exactly what the slab solver returns for its right-hand side: the entries of b (copied without rounding, -0 becomes 0) plus, for the first primal component of a later slab, a row of the scaled mass matrix times the end of the slab before.  These equations determine the result bit by bit; uh_pre, the old x_sol, b being x_sol and the later entries of b do not matter.  The residual of the block system in a slab is that of the slab solver plus the rounding errors of one row and two additions, whatever the number of slabs.  A nan in b fills its own slab and all later ones and nothing before.", "quantifier": "all layouts, direct slab solvers, scaled mass matrices, vectors of doubles including infinities and nan, numbers of slabs", "why_tests_cant": "The equality is bit by bit for every input, with an error bound that does not grow with the number of slabs; tests compare one run with a tolerance.", "anchors": ["src/dxss/space_time.py:SpaceTime.pre_time_marching_improved"]}
{"id": "C98", "title": "Unique solvability on triangles, tetrahedra and hexahedra", "statement": "With Lagrange elements of orders k and kstar <= k+1 on a mesh of simplices (straight or curved) or of cubes in any dimension, and the dx rule of degree 2k+3, no nonzero function of either space has mean square zero, so the system of every slab but the first, and the space-time system of the well-posed problem, has exactly one solution for every right-hand side; with data in the whole cylinder so do the first slab and the preconditioned system.  This covers the orders of the shipped drivers, in particular solve_3d on its hexahedra.", "quantifier": "all dimensions, numbers of cells, numberings, orders k and kstar <= k+1, rules exact for degree 2k+3, shipped settings", "why_tests_cant": "Every right-hand side, order and mesh; a test factorises a few matrices.", "anchors": ["src/dxss/space_time.py:SpaceTime.__init__", "src/dxss/space_time.py:SpaceTime.setup_spacetime_finite_elements", "src/dxss/solve_3d.py:MSH"]}
{"id": "C99", "title": "Surfaces and cells of the plane geometries", "statement": "The rectangles of the convex, the non-convex and the all-around geometry are split by their fragments into the surfaces omega, B without omega and rest (frame and inner square), each connected, with the centres of mass the code compares with.  If gmsh reports each surface once and its centre up to 1e-9, mesh.msh of the convex geometry has marker 1 on omega, 2 on B without omega, 3 on the rest, and no group is refused; for the non-convex geometry the last two are exchanged.  If the generated cells lie in one surface each and refinement subdivides cells, then on every mesh of get_mesh_data_all_around the indicator of the 2D driver is constant inside each cell.", "quantifier": "all points, all numberings of the surfaces, refinement levels, meshes and mesh parameters", "why_tests_cant": "The surfaces, their centres and the cells are made inside gmsh; a test sees one mesh at a time.", "anchors": ["src/dxss/meshes.py:create_initial_mesh_convex", "src/dxss/meshes.py:get_mesh_hierarchy", "src/dxss/meshes.py:get_mesh_hierarchy_nonconvex", "src/dxss/meshes.py:get_mesh_data_all_around", "src/dxss/solve_2d.py:omega_ind_convex"]}
{"id": "C100", "title": "Surfaces of the fitted-disc, bottom-data and inclusion geometries", "statement": "For every eta between 1/2 and 0.95 the rectangles of get_mesh_hierarchy_fitted_disc are split into exactly the surfaces given, none of which crosses the line y = eta, so on every mesh of the hierarchy each cell lies below or above it; the rectangle B_minus is one surface.  For every eta between 1/4 and 0.9 those of get_mesh_bottom_data give eight connected surfaces, none crossing y = eta.  Those of get_mesh_inclusion give four, none crossing the unit circle.", "quantifier": "all eta in the ranges, all points, all numberings, refinement levels", "why_tests_cant": "The fragment is computed inside gmsh for one eta; a test sees neither all eta nor the point sets.", "anchors": ["src/dxss/meshes.py:get_mesh_hierarchy_fitted_disc", "src/dxss/meshes.py:get_mesh_bottom_data", "src/dxss/meshes.py:get_mesh_inclusion"]}
{"id": "C101", "title": "What meshes.py prints", "statement": "The print statements of meshes.py change neither results, exceptions, session nor files.  From a closed session, rank 0 prints in this order: what the cut returned (get_mesh_convex, get_mesh_hierarchy, get_mesh_data_all_around), the number of surfaces (all but nonconvex, all_around and 3d), their centres of mass; every rank that reads mesh.xdmf prints the ghost mode (get_mesh_hierarchy, get_mesh_data_all_around) or the edges of each mesh refined (nonconvex, fitted_disc; none with dolfinx 0.7); the three functions that read gmsh's nodes print the same whether or not they raise; the 3D function prints on every rank, the volumes twice.  The number printed is that of the surface markers in mesh.msh.", "quantifier": "all geometries, ranks, refinement levels, answers of gmsh and dolfinx", "why_tests_cant": "The tests do not capture output, and never run on several ranks or with other answers of gmsh.", "anchors": ["src/dxss/meshes.py:print statements"]}
{"id": "C102", "title": "Rectangles of the geometries in doubles", "statement": "In doubles, for every eta in [1/4, 1]: in get_mesh_bottom_data the tops of the middle row and the bottoms of the upper row are exactly eta, the upper row ends exactly at 1, and only the rectangle ending at 0.9 may be off, by at most 2^-50; in get_mesh_hierarchy_fitted_disc the lower rectangles end exactly at eta, the upper ones start exactly at eta - 1/4 and the remainder ends exactly at 1.  In get_mesh_inclusion_square with corners of size at most 3/2 and 0 <= eta < 3/2, the top remainder ends exactly at 3/2 and all other sides are within 2^-50; the outer box does not always end at eta (0.1 is a counterexample).  With default arguments every side is the nearest double of its decimal; so are the sides of the geometries without parameters, except that 0.05 + 0.9 is not 0.95.  In every geometry, all arguments and far sides are within 2^-46 of those of the commands over the reals, and the tests of eta against 1.5 agree.", "quantifier": "every double eta in the interval; every double corner of size at most 3/2", "why_tests_cant": "The tests use one value of eta and never look at the coordinates passed to gmsh; whether rounding opens a gap depends on the last bit.", "anchors": ["src/dxss/meshes.py:addRectangle"]}
{"id": "C103", "title": "Surfaces of get_mesh_inclusion_square", "statement": "With the default target sides, any upper side y_r and 17/20 < eta < y_r < 3/2, the fragment has exactly six surfaces, each connected and on one side of y = eta: the frame below eta, the strip of the target between eta - 1/10 and eta, the rest of the target below eta around the inner square, the inner square, the target above eta, and the rest above eta.  So the target below eta is not one region: the hole of the frame starts at -1.25 and is 1.15 + eta high, so it ends at eta - 1/10 and every surface stops at that line.  With 3/2 <= eta < 8/5 there are exactly five connected surfaces; again a strip is split off, and the domain reaches to eta.  For eta > 8/5 the open rectangle between 3/2 and eta - 1/10 is in no surface.  The function gives these commands.", "quantifier": "all eta and y_r in the intervals, all points of the plane, all tags chosen by gmsh", "why_tests_cant": "The tests never call the function, and it cannot return a mesh.", "anchors": ["src/dxss/meshes.py:get_mesh_inclusion_square"]}
{"id": "C104", "title": "Volumes and cells of get_3d_mesh_data_all_around", "statement": "The fragment has exactly two volumes, the shell between the unit cube and the box with sides 1/5 and 4/5, and that box; both are connected.  The indicator of solve_3d.py (DATA_SIZE = 1/4) is 1 on the shell but takes both values in the inner box, where it is 0 exactly in the box with sides 1/4 and 3/4: the geometry does not resolve the data domain of the 3D driver.  From a closed session every cell of each of the n+1 meshes lies in one of the two volumes, so no cell crosses the interface; in cells of the inner box the indicator need not be constant.", "quantifier": "all points of space, all n_ref and scale factors, all meshes with cells inside one volume and all refinements that subdivide cells", "why_tests_cant": "No test calls the function.", "anchors": ["src/dxss/meshes.py:get_3d_mesh_data_all_around", "src/dxss/solve_3d.py:omega_ind"]}
{"id": "C105", "title": "From mesh.msh to mesh.xdmf and mt.xdmf", "statement": "For every file meshio can return (one array of markers per cell block, one marker per cell), create_mesh succeeds exactly if there is a block of the cell type, otherwise it raises ValueError (KeyError if there are no physical groups); the result has the points of the file (without z), all cells of the type in order, and each cell keeps its own marker.  Rank 0 writes both files or none, with the same points, so lines and triangles number the vertices alike.  With triangles and lines the step returns the mesh of the coarser model on every rank; without lines it fails although the lines are never used, and a rank that finds only one of the files fails.  If gmsh saves the elements of the physical groups with their tags, every line in mt.xdmf has the boundary marker 1, the triangles of the convex and non-convex geometries have a marker in 1..3, and those of the others the number of a surface.", "quantifier": "all files, numbers and orders of blocks, all earlier files", "why_tests_cant": "The tests never read mt.xdmf, and the values read from it are dropped.", "anchors": ["src/dxss/meshes.py:create_mesh", "src/dxss/meshes.py:get_cell_data", "src/dxss/meshes.py:mt.xdmf"]}
{"id": "C106", "title": "Nothing depends on what u_node_fine and u_node_coarse hold", "statement": "Prolongation and restriction write every component through two node functions kept between calls.  Whatever they hold, the answers and vectors of any sequence of calls are the same as if they were fresh.  After a call that succeeds one holds the last component of the input (last time function of z2 in the last slab), the other its interpolation.  A call fails only with ValueError, at the first component that does not fit; the components before it are written, the output is not touched any more, and the node functions hold that component or the one before.", "quantifier": "all spaces, dof maps, vectors, contents and sequences of calls", "why_tests_cant": "Stale contents show only in particular sequences of calls, and the tests never call these methods.", "anchors": ["src/dxss/space_time.py:SpaceTime.prolongation", "src/dxss/space_time.py:SpaceTime.restriction", "src/dxss/space_time.py:u_node_fine"]}
{"id": "C107", "title": "Grid transfers on several MPI processes", "statement": "On any number of MPI processes prolongation and restriction write on each process its share of what one process computes.", "quantifier": "all numbers of processes, distributions of the two meshes, numberings, vectors", "why_tests_cant": "The tests use one process and never call these methods.", "anchors": ["src/dxss/space_time.py:SpaceTime.prolongation", "src/dxss/space_time.py:SpaceTime.restriction"]}
{"id": "C108", "title": "pre_time_marching in double precision", "statement": "In double precision pre_time_marching solves, slab by slab, exactly the system of the vector assembled with the end of the slab before plus the entries of b. The result does not depend on what u1_0_pre, u2_0_pre, uh_pre and x_sol held, on later slabs of b, or on whether x_sol is b. One rounding error per entry is added to the residual of the solver. A nan spreads to the later slabs only. The 1e-20 term of the first slab is lost next to entries of b that are large enough and is all of the right hand side where b is 0.", "quantifier": "all layouts, orders, numbers of slabs, doubles (infinities, nan, signed zeros included), direct slab solvers and assembly routines", "why_tests_cant": "The tests compare errors of converged solves with a tolerance; single bits, nan, signed zeros and the term 1e-20 are never looked at.", "anchors": ["src/dxss/space_time.py:SpaceTime.pre_time_marching"]}
{"id": "C109", "title": "The iterative solver sees two fixed maps, in double precision", "statement": "For every program that multiplies with the matrix wrapper and applies the preconditioner wrapper, in any order that may depend on the results so far, all results are those of two fixed maps on doubles. What the scratch vectors of the SpaceTime object and the target vectors contain never matters, the preconditioner may work in place, and the same program gets the same bits after any other.", "quantifier": "all such programs, layouts, matrices, direct slab solvers, doubles (infinities and nan included), contents of the scratch vectors", "why_tests_cant": "The tests run one GMRES solve on a fresh object and compare with a tolerance; they cannot see that later calls depend on what earlier ones left behind.", "anchors": ["src/dxss/space_time.py:SpaceTimePETScMatrixWrapper.mult", "src/dxss/space_time.py:SpaceTimePETScPreconditionerWrapper.apply", "src/dxss/gmres.py:get_gmres_solution"]}
{"id": "C110", "title": "A product in place, in double precision", "statement": "With one vector as input and output, apply_spacetime_matrix on doubles leaves the positive zero in every entry, whatever the vector held and whatever the scratch vectors hold, as long as the stored entries of the matrices are finite. A row of the slab matrix with an infinity or a nan gives nan in every slab. With real numbers the loops are those of C23.", "quantifier": "all layouts, numbers of slabs, matrices, vectors (infinities and nan included), contents of the scratch vectors", "why_tests_cant": "No test calls the product with one vector; a test would see one vector and one matrix, and compare zeros without their sign.", "anchors": ["src/dxss/space_time.py:SpaceTime.apply_spacetime_matrix", "src/dxss/space_time.py:SpaceTimePETScMatrixWrapper.mult"]}
{"id": "C111", "title": "Grid transfers in double precision", "statement": "With as many dual as primal functions in space, prolongation and restriction on doubles interpolate each component of the source to the same component of the target, bit by bit, and keep everything past the dimension. A nan in one component reaches no other one, and what the target held does not matter. If interpolating up and down gives back the bits of the coefficients, prolongation followed by restriction gives back the vector. The result of q_op depends only on its input if the coarse solver ignores its start vector.", "quantifier": "all layouts, numbers of slabs, interpolations, coarse solvers, doubles (infinities and nan included)", "why_tests_cant": "No test calls the transfers; a test would see two meshes and compare with a tolerance, so bits and the spread of a nan cannot be seen.", "anchors": ["src/dxss/space_time.py:SpaceTime.prolongation", "src/dxss/space_time.py:SpaceTime.restriction", "src/dxss/space_time.py:SpaceTime.q_op"]}
