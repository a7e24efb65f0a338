{"id": "C01", "title": "Sampled forcing never leaves the data", "statement": "A forcing series (Q_in, H_bc, Q_Ik) sampled by Simulation at any time returns a value between the two neighbouring table values, equals the first/last row before/after the table, and under 'nearest' is always one of the table rows.", "quantifier": "every non-empty table with strictly increasing times and every query time", "why_tests_cant": "infinitely many tables and query times; a test samples a handful of points", "anchors": ["pipedream_solver/nutils.py:interpolate_sample", "pipedream_solver/ngeometry.py:interpolate_geometry", "pipedream_solver/simulation.py:Simulation._step"]}
{"id": "C02", "title": "Linear sampling is exact and monotone", "statement": "With linear interpolation the sample equals the table value at each table time, is affine between two neighbouring times, and is monotone in time whenever the table is monotone.", "quantifier": "every strictly increasing table, every pair of query times", "why_tests_cant": "monotonicity relates all pairs of query points across all segments", "anchors": ["pipedream_solver/nutils.py:interpolate_sample", "pipedream_solver/ngeometry.py:interpolate_geometry"]}
{"id": "C03", "title": "Bounded root search stays in its bracket and never divides by zero", "statement": "bounded_newton_raphson, for an arbitrary function and an arbitrary (even wrong) derivative, either raises 'No zero found' or returns a point inside the closed interval spanned by the two bounds; no division by a zero derivative is ever executed.", "quantifier": "every function, derivative, start point, pair of bounds, tolerance and iteration limit", "why_tests_cant": "quantifies over all functions and all iteration histories", "anchors": ["pipedream_solver/nutils.py:bounded_newton_raphson"]}
{"id": "C04", "title": "Bounded root search brackets a sign change and its answer is close to it", "statement": "If the function is continuous and has opposite signs at the bounds, then when bounded_newton_raphson returns x, either a true zero lies within atol of x, or the last iterate had residual below atol times the slope used there.", "quantifier": "every continuous function with a sign change on the bounds and every start point", "why_tests_cant": "needs an invariant over every iteration and the intermediate value theorem", "anchors": ["pipedream_solver/nutils.py:bounded_newton_raphson"]}
{"id": "C05", "title": "Plain Newton iteration only returns converged points", "statement": "newton_raphson either raises or returns a point that is an exact zero of f, or a point whose last update was no larger than atol + rtol*|previous|; it never returns after more than max_iter function evaluations.", "quantifier": "every function, derivative, start and tolerances", "why_tests_cant": "all functions and all iteration counts", "anchors": ["pipedream_solver/nutils.py:newton_raphson"]}
{"id": "C06", "title": "Flow area is non-negative, non-decreasing in depth and capped at the full section", "statement": "For every link shape the computed flow area is >= 0, does not decrease when either end depth rises, does not exceed the full-section area, and is constant once the section is full.", "quantifier": "all depths and all positive section dimensions of circular, rectangular, triangular, trapezoidal, parabolic, elliptical, wide, force-main and floodplain shapes", "why_tests_cant": "continuum of depths; monotonicity is a relation over all pairs", "anchors": ["pipedream_solver/ngeometry.py:Circular_A_ik,Rect_Closed_A_ik,Rect_Open_A_ik,Triangular_A_ik,Trapezoidal_A_ik,Parabolic_A_ik,Wide_A_ik,Floodplain_A_ik"]}
{"id": "C07", "title": "Top width is the rate of change of flow area", "statement": "While a section is partly full its top width equals the derivative of its flow area with respect to depth, so storing volume via width*depth change is consistent with area.", "quantifier": "all depths strictly inside the section, all dimensions", "why_tests_cant": "derivative identity over a continuum", "anchors": ["pipedream_solver/ngeometry.py:*_A_ik,*_B_ik"]}
{"id": "C08", "title": "Hydraulic radius is non-negative and never divides by zero", "statement": "Wetted perimeter is non-negative and hydraulic radius is non-negative and finite (zero for a dry section) for every shape.", "quantifier": "all depths and dimensions", "why_tests_cant": "continuum of inputs including degenerate ones", "anchors": ["pipedream_solver/ngeometry.py:*_Pe_ik,*_R_ik"]}
{"id": "C09", "title": "Closed conduits keep a positive slot width when surcharged", "statement": "Whenever a closed conduit is full its top width is exactly the slot width, so the storage coefficient of a surcharged pipe never vanishes.", "quantifier": "all depths at or above the crown", "why_tests_cant": "continuum of inputs", "anchors": ["pipedream_solver/ngeometry.py:Circular_B_ik,Rect_Closed_B_ik,Force_Main_B_ik", "pipedream_solver/nsuperlink.py:nSuperLink.configure_hydraulic_geometry"]}
{"id": "C10", "title": "Storage volume is the integral of storage area", "statement": "The volume of a superjunction is the integral from zero to the depth of its surface area, so volume and area agree at every depth.", "quantifier": "all depths and all functional/tabular storage curves", "why_tests_cant": "an integral identity over a continuum of depths and arbitrary tables", "anchors": ["pipedream_solver/storage.py:Functional,Tabular", "pipedream_solver/nsuperlink.py:numba_compute_functional_storage_volumes,numba_compute_tabular_storage_volumes"]}
{"id": "C11", "title": "Tabular storage area stays within the table", "statement": "The surface area returned for a tabular storage lies between the smallest and largest area in its table at every depth, and is exact at the table's depths.", "quantifier": "every non-empty table with strictly increasing depths and every depth", "why_tests_cant": "arbitrary tables and depths", "anchors": ["pipedream_solver/nsuperlink.py:numba_compute_tabular_storage_areas", "pipedream_solver/storage.py:Tabular.A_sj"]}
{"id": "C12", "title": "Infiltration never exceeds the available water", "statement": "In every Green-Ampt step the infiltrated depth f*dt is at most rainfall plus ponded water available in that step, and cumulative infiltration changes by exactly that depth in wet steps.", "quantifier": "every soil, rainfall history and positive step size", "why_tests_cant": "all rainfall histories, through an iterative root solve", "anchors": ["pipedream_solver/ninfiltration.py:nGreenAmpt.saturated_case,unsaturated_case_3,step", "pipedream_solver/infiltration.py:GreenAmpt.unsaturated_case_2"]}
{"id": "C13", "title": "Soil moisture deficit stays within physical bounds", "statement": "The upper-zone moisture deficit stays between zero and its maximum after every sequence of steps.", "quantifier": "every soil, every rainfall history of any length", "why_tests_cant": "unbounded histories", "anchors": ["pipedream_solver/ninfiltration.py:nGreenAmpt.step", "pipedream_solver/infiltration.py:GreenAmpt"]}
{"id": "C14", "title": "Green-Ampt surface water balance", "statement": "Rainfall depth over a step equals infiltration plus runoff plus change in ponded depth.", "quantifier": "every step and step size", "why_tests_cant": "must hold for all step sizes, not the one in a test", "anchors": ["pipedream_solver/infiltration.py:GreenAmpt.compute_runoff,compute_ponding_depth,available_rainfall"]}
{"id": "C15", "title": "Runoff is non-negative and vanishes when rain does not exceed infiltration capacity", "statement": "Runoff is never negative and is zero exactly when rainfall intensity is at most the infiltration rate.", "quantifier": "every soil and rainfall history", "why_tests_cant": "all histories", "anchors": ["pipedream_solver/infiltration.py:GreenAmpt.compute_runoff"]}
{"id": "C16", "title": "Momentum coefficients keep the link equation diagonally dominant", "statement": "For every wet state the advection coefficients are non-positive and a + b + c equals inertia plus friction plus minor losses, hence is non-negative (positive with undamped inertia).", "quantifier": "all flows, depths, roughnesses, friction formulas and step sizes", "why_tests_cant": "continuum of hydraulic states", "anchors": ["pipedream_solver/nsuperlink.py:numba_a_ik,numba_b_ik,numba_c_ik,friction_slope"]}
{"id": "C17", "title": "Forward elimination is exact for superlinks of any length", "statement": "Any depths and flows that satisfy the momentum equation of each link and continuity at each interior junction also satisfy the forward relation Q_i = U_i h_{i+1} + V_i + W_i h_1 computed by the solver, for every link.", "quantifier": "every number of links per superlink, every number of superlinks, all coefficients with non-vanishing pivots", "why_tests_cant": "induction over an unbounded number of links", "anchors": ["pipedream_solver/nsuperlink.py:numba_forward_recurrence,U_1k,V_1k,W_1k,T_1k,U_Ik,V_Ik,W_Ik,T_ik"]}
{"id": "C18", "title": "Backward elimination is exact for superlinks of any length", "statement": "Likewise every such solution satisfies Q_i = X_i h_i + Y_i + Z_i h_{N+1} for the coefficients of the backward pass.", "quantifier": "as C17", "why_tests_cant": "induction over an unbounded number of links", "anchors": ["pipedream_solver/nsuperlink.py:numba_backward_recurrence,X_Nk,Y_Nk,Z_Nk,O_nk,X_Ik,Y_Ik,Z_Ik,O_ik"]}
{"id": "C19", "title": "The two sweeps never divide by zero in a wet superlink", "statement": "With positive flow areas, top widths and dt, and a friction formula that has a value at the state (Manning and Hazen-Williams always have one, Darcy-Weisbach when the water moves), every pivot of the forward and backward pass is non-zero, so no ZeroDivisionError and no silent zero from safe_divide.", "quantifier": "every superlink length and every wet state", "why_tests_cant": "sign invariant carried by induction along the superlink", "anchors": ["pipedream_solver/nsuperlink.py:numba_forward_recurrence,numba_backward_recurrence,safe_divide"]}
{"id": "C20", "title": "Superlink end flows solve the boundary equations", "statement": "For any pair of junction heads the reported end flows and end depths satisfy the four boundary relations (two loss equations, two recurrences) simultaneously.", "quantifier": "all heads and all recurrence coefficients with non-zero determinant", "why_tests_cant": "continuum of states", "anchors": ["pipedream_solver/nsuperlink.py:numba_alpha_uk,numba_beta_uk,numba_chi_uk,numba_alpha_dk,numba_beta_dk,numba_chi_dk,numba_D_k_star", "pipedream_solver/superlink.py:solve_superlink_flows,solve_superlink_depths"]}
{"id": "C21", "title": "Reconstructed internal flows and depths satisfy momentum and continuity", "statement": "When no depth limit is hit, the internal depths and flows written by the solver satisfy the momentum equation of every link and the continuity equation of every interior junction, so volume inside a superlink is conserved.", "quantifier": "every superlink length, any number of superlinks", "why_tests_cant": "induction over the sweep and frame conditions between superlinks", "anchors": ["pipedream_solver/nsuperlink.py:numba_solve_internals,Q_i_f,Q_i_b,h_i_b"]}
{"id": "C22", "title": "Each row of the solved system is the junction's water balance", "statement": "For every junction without boundary condition, a head vector solves its row iff storage change equals external inflow minus outflow into superlinks, orifices, weirs and pumps plus inflow from them, including parallel and multiple elements between the same junctions.", "quantifier": "every network topology, any number of elements of each kind, all coefficients", "why_tests_cant": "arbitrary topologies incl. parallel elements", "anchors": ["pipedream_solver/nsuperlink.py:nSuperLink.sparse_matrix_equations,numba_create_A_matrix,numba_create_OWP_matrix,numba_add_at"]}
{"id": "C23", "title": "Boundary junctions take the prescribed head exactly", "statement": "A junction flagged as boundary condition has the identity row, so every solution has its head equal to the prescribed one whatever elements are attached.", "quantifier": "every network topology and coefficients", "why_tests_cant": "arbitrary topologies", "anchors": ["pipedream_solver/nsuperlink.py:numba_create_A_matrix,numba_create_OWP_matrix,numba_clear_off_diagonals"]}
{"id": "C24", "title": "The assembled system does not depend on earlier steps", "statement": "Whatever sequence of assemblies ran before, assembling with given coefficients yields the same matrix and right-hand side as assembling on a freshly initialised model.", "quantifier": "every history of assemblies", "why_tests_cant": "unbounded histories of in-place updates", "anchors": ["pipedream_solver/nsuperlink.py:numba_clear_off_diagonals,numba_create_A_matrix,numba_create_OWP_matrix,sparse_matrix_equations"]}
{"id": "C25", "title": "Control structures neither create nor destroy water", "statement": "Summed over all junctions (no boundary conditions), contributions of orifices, weirs and pumps to the system cancel: what leaves one junction enters the other.", "quantifier": "every network and head vector", "why_tests_cant": "arbitrary topologies", "anchors": ["pipedream_solver/nsuperlink.py:numba_create_OWP_matrix,sparse_matrix_equations"]}
{"id": "C26", "title": "Network-wide volume conservation", "statement": "For a closed network with the default end method, when a step does not hit a limit on heads or depths, the total change of storage in junctions and superlinks over the step equals dt times the total external inflow. Both boundary methods: the default one always; the momentum method as long as friction in the upstream end pieces is below inertia plus local loss.", "quantifier": "every network, any number of superlinks and internal links", "why_tests_cant": "sum over arbitrary topologies and lengths", "anchors": ["pipedream_solver/nsuperlink.py:sparse_matrix_equations,numba_solve_internals,numba_node_coeffs"]}
{"id": "C27", "title": "The head system has exactly one solution", "statement": "In every wet state with some water surface attached to every junction without prescribed head, exactly one head vector solves the assembled linear system.", "quantifier": "every network topology", "why_tests_cant": "arbitrary size and topology", "anchors": ["pipedream_solver/nsuperlink.py:numba_create_A_matrix,numba_create_OWP_matrix,solve_sparse_matrix"]}
{"id": "C28", "title": "Water at rest stays at rest", "statement": "If all heads are equal, all flows are zero and there is no inflow, a step leaves all heads, depths and flows unchanged.", "quantifier": "every network of superlinks of any length with any wet cross-sections", "why_tests_cant": "any topology, length, geometry", "anchors": ["pipedream_solver/nsuperlink.py:nSuperLink.step"]}
{"id": "C29", "title": "Banded storage represents the same matrix", "statement": "The banded array handed to the banded solver contains every matrix entry within the bandwidth at the position LAPACK expects and zero elsewhere; so if no entry lies outside the band the banded and dense systems have the same solutions.", "quantifier": "every matrix size and bandwidth", "why_tests_cant": "all sizes and index arithmetic with negative indices", "anchors": ["pipedream_solver/nsuperlink.py:numba_create_banded,solve_banded_matrix"]}
{"id": "C30", "title": "The computed bandwidth covers every connection", "statement": "Every pair of connected junctions lies within the bandwidth used by the banded solver.", "quantifier": "every network topology and numbering", "why_tests_cant": "arbitrary graphs", "anchors": ["pipedream_solver/superlink.py:SuperLink._compute_bandwidth,adjacency_matrix"]}
{"id": "C31", "title": "Heads and depths respect their limits after any number of steps", "statement": "After every step each junction head lies between its invert and invert + max depth, and every internal depth is at least min_depth.", "quantifier": "every state, input, history", "why_tests_cant": "all histories; independent of the linear solver's output", "anchors": ["pipedream_solver/nsuperlink.py:solve_sparse_matrix,solve_banded_matrix,solve_internals_backwards,solve_internals_forwards"]}
{"id": "C32", "title": "Renumbering junctions does not change the physics", "statement": "Permuting junction numbers permutes the assembled system: the permuted solution solves the permuted system and vice versa.", "quantifier": "every network and permutation", "why_tests_cant": "all permutations and topologies", "anchors": ["pipedream_solver/superlink.py:SuperLink._initialize_with_permuted_columns", "pipedream_solver/simulation.py:Simulation.__init__"]}
{"id": "C33", "title": "Orifice flow follows the head and respects closing and check valves", "statement": "Orifice discharge has the sign of the head difference, is zero when the higher head is not above the orifice invert, and is zero against the direction of a unidirectional orifice.", "quantifier": "all heads, openings, dimensions", "why_tests_cant": "continuum of states with many branch combinations", "anchors": ["pipedream_solver/nsuperlink.py:numba_solve_orifice_flows"]}
{"id": "C34", "title": "An orifice cannot drain more water than its source holds", "statement": "The reported orifice discharge times dt never exceeds the stored volume of the junction it drains, and limiting never reverses it.", "quantifier": "all heads, volumes, step sizes", "why_tests_cant": "continuum of states", "anchors": ["pipedream_solver/nsuperlink.py:nSuperLink.solve_orifice_flows"]}
{"id": "C35", "title": "Linearised control flows agree with the discharge laws", "statement": "At the current heads, the linear coefficients of orifices, weirs and pumps reproduce the discharge law: alpha*H_u + beta*H_d + chi = Q whenever Q is the (non-zero) law discharge at these heads.", "quantifier": "all heads, openings and parameters", "why_tests_cant": "all branch combinations over a continuum", "anchors": ["pipedream_solver/nsuperlink.py:numba_orifice_flow_coefficients,numba_weir_flow_coefficients,numba_pump_flow_coefficients"]}
{"id": "C36", "title": "Weir flow is zero below the crest, follows the head and grows with it", "statement": "Weir discharge is zero unless the higher head exceeds the crest, has the sign of the head difference and is non-decreasing in the upstream head for free flow.", "quantifier": "all heads and parameters", "why_tests_cant": "continuum", "anchors": ["pipedream_solver/nsuperlink.py:numba_solve_weir_flows"]}
{"id": "C37", "title": "Pumps only pump forward, within their curve, and stop below the inlet", "statement": "Pump flow is non-negative, zero when the upstream head is not above the inlet or the pump is off, and bounded by the pump-curve values at the head limits.", "quantifier": "all heads and parameters on the pump curve", "why_tests_cant": "continuum", "anchors": ["pipedream_solver/nsuperlink.py:numba_solve_pump_flows"]}
{"id": "C38", "title": "Generated internal elements form one chain per superlink", "statement": "Automatically generated links and junctions give each superlink a chain of internal_links links: consecutive junction numbers, disjoint between superlinks, covering all numbers, lengths summing to the superlink length and inverts on the straight line between its ends.", "quantifier": "every number of superlinks and internal links", "why_tests_cant": "unbounded sizes; index arithmetic", "anchors": ["pipedream_solver/superlink.py:SuperLink._configure_internals_variable,__init__"]}
{"id": "C39", "title": "Superlinks are oriented downhill", "statement": "After construction the upstream invert of every superlink is not below its downstream invert.", "quantifier": "every table of superlinks, offsets and inverts", "why_tests_cant": "all tables; fails only for unequal offsets", "anchors": ["pipedream_solver/superlink.py:SuperLink.__init__"]}
{"id": "C40", "title": "A step advances time by dt and one iteration regardless of inner iterations", "statement": "After step(dt) the clock is t+dt, the iteration counter one higher, and at most num_iter inner iterations were done, whatever the convergence history.", "quantifier": "every num_iter, tolerance and model state", "why_tests_cant": "all convergence histories", "anchors": ["pipedream_solver/superlink.py:SuperLink.step,_solve_step,_setup_step"]}
{"id": "C41", "title": "Loading a saved state and stepping reproduces the original step", "statement": "After save_state / load_state the next step yields the same heads, depths, and flows as the original continuation.", "quantifier": "every model state and history between save and load", "why_tests_cant": "hidden state across arbitrary histories", "anchors": ["pipedream_solver/superlink.py:SuperLink.save_state,load_state,step", "pipedream_solver/simulation.py:Simulation.step"]}
{"id": "C42", "title": "Adaptive step sizes respect the user's limits", "statement": "The proposed step size is always within [min_dt, max_dt] (given min_dt <= max_dt) once error history is available.", "quantifier": "all error and step histories, coefficients", "why_tests_cant": "continuum of histories", "anchors": ["pipedream_solver/simulation.py:Simulation.compute_step_size,filter_step_size"]}
{"id": "C43", "title": "Retrying a step halves dt and advances time by the accepted dt only", "statement": "With retries, the simulation clock advances by exactly dt/2^r for some r <= retries, every retry is from the initial state, and no retried dt is at or below min_dt.", "quantifier": "every error sequence, number of retries and subdivisions", "why_tests_cant": "all error sequences (schedules)", "anchors": ["pipedream_solver/simulation.py:Simulation.step"]}
{"id": "C44", "title": "Step and error histories stay aligned and bounded", "statement": "The dt and error queues always have equal length between 1 and 3 and their heads describe the last accepted step.", "quantifier": "every sequence of step calls with any retries", "why_tests_cant": "unbounded call histories", "anchors": ["pipedream_solver/simulation.py:Simulation.step,__init__"]}
{"id": "C45", "title": "User tolerance applies to retried steps", "statement": "A step with tolerance tol only ends with a retried error above tol if retries or min_dt are exhausted.", "quantifier": "every tol, retries, error sequence", "why_tests_cant": "all error sequences", "anchors": ["pipedream_solver/simulation.py:Simulation.step"]}
{"id": "C46", "title": "Recorded results are keyed by time, complete and immutable", "statement": "After any sequence of steps and record_state calls, the recorded table has for every recorded time the state at the last record at that time, and later steps do not change it.", "quantifier": "every sequence of step/record calls", "why_tests_cant": "unbounded histories, aliasing", "anchors": ["pipedream_solver/simulation.py:Simulation.record_state"]}
{"id": "C47", "title": "Data assimilation does not move the clock and respects exact data", "statement": "kalman_filter leaves the model time and iteration counter unchanged; zero innovation leaves the model's own prediction; a perfect full observation yields the observed heads.", "quantifier": "every covariance, model state and observation", "why_tests_cant": "all matrices of all sizes", "anchors": ["pipedream_solver/simulation.py:Simulation.kalman_filter", "pipedream_solver/nutils.py:_kalman_semi_implicit"]}
{"id": "C48", "title": "Water-quality elimination is exact for superlinks of any length", "statement": "Concentrations satisfying each link's and junction's transport equation satisfy the forward and backward relations computed by the solver.", "quantifier": "every superlink length", "why_tests_cant": "induction over unbounded length", "anchors": ["pipedream_solver/nquality.py:numba_forward_recurrence,numba_backward_recurrence"]}
{"id": "C49", "title": "Clean or uniform water stays uniform", "statement": "If hydraulics conserve volume, there is no reaction and all inflow and initial concentrations equal c, then concentration c everywhere solves all transport equations of links, junctions and superjunctions.", "quantifier": "every network, flow field, diffusion", "why_tests_cant": "all flow fields incl. reversals", "anchors": ["pipedream_solver/nquality.py:numba_link_coeffs,numba_node_coeffs,sparse_matrix_equations"]}
{"id": "C50", "title": "No new concentration extremes along a superlink", "statement": "With volume-conserving hydraulics and non-negative reaction, concentrations inside a superlink stay non-negative and at most the largest of boundary, inflow and previous concentrations.", "quantifier": "every superlink length and flow field", "why_tests_cant": "maximum principle over unbounded length", "anchors": ["pipedream_solver/nquality.py:numba_forward_recurrence,numba_backward_recurrence,numba_solve_internals"]}
{"id": "C51", "title": "Reported concentrations respect the user's limits", "statement": "After every water-quality step all reported concentrations are within [c_min, c_max].", "quantifier": "every state and input", "why_tests_cant": "independent of the linear solver output", "anchors": ["pipedream_solver/nquality.py:QualityBuilder.solve_*,numba_solve_internals"]}
{"id": "C52", "title": "Transport through control structures conserves mass", "statement": "Constituent mass leaving a superjunction through an orifice, weir or pump enters the other superjunction.", "quantifier": "every network, flow direction and concentration", "why_tests_cant": "arbitrary topologies", "anchors": ["pipedream_solver/nquality.py:numba_create_OWP_matrix,sparse_matrix_equations"]}
{"id": "C53", "title": "Moving internal junctions keeps the superlink intact", "statement": "Repositioning the mobile junction keeps both end junctions, junction order and total length of each superlink and its inverts on the pipe's straight line.", "quantifier": "every state with an interior mobile junction", "why_tests_cant": "sorting and interpolation over any number of junctions", "anchors": ["pipedream_solver/nsuperlink.py:numba_reposition_junctions"]}
{"id": "C54", "title": "Every superjunction reads the table of its own storage", "statement": "When tabular storages are named in a dictionary, a superjunction that names a storage gets that storage's depth and area table, whatever the number, order and lengths of the tables. (Holds when the dictionary is in alphabetical order; otherwise tables are mixed up.)", "quantifier": "all collections of tables of any lengths, all dictionary orders", "why_tests_cant": "arbitrary numbers and lengths of tables packed into one array", "anchors": ["pipedream_solver/nsuperlink.py:nSuperLink.configure_storages,numba_compute_tabular_storage_areas"]}
{"id": "C55", "title": "Infiltration follows the Green-Ampt equation", "statement": "With water available, the cumulative infiltration after a step is the solution of the integrated Green-Ampt equation, or the whole supply if the soil could take more, within the root-finder tolerance of 1.48e-8 m; an unsaturated element whose supply stays below the ponding threshold takes the whole supply.", "quantifier": "every soil with positive suction, conductivity and deficit, every earlier rainfall history and every positive step", "why_tests_cant": "a test compares with one hand-computed depth; the solver iterates from any state", "anchors": ["pipedream_solver/ninfiltration.py:run_green_ampt_newton,saturated_case,unsaturated_case_3", "pipedream_solver/nutils.py:bounded_newton_raphson"]}
{"id": "C56", "title": "Saturated soil recovers when it dries", "statement": "An element that became saturated becomes unsaturated again when the soil could take more water than is available, and in a long enough dry spell its moisture deficit recovers to the full one, whichever of the two infiltration classes is in use and however long the time steps are.", "quantifier": "every soil and every rainfall history, however long", "why_tests_cant": "needs a statement about every later history, not a single dry spell", "anchors": ["pipedream_solver/ninfiltration.py:nGreenAmpt.saturated_case", "pipedream_solver/ninfiltration.py:run_green_ampt_newton", "pipedream_solver/infiltration.py:GreenAmpt.saturated_case", "pipedream_solver/infiltration.py:GreenAmpt.unsaturated_case_1"]}
{"id": "C57", "title": "Constituent mass balance of a water-quality step", "statement": "In a water-quality step on a network without prescribed concentrations, the constituent mass stored in superjunctions, links, superlink ends and junctions changes by the inflowing mass less the reacted mass, up to the exact discrepancy (change of volume) x (change of concentration) of the linearised storage term; so the balance is exact when volumes are steady.", "quantifier": "every network topology and size, every flow field, inflow, reaction rate and any number of orifices, weirs and pumps", "why_tests_cant": "a global identity over all topologies; the discrepancy term is invisible in steady test cases", "anchors": ["pipedream_solver/nquality.py:QualityBuilder.step", "pipedream_solver/nquality.py:QualityBuilder.sparse_matrix_equations"]}
{"id": "C58", "title": "A sound model never fails to step", "statement": "For a model whose sections convey water at every positive depth, whose storages have a positive surface and whose inputs are reasonable (positive time step, pumps not driven backwards, round orifices not fully closed), every call of step, save_state and load_state succeeds: no division by zero, no singular linear system, no out-of-range lookup; the same holds for the adaptive stepper of Simulation. Each step leaves heads and depths within their limits.", "quantifier": "every network topology and size, every mix of shapes, storages, orifices, weirs and pumps, every finite history of steps (any dt > 0, any number of iterations), saves, loads and retries", "why_tests_cant": "a run that happens to succeed says nothing about the next state; the claim is an invariant over all reachable states of all networks", "anchors": ["pipedream_solver/superlink.py:SuperLink.step", "pipedream_solver/superlink.py:SuperLink.load_state", "pipedream_solver/nsuperlink.py:nSuperLink", "pipedream_solver/simulation.py:Simulation.step"]}
{"id": "C59", "title": "Surveyed cross-sections have the area, width and perimeter of the surveyed polyline", "statement": "For a channel given as a surveyed polyline (x, y) running from left to right, the area, top width and wetted perimeter computed at a water level are those of the water standing over the polyline: the sum over its pieces of the integral of the water depth, of the wet part of the piece's width and of the wet part of its length. They do not shrink as the level rises, the area grows at a rate between the two widths and its derivative is the top width away from horizontal pieces, the width never exceeds the survey's, nothing is wet below the lowest point, and everything is positive above it.", "quantifier": "every number of survey points, every polyline running left to right, every water level", "why_tests_cant": "each of four wet/dry cases per piece combines over arbitrarily many pieces; the derivative and integral statements are about all levels", "anchors": ["pipedream_solver/ngeometry.py:Transect_A_ik", "pipedream_solver/ngeometry.py:Transect_B_ik", "pipedream_solver/ngeometry.py:Transect_Pe_ik"]}
{"id": "C60", "title": "A link with a surveyed section uses that section's geometry", "statement": "A link that names a transect reads the table built from that transect; the table makes the section convey water at every depth above the lowest surveyed point, the area it yields at a depth is the surveyed area up to an error that vanishes with the number of sample points, and above the highest point it stays constant. A name that does not exist is rejected, and depth is measured from the lowest surveyed point.", "quantifier": "every survey, every number of sample points of at least two, every order of the transect dictionary, every depth", "why_tests_cant": "the error bound and the absence of mix-ups quantify over all tables, depths and dictionaries", "anchors": ["pipedream_solver/nsuperlink.py:nSuperLink.configure_hydraulic_geometry", "pipedream_solver/nsuperlink.py:numba_transect_geometry", "pipedream_solver/nsuperlink.py:numba_boundary_transect"]}
{"id": "C61", "title": "The water-quality model receives flows and volumes that conserve water", "statement": "After a hydraulic step, the water-quality model reads heads, depths, flows and areas from the hydraulic model and derives from them the flows at the faces of every piece and the stored volumes. These conserve volume at every junction and along every link, so that running the two models in turn keeps every concentration between the bounds of the initial, boundary and inflow concentrations, and keeps a uniform concentration uniform.", "quantifier": "every network, every history of the hydraulic object, every number of coupled steps, all inputs, all cross-sections the water-quality model accepts, every number of passes per step", "why_tests_cant": "the two models use different formulas for the same volumes, and whether they agree depends on the cross-section, the number of passes and the depths; a test exercises one combination", "anchors": ["pipedream_solver/nquality.py:QualityBuilder.import_hydraulic_states", "pipedream_solver/nquality.py:geometry_WQ1", "pipedream_solver/nquality.py:geometry_WQ2", "pipedream_solver/nquality.py:Q_ik_up_dn", "pipedream_solver/nquality.py:QualityBuilder.step", "pipedream_solver/nsuperlink.py:nSuperLink"]}
{"id": "C62", "title": "The error of an adaptive step bounds the difference of coarse and fine heads", "statement": "When a step of a simulation is compared with its subdivided version, the error it is judged by is at most a tolerance exactly when the heads of the two solutions are close: with the maximum norm at every junction, with the root-mean-square norm on average, each measured against 1e-6 plus a thousandth of the head. The error is finite, and no norm accepts solutions that differ grossly everywhere.", "quantifier": "every model, every number of junctions and subdivisions, all heads, every norm", "why_tests_cant": "cancellation and vanishing denominators occur only for particular signs and elevations", "anchors": ["pipedream_solver/simulation.py:Simulation._scaled_error", "pipedream_solver/simulation.py:Simulation._normed_error", "pipedream_solver/simulation.py:Simulation.step"]}
{"id": "C63", "title": "Assimilating measured concentrations keeps the water-quality model consistent", "statement": "After a step, a measured concentration can be assimilated. The new concentration at the observed superjunction lies between the computed and the measured one, every other superjunction moves by a gain times the difference, no concentration is negative, and a measurement that agrees with the model changes nothing, from the first assimilation on. Covariances stay symmetric and nonnegative and the variance at the observed point never exceeds that of the measurement. Prescribed concentrations and the limits of the concentrations are respected. The variant without feedback follows the model, and the returned transition matrix advances any superjunction concentrations as a step would.", "quantifier": "every network, every sequence of steps and measurements, correlated or independent process noise, all standard deviations, every routine that inverts matrices", "why_tests_cant": "the result of an assimilation depends on the whole history through the covariance, and the faults show only for the first call, at particular junctions, or after many calls", "anchors": ["pipedream_solver/nquality.py:QualityBuilder.Kalman_Filter_WQ1", "pipedream_solver/nquality.py:QualityBuilder.Kalman_Filter_WQ2", "pipedream_solver/nquality.py:QualityBuilder.KF_Multi_WQ", "pipedream_solver/nquality.py:KF_WQ2", "pipedream_solver/nquality.py:QualityBuilder.__init__"]}
{"id": "C64", "title": "Infiltration is the same with and without numba", "statement": "The package picks one of two infiltration classes depending on whether numba is installed. A user may rely on either: from the same state and rainfall both give the same cumulative depth up to the tolerance of the root finder, both follow the Green-Ampt equation, and neither raises where the other does not.", "quantifier": "every soil, every rainfall history, all step sizes", "why_tests_cant": "the two root finders converge from some states and not from others; a test sees one trajectory and usually one of the classes", "anchors": ["pipedream_solver/hydrology.py", "pipedream_solver/infiltration.py:GreenAmpt.step", "pipedream_solver/infiltration.py:GreenAmpt.unsaturated_case_3", "pipedream_solver/infiltration.py:GreenAmpt.saturated_case", "pipedream_solver/ninfiltration.py:nGreenAmpt", "pipedream_solver/ninfiltration.py:run_green_ampt_newton"]}
{"id": "C65", "title": "The least-squares reconstructions find the internal depths that fit both ends best", "statement": "A user may choose a least-squares reconstruction of the depths and flows inside superlinks instead of the default ones. Among all internal depths with the same end depths, the reported ones minimise the squared disagreement between the flows computed from the upstream and from the downstream end. Where the momentum and continuity equations of a superlink can be solved, the reported depths and flows solve them and equal those of the default reconstruction unless a depth is limited. The nonnegative variant never reports a negative depth and gives the best nonnegative depths.", "quantifier": "every network, every number of superlinks and of links in each, all coefficients, every linear solver and every nonnegative least-squares solver", "why_tests_cant": "the faults show only for particular combinations of link counts, and a test sees one number of links per superlink", "anchors": ["pipedream_solver/nsuperlink.py:nSuperLink.solve_internals_lsq", "pipedream_solver/superlink.py:SuperLink.solve_internals_nnls", "pipedream_solver/nsuperlink.py:numba_solve_internals_ls"]}
{"id": "C66", "title": "Depths at pipe exits follow the tailwater and the critical depth", "statement": "With exit hydraulics switched on, the depth reported at the downstream end of a superlink is the tailwater depth if that exceeds the critical depth of the flow, the critical depth at a free outfall on a mild slope, the depth already computed where the exit is submerged or the slope is steep, and never below the minimum depth. A step with the option succeeds whenever one without it does.", "quantifier": "every number of superlinks, all diameters, heads, inverts, flows and depths, and every bracketing root finder", "why_tests_cant": "which branch is taken depends on the critical depth, which has no closed form; the failing cases are particular flows, and no fixed set of pipes covers them", "anchors": ["pipedream_solver/superlink.py:SuperLink.solve_exit_hydraulics", "pipedream_solver/superlink.py:SuperLink.solve_critical_depth", "pipedream_solver/superlink.py:SuperLink.exit_conditions"]}
{"id": "C67", "title": "The hydraulic solver gives the same results with and without numba", "statement": "Where numba is not installed the package falls back on a solver written with arrays. That solver steps whenever the compiled one does, and its coefficients of links, superlinks, orifices and weirs, its system for the heads, its depths and flows inside the superlinks and its limits of the heads equal those of the compiled one.", "quantifier": "every network as the constructor numbers it, every number of superlinks and of links in each, all coefficients", "why_tests_cant": "one environment exercises one of the two implementations, and agreement has to hold for all link counts and coefficients", "anchors": ["pipedream_solver/superlink.py:SuperLink.forward_recurrence", "pipedream_solver/superlink.py:SuperLink.backward_recurrence", "pipedream_solver/superlink.py:SuperLink.superlink_upstream_head_coefficients", "pipedream_solver/superlink.py:SuperLink.link_coeffs", "pipedream_solver/nsuperlink.py:nSuperLink", "pipedream_solver/superlink.py:SuperLink.sparse_matrix_equations", "pipedream_solver/superlink.py:SuperLink.solve_orifice_flows", "pipedream_solver/superlink.py:SuperLink.solve_weir_flows", "pipedream_solver/superlink.py:SuperLink.solve_internals_backwards"]}
{"id": "C68", "title": "The momentum boundary method balances momentum in the end pieces", "statement": "With bc_method='b' the depth at each end of a superlink and the head of the junction beside it satisfy the momentum equation of the water between them: inertia, the friction of the formula chosen for that end, local loss, and the fall of the water surface. End flows respond to the junction heads, and water at rest stays at rest.", "quantifier": "all areas, hydraulic radii, lengths, slopes, roughnesses, flows, heads and time steps of the end pieces; every superlink of any length; every network for water at rest", "why_tests_cant": "a wrong friction term is small against inertia for short end pieces, so comparing a few simulations with references does not expose it; the failing roughness is an isolated value", "anchors": ["pipedream_solver/nsuperlink.py:kappa_uk", "pipedream_solver/nsuperlink.py:kappa_dk", "pipedream_solver/nsuperlink.py:mu_uk", "pipedream_solver/nsuperlink.py:mu_dk", "pipedream_solver/nsuperlink.py:nSuperLink.superlink_upstream_head_coefficients"]}
{"id": "C69", "title": "The exported system matrices describe the step", "statement": "The matrices A1, A2, the vector D and the inflows Q handed out after a step describe it: the new heads H and the previous heads H' satisfy A1 H = A2 H' + D + Q at every junction, A2 gives the response of the step to the previous heads, and the augmented form says the same.", "quantifier": "all networks, boundary flags, coefficients, areas, heads, inflows, time steps and earlier assemblies", "why_tests_cant": "a test compares matrices of one network; that a row is the water balance of its junction, and which rows are not, holds or fails for all coefficients at once", "anchors": ["pipedream_solver/superlink.py:SuperLink.state_space_system", "pipedream_solver/superlink.py:SuperLink._augmented_system", "pipedream_solver/superlink.py:SuperLink._semi_implicit_system"]}
{"id": "C70", "title": "The square-root filter gives the result of the plain filter", "statement": "Calling the Kalman filter with SR=True gives the same corrected heads and covariance as the plain filter.", "quantifier": "all systems, observations, covariances, observation matrices, sizes, and all factorisations that do what NumPy promises", "why_tests_cant": "the forms agree on diagonal covariances, which is what a test starts from; that they differ on others, and that no call returns, is a statement about all inputs", "anchors": ["pipedream_solver/utils.py:_square_root_kalman_semi_implicit", "pipedream_solver/simulation.py:Simulation.kalman_filter"]}
{"id": "C71", "title": "The array cross-section classes agree with the compiled functions", "statement": "For every entry of its arrays a class of the geometry module returns the area, perimeter, hydraulic radius and top width that the compiled functions return for that entry's depths and dimensions. A section built from surveyed points returns for every depth an area that grows with depth from 0, and a top width no larger than the survey.", "quantifier": "all shapes, arrays of any length, depths, dimensions and slots; all surveys, numbers of sample points and depths", "why_tests_cant": "a test fixes some arrays and one survey; agreement entry by entry and the excess of the sampled width hold for all of them", "anchors": ["pipedream_solver/geometry.py:Circular", "pipedream_solver/geometry.py:Parabolic", "pipedream_solver/geometry.py:Irregular", "pipedream_solver/superlink.py:SuperLink.link_hydraulic_geometry"]}
{"id": "C72", "title": "More inflow never lowers a head, and raises heads by no more than the water it brings", "statement": "Take one step from the same model twice, with the same step length, settings and lateral inflows. If no inflow to a superjunction and no prescribed head is smaller the second time, no superjunction's head is lower afterwards. If only the inflows differ, the sum over the superjunctions without prescribed head of the attached water surface times the absolute difference of the two heads is at most the step length times the summed absolute differences of the inflows.", "quantifier": "all networks, histories, inflows, prescribed heads, gate settings and step lengths; one pass per step (the default)", "why_tests_cant": "a test compares two runs of one network; the order of all heads and the bound concern every network, state and pair of inflows", "anchors": ["pipedream_solver/superlink.py:SuperLink.step", "pipedream_solver/nsuperlink.py:nSuperLink.sparse_matrix_equations", "pipedream_solver/nsuperlink.py:nSuperLink.solve_banded_matrix"]}
{"id": "C73", "title": "The storage classes agree with the compiled storage functions", "statement": "At every depth the storage classes used without numba return the surface area and the volume that the compiled functions return for the same coefficients or table; a table gives its own area at each of its depths; and every superjunction uses the table with its own name, in whatever order the tables are listed. The arrays passed in are left unchanged.", "quantifier": "all coefficients, tables with ascending depths, depths, numbers of superjunctions and orders of the dictionary", "why_tests_cant": "a test fixes a table and some depths; agreement over all tables, and the kind of table for which it fails, need a proof", "anchors": ["pipedream_solver/storage.py:Functional.A_sj", "pipedream_solver/storage.py:Functional.V_sj", "pipedream_solver/storage.py:Tabular.A_sj", "pipedream_solver/storage.py:Tabular.V_sj", "pipedream_solver/superlink.py:SuperLink.configure_storages", "pipedream_solver/superlink.py:SuperLink.compute_storage_areas", "pipedream_solver/superlink.py:SuperLink.compute_storage_volumes"]}
{"id": "C74", "title": "The direction in which a superlink is entered is only a naming convention", "statement": "Take a network and enter some of its superlinks the other way round: their ends exchange places, their links and internal junctions are listed backwards, bed slopes and flows change sign. From the same water, with the same inputs, steps, iterations, saves, loads and rollbacks, both models run through, and show the same time, the same head in every superjunction, the same depth at every internal junction, and the same flow at every place and through every orifice, weir and pump, flows in turned superlinks having the other sign.", "quantifier": "all networks, sets of turned superlinks, cross sections, states, histories of any length, inflows, settings, step lengths, numbers of iterations", "why_tests_cant": "a test compares two runs of one network; independence of direction concerns every network, state and history, and the limit at which it breaks is reached only in some states", "anchors": ["pipedream_solver/superlink.py:SuperLink.step", "pipedream_solver/nsuperlink.py:nSuperLink.forward_recurrence", "pipedream_solver/nsuperlink.py:nSuperLink.backward_recurrence", "pipedream_solver/nsuperlink.py:nSuperLink.solve_internals_backwards", "pipedream_solver/nsuperlink.py:numba_solve_internals"]}
{"id": "C75", "title": "Constants of soil recovery are the published ones", "statement": "For every soil the depth of the upper zone, the rate at which its moisture deficit recovers and the dry time after which a new storm begins are 4 sqrt(K) inches, sqrt(K)/75 per hour and 4.5/sqrt(K) hours, K being the given conductivity in inches per hour. Better conducting soils recover faster and from a deeper zone, and the share recovered in the recovery time is the same for all soils.", "quantifier": "all conductivities", "why_tests_cant": "a test checks numbers for one soil; the relation to the formula, its order over soils and the size of the conversion error hold for all", "anchors": ["pipedream_solver/infiltration.py:GreenAmpt.__init__", "pipedream_solver/ninfiltration.py:nGreenAmpt"]}
{"id": "C76", "title": "Slopes of end pieces are those of the bed", "statement": "After construction, the slope of the piece of a superlink between a superjunction and the nearest internal junction is the fall of the bed along it divided by its length, and 0 for a piece without length, at both ends; with the momentum boundary method still water then has a level surface.", "quantifier": "all lengths of end pieces and inverts", "why_tests_cant": "tests use superlinks without end pieces or with two; the slope is wrong exactly when only one end has a length", "anchors": ["pipedream_solver/superlink.py:SuperLink.__init__", "pipedream_solver/superlink.py:SuperLink.configure_internals_variable"]}
{"id": "C77", "title": "Only what is connected matters", "statement": "The heads, depths and flows of a part of a model do not depend on what is not connected to it, nor on how superjunctions, superlinks, orifices, weirs and pumps are numbered: two networks put into one model behave, step after step, exactly as they do in models of their own, and a model may be cut at superjunctions with prescribed heads.", "quantifier": "all models, all parts of them that nothing else touches except at prescribed heads, all numberings, all sequences of steps, saves, loads and rollbacks, all linear solvers", "why_tests_cant": "a test compares one numbering or one pair of networks for some steps; a wrong index or an accumulation across parts shows only for particular numberings", "anchors": ["pipedream_solver/nsuperlink.py:numba_create_A_matrix", "pipedream_solver/nsuperlink.py:numba_create_OWP_matrix", "pipedream_solver/superlink.py:SuperLink.step", "pipedream_solver/superlink.py:SuperLink.sparse_matrix_equations"]}
{"id": "C78", "title": "The datum is a convention", "statement": "Measuring all elevations of a model, its initial heads, prescribed heads and saved states from another datum changes the computed heads by exactly the difference and no depth or flow at all. The steps a simulation accepts do not depend on the datum either.", "quantifier": "all models, all differences of datum, all sequences of steps, saves, loads and rollbacks, any number of passes, all simulations, all linear solvers", "why_tests_cant": "a formula that uses a head where it needs a depth agrees with the right one when inverts are zero; a test sees it only at the elevations it tries", "anchors": ["pipedream_solver/superlink.py:SuperLink.step", "pipedream_solver/nsuperlink.py:nSuperLink", "pipedream_solver/nsuperlink.py:numba_solve_orifice_flows", "pipedream_solver/nsuperlink.py:numba_solve_pump_flows", "pipedream_solver/simulation.py:Simulation._scaled_error"]}
{"id": "C79", "title": "Constituents superpose", "statement": "In the same water, a mixture of constituents is carried as the same mixture of what each becomes alone (so the unit of concentration is a convention), and more constituent at the start, in the inflows or at the boundaries never lowers any concentration anywhere later.", "quantifier": "all networks, all conserving hydraulic inputs, all concentrations, inflow and boundary concentrations within the limits, all numbers of steps and step lengths, all factors of mixture", "why_tests_cant": "a test mixes a few constituents; a spurious source, a nonlinear limiter or one wrong sign shows only for particular flows and directions", "anchors": ["pipedream_solver/nquality.py:QualityBuilder.step", "pipedream_solver/nquality.py:QualityBuilder.sparse_matrix_equations", "pipedream_solver/nquality.py:QualityBuilder.solve_internals_backwards"]}
{"id": "C80", "title": "The origin of time is a convention", "statement": "Starting a simulation s seconds later, with all input tables s seconds later, gives the same states, the same accepted and retried step lengths and the same errors at times s later, or fails where the other fails.", "quantifier": "all models, all tables and interpolation methods, all shifts, all sequences of adaptive steps with any retries, subdivisions, tolerances and norms, all linear solvers", "why_tests_cant": "tests start at time zero; an absolute time used where an elapsed one is needed shows only for other starts", "anchors": ["pipedream_solver/simulation.py:Simulation._step", "pipedream_solver/simulation.py:Simulation.step", "pipedream_solver/nutils.py:interpolate_sample", "pipedream_solver/superlink.py:SuperLink.step"]}
{"id": "C81", "title": "Diagnostics recomputed from the recurrence agree with the reported state", "statement": "After a step in which no depth limit was active, the flows returned by superlink_flow_from_recurrence (backward and forward) equal the reported link flows, the depths returned by superlink_depth_from_recurrence (backward and forward) equal the reported junction depths, the concentrations returned by link_concentrations_from_recurrence (backward and forward) equal the reported link concentrations, and the time computed by superlink_inverse_courant is the superlink's length divided by its mean velocity.", "quantifier": "all models, all histories of steps, any number of passes, all linear solvers, all superlinks, links and junctions", "why_tests_cant": "The agreement is an identity between two eliminations in opposite directions; a test sees rounding-level differences on one network, and cannot tell an argument passed in the wrong position from a poorly conditioned recurrence.", "anchors": ["pipedream_solver/nsuperlink.py:nSuperLink.superlink_flow_from_recurrence", "pipedream_solver/superlink.py:SuperLink.superlink_depth_from_recurrence", "pipedream_solver/superlink.py:SuperLink.superlink_inverse_courant", "pipedream_solver/nquality.py:QualityBuilder.link_concentrations_from_recurrence"]}
{"id": "C82", "title": "A symmetric model stays symmetric, and identical parallel elements share the flow", "statement": "If a renumbering of superjunctions, superlinks, orifices, weirs and pumps leaves a model, its initial state and all its inputs unchanged, then after every sequence of step, save_state and load_state calls the reported heads, depths and flows are unchanged by it as well. In particular two identical superlinks, orifices, weirs or pumps between the same superjunctions, with equal lateral inflows or settings, always report the same flows and depths.", "quantifier": "all models, all renumberings, all histories of steps (any number of iterations and any tolerance), saves and loads, all linear solvers", "why_tests_cant": "A test can compare two branches of one network at some times; it cannot show that no order of assembly, no loop over elements and no iteration test treats one of two equal branches differently.", "anchors": ["pipedream_solver/superlink.py:SuperLink.step", "pipedream_solver/nsuperlink.py:numba_create_A_matrix", "pipedream_solver/nsuperlink.py:numba_create_OWP_matrix"]}
{"id": "C83", "title": "Plots show the reported state in the right places", "statement": "plot_profile draws, for each superjunction of the path, a box from its invert to its reported head and, for each step of the path along a superlink, the water of every link between the bed and the reported surface; boxes and superlinks stand side by side without overlap and within the limits of the axes. plot_network_2d and plot_network_3d put the internal junctions of a superlink on the straight line between its superjunctions, in order and in proportion to their distances, and all within the limits of the axes.", "quantifier": "all networks, all states, all paths of superjunctions, all widths", "why_tests_cant": "A test of a plotting function can at best check that it runs or compare one picture; it cannot show that every element of every network is drawn where it belongs.", "anchors": ["pipedream_solver/visualization.py:plot_profile", "pipedream_solver/visualization.py:_plot_superlink_profile", "pipedream_solver/visualization.py:plot_network_2d", "pipedream_solver/visualization.py:plot_network_3d"]}
{"id": "C84", "title": "The reported wetted perimeter is the length of the wetted boundary", "statement": "For every link with a circular, rectangular, triangular, trapezoidal, parabolic or elliptical section, the wetted perimeter the model uses is the length of the part of the section's boundary that lies below the water surface: the bottom, and the two sides as curves in the plane.", "quantifier": "all depths from empty to full, all dimensions", "why_tests_cant": "A test can compare with tabulated perimeters at some depths; that a closed formula is an arc length at every depth and for every dimension needs calculus.", "anchors": ["pipedream_solver/ngeometry.py:Circular_Pe_ik", "pipedream_solver/ngeometry.py:Parabolic_Pe_ik", "pipedream_solver/geometry.py:Elliptical.Pe_ik", "pipedream_solver/nsuperlink.py:handle_elliptical_perimeter"]}
{"id": "C85", "title": "Flow that does not change is steady, and steady flow does not change", "statement": "If steps leave every reported head, depth and flow as it was while no limit is active, the flow is steady: inflows and outflows balance at every junction, along each superlink the flow changes only by lateral inflow, in every link weight and pressure balance advection, friction and losses, the ends of superlinks are at the level of their junctions except for entrance and exit losses, and orifices, weirs and pumps obey their discharge laws. None of these laws contains the time step. Conversely, a state that obeys them is left as it is by every sequence of steps with the same inputs, whatever their lengths, numbers of iterations and tolerances.", "quantifier": "all networks with supported sections and controls, all histories, all states, all step lengths, iteration counts and tolerances", "why_tests_cant": "A test runs some network until it seems steady; it cannot show that the resting points of the scheme are exactly the solutions of laws that do not contain the step length.", "anchors": ["pipedream_solver/superlink.py:SuperLink.step", "pipedream_solver/superlink.py:SuperLink._setup_step", "pipedream_solver/superlink.py:SuperLink._solve_step", "pipedream_solver/nsuperlink.py:numba_b_ik"]}
{"id": "C86", "title": "Steady profiles conserve momentum", "statement": "In steady flow the momentum carried out of a link at its downstream end, less the momentum carried in at its upstream end, plus friction equals the weight and pressure acting on the water in the link.", "quantifier": "all networks, all steady states, all links", "why_tests_cant": "Profiles of single channels can be compared with tables; whether the momentum of the water has a share in every steady profile is a question about all of them.", "anchors": ["pipedream_solver/nsuperlink.py:numba_a_ik", "pipedream_solver/nsuperlink.py:numba_c_ik", "pipedream_solver/nsuperlink.py:numba_b_ik"]}
{"id": "C87", "title": "A superlink ends where it was drawn", "statement": "Each end of a constructed superlink is at the junction and at the invert (junction bottom plus offset) at which the tables draw it, whatever direction the superlink is drawn in; superlinks drawn rising are turned round so that they fall, and then the initial flow and the supplied internal junctions are turned round with them.", "quantifier": "all junction and superlink tables", "why_tests_cant": "Tests use a few tables, mostly drawn downhill; the direction rule has to be right for every combination of bottoms and offsets.", "anchors": ["pipedream_solver/superlink.py:SuperLink.__init__", "pipedream_solver/superlink.py:SuperLink.configure_internals_variable"]}
{"id": "C88", "title": "Forcing reaches the junctions it is meant for, at the right time", "statement": "With or without automatic renumbering, the inflow and the prescribed head that drive a junction at any time are those its column of the forcing table has at that time, and recorded heads carry the name of their junction. After any sequence of adaptive steps, with any retries, subdivisions and iterations, the reported head of a junction with a prescribed head is the value of its column at the time the clock shows, and every orifice, weir and pump reports the flow its law gives for its own control signal.", "quantifier": "all tables, all renumberings, all sequences of adaptive steps, all times", "why_tests_cant": "A test checks one renumbering and one set of tables; an exchanged pair of columns gives a plausible result.", "anchors": ["pipedream_solver/simulation.py:Simulation.__init__", "pipedream_solver/simulation.py:Simulation._model_step", "pipedream_solver/superlink.py:SuperLink.permute_network", "pipedream_solver/superlink.py:SuperLink.__init__"]}
{"id": "C89", "title": "Water is lost only where a junction overflows and created only where one would run dry", "statement": "On a network without prescribed heads, as long as depths along the superlinks are within their limits: a step that leaves every junction above its bottom does not create water, and a step that leaves every junction below its maximum depth does not lose any. If junctions overflow, their heads are those that deeper junctions would show, cut at the maximum depth, and at each of them the step loses at least the water surface there times the height cut off.", "quantifier": "all networks with supported sections and controls, all histories, inputs, step lengths and depths of junctions", "why_tests_cant": "A test can check the balance of one overflowing network; which sign the error has at every limit, through the flows recomputed from the limited heads, is a statement about all of them.", "anchors": ["pipedream_solver/superlink.py:SuperLink._solve_step", "pipedream_solver/nsuperlink.py:nSuperLink.solve_sparse_matrix", "pipedream_solver/superlink.py:SuperLink.solve_superlink_flows"]}
{"id": "C90", "title": "A simulation covers its data and its progress bar shows the share done", "statement": "A simulation starts at the start the user gave or else, with the clock set there, at the first time of any forcing table; it ends at the given end or else at the last time of any table. During this period the progress bar has 50 cells, shows the share of the period done to half a cell and a twentieth of a percent, never goes back, is printed at most 50 times however many steps are made, and finishes at 100 %.", "quantifier": "all forcing tables, starts and ends, all sequences of clock times that do not go back", "why_tests_cant": "Whether every run ends with a full bar, and how often it is printed, depends on where each of any number of steps falls between the checkpoints.", "anchors": ["pipedream_solver/simulation.py:Simulation.__init__", "pipedream_solver/simulation.py:Simulation.print_progress"]}
{"id": "C91", "title": "Reaction is first-order decay", "statement": "If everything reacts at rate K and no constituent enters, every step divides a uniform concentration by 1 + K dt, however the water moves, so after a time t it is between c exp(-K t) and c / (1 + K t); with unequal rates or concentrations no concentration falls faster than that.", "quantifier": "all networks of supported sections and controls, all flows that conserve water, all step lengths, runs of any number of steps", "why_tests_cant": "Decay in one tank can be compared with a formula; that nothing decays faster or slower anywhere in any network while the water moves is a statement about all of them.", "anchors": ["pipedream_solver/nquality.py:QualityBuilder.link_coeffs", "pipedream_solver/nquality.py:QualityBuilder.node_coeffs", "pipedream_solver/nquality.py:QualityBuilder.step"]}
{"id": "C92", "title": "Assimilated heads are the best estimate", "statement": "If the covariances given to the filter are those of the errors of the model, of the gauges and of the first heads, and those errors are uncorrelated, then after every assimilation the covariance the simulation keeps is that of the errors of its heads, and no other linear correction of the predicted heads with the same readings has a smaller mean square error, for any weighted sum of heads.", "quantifier": "all networks, all sets of gauges, all covariances, all distributions of the errors, any number of assimilations", "why_tests_cant": "The claim is about expected values over all outcomes and about every other correction; a test sees single runs.", "anchors": ["pipedream_solver/simulation.py:Simulation.kalman_filter", "pipedream_solver/nutils.py:_kalman_semi_implicit", "pipedream_solver/superlink.py:SuperLink._semi_implicit_system"]}
{"id": "C93", "title": "The filter works with the matrices it is given, and does not fail", "statement": "Each of Rcov, Qcov, C and H may be left out, or given as a number, a vector or a matrix; the filter works with the matrix this stands for in every assimilation, starts from Pxx or else from C Qcov C', and with readings in the documented shape every assimilation of any sequence returns a right-hand side with one entry per head.", "quantifier": "all forms and sizes of the arguments, all networks, all sequences of assimilations", "why_tests_cant": "There are many combinations of forms and sizes, and some of them compute something else without raising; a test tries a few.", "anchors": ["pipedream_solver/simulation.py:Simulation.__init__", "pipedream_solver/simulation.py:Simulation.kalman_filter", "pipedream_solver/nutils.py:_kalman_semi_implicit"]}
{"id": "C94", "title": "The suction head of a soil is the capillary drive of its retention curve", "statement": "The suction head computed from the moistures, the bubbling pressure and the pore size index is the integral of the relative conductivity over the tension between the initial moisture and saturation (Brooks-Corey soil); it is positive, at most psi_b/(1+3 lambda), independent of the conductivity and smaller for wetter soils, so that soils built with it are valid for the infiltration model; a saturated soil has suction head 0.", "quantifier": "all moistures, conductivities, bubbling pressures and pore size indices of a soil", "why_tests_cant": "It equates a closed formula with an integral for a continuum of soils; tests compare a few of them up to a tolerance.", "anchors": ["pipedream_solver/infiltration.py:GreenAmpt.suction_head", "pipedream_solver/infiltration.py:GreenAmpt._s2"]}
{"id": "C95", "title": "Spinning up is a number of ordinary steps with a trickle", "statement": "spinup(n) makes n ordinary steps with the given inflows or else 1e-6 m3/s into every superjunction and junction, then sets clock and counter to zero; everything done afterwards, also loading the saved state, goes on from there at a clock that counts from zero. On a sound model with default arguments it does not fail and leaves heads and depths within limits, junctions with a prescribed head keep it, and on a closed network each step that reaches no limit adds exactly the trickle.", "quantifier": "all designs, states, histories before and after, numbers and lengths of steps, inflows and signals", "why_tests_cant": "It speaks about any number of steps on any network and about everything done later.", "anchors": ["pipedream_solver/superlink.py:SuperLink.spinup"]}
{"id": "C96", "title": "Units, order and combination of gauges, and the unit of variance, are conventions", "statement": "If the readings of the gauges are given in other units, in another order, or as invertible combinations (sums, differences), and the gauge matrix and the covariance of the gauge errors are converted accordingly, every assimilation gives the same model state. If all covariances are given in another unit, the model states are the same and the covariance kept by the filter is the old one in the new unit. This holds over any sequence of steps and assimilations, and both descriptions fail together.", "quantifier": "all numbers of gauges and states, invertible conversions, units of variance, models, inputs, sequences of steps and assimilations", "why_tests_cant": "It relates two runs of any length for every conversion of the readings.", "anchors": ["pipedream_solver/simulation.py:Simulation.kalman_filter", "pipedream_solver/nutils.py:_kalman_semi_implicit"]}
