{
 "C07": {
  "status": "partial",
  "note": "False as stated for two shapes. Proved: area derivative is the chord for every shape, and the reported width is the chord for the others. Refuted: the parabolic width and the elliptical width (unless the ellipse is a circle) are not the derivative of the reported area."
 },
 "C09": {
  "status": "partial",
  "note": "False as stated for elliptical pipes: a full one has width 0 (C09_elliptical_slot_refuted). Proved for the other closed shapes."
 },
 "C10": {
  "status": "partial",
  "note": "False as stated for tabular storages: the reported volume is the complementary integral (C10_tabular_volume_is_complement_refuted; C10_tabular_volume_correct_iff says exactly when it is right). Proved for functional storages."
 },
 "C14": {
  "status": "partial",
  "note": "False as stated (C14_surface_balance_refuted). Proved: the exact balance error and when it vanishes."
 },
 "C16": {
  "status": "partial",
  "note": "Proved for every friction formula that has a value: Manning, Hazen-Williams, and Darcy-Weisbach with moving water. With Darcy-Weisbach and zero flow the code raises (C16_darcy_weisbach_still_water_raises_refuted)."
 },
 "C27": {
  "status": "proved",
  "note": "Existence and uniqueness, through column dominance of the reduced matrix."
 },
 "C30": {
  "status": "partial",
  "note": "False as stated: the bandwidth search stops at the first empty diagonal (C30_bandwidth_misses_connections_refuted). Proved for networks numbered in an order with the Cuthill-McKee property (what auto_permute requests from scipy; the property of scipy's order is a hypothesis), and that a covering bandwidth gives the dense solution."
 },
 "C33": {
  "status": "partial",
  "note": "False as stated at equal heads, where a partly submerged orifice still discharges (C33_equal_heads_give_no_flow_refuted); closing a circular or elliptical orifice raises. Proved otherwise."
 },
 "C34": {
  "status": "partial",
  "note": "False as stated at equal heads, where the cap uses the downstream volume (C34_equal_heads_overdrain_refuted). Proved for unequal heads."
 },
 "C39": {
  "status": "partial",
  "note": "False as stated for unequal offsets, which are not swapped with the ends (C39_unequal_offsets_refuted). Proved for equal offsets; C39_downhill_iff gives the exact condition."
 },
 "C41": {
  "status": "partial",
  "note": "False as stated: the indicators of submerged ends are not saved (C41_replay_refuted). Proved: if these indicators agree the whole future is the same (any history, any future, any two linear solvers), and rollback is exact without further condition in networks whose superlink ends do not lie above the junction bottoms. Assumes orifice shape codes 1 to 9 and no elliptical links."
 },
 "C45": {
  "status": "partial",
  "note": "False as stated: retries drop the user's tolerance (C45_retries_ignore_tolerance_refuted). Proved for the tolerance in force (the caller's at the first attempt, 1 afterwards), hence for callers using the default."
 },
 "C46": {
  "status": "partial",
  "note": "Proved for record_state. False for the record made at construction, which files the model's states under the current time (C46_initial_record_refuted)."
 },
 "C49": {
  "status": "partial",
  "note": "Proved: a constant solves the transport equations, and the step keeps it with positive diffusion. False for zero diffusion (C49_zero_diffusion_refuted)."
 },
 "C53": {
  "status": "partial",
  "note": "Proved for the first superlink, and for others while the downstream head is outside the range of the pipe's end inverts. Refuted: later superlinks, the length of the end piece, and the flow written after an upstream shift."
 },
 "C54": {
  "status": "partial",
  "note": "Proved for dictionaries in alphabetical order; otherwise tables are mixed up (C54_unsorted_tables_are_swapped_refuted)."
 },
 "C56": {
  "status": "partial",
  "note": "With numba: refuted, a saturated element stays saturated whatever the later rainfall (C56_saturated_soil_recovers_refuted). Without numba: saturation ends in every step whose water the soil can conduct (C56_python_class_releases), and without ponding, or with a film and steps of at most a second, the deficit becomes the full one (C56_python_class_recovers). Refuted for both classes: with steps longer than a second a film of ponded water is never used up and the deficit never recovers (C56_ponded_film_refuted)."
 },
 "C59": {
  "status": "proved",
  "note": "Surveys running left to right (a survey running right to left gets negative widths). Positivity needs distinct x values."
 },
 "C60": {
  "status": "partial",
  "note": "Proved: own table, conveyance, error bound, constant above the survey. False as stated: an unknown name silently gives the first transect (C60_unknown_name_refuted), and depth is measured from elevation 0, not from the lowest surveyed point (C60_raised_survey_refuted)."
 },
 "C61": {
  "status": "partial",
  "note": "Proved for all sections and any number of passes: balance of the face flows at every internal junction, and at every superjunction without prescribed head when there are no controls. Proved for open rectangular channels, one pass per step and no active limit: conservation everywhere, bounds and progress of coupled runs of any length. False for round pipes (C61_round_pipes_refuted) and for more than one pass per step (C61_two_passes_refuted). With controls the balance holds for the linearised control flows while the water-quality model reads the reported ones (C22)."
 },
 "C62": {
  "status": "partial",
  "note": "Proved for the maximum and the root-mean-square norm, of any model; the error is finite if no head is below the datum. False for norm 1 (signed mean, C62_mean_norm_refuted), for norm 0 (C62_count_norm_refuted) and for heads at -1 mm (C62_below_datum_refuted)."
 },
 "C63": {
  "status": "partial",
  "note": "Proved for every history: valid covariances, nonnegative concentrations, and that the operations are defined; from the second assimilation on: values between computed and measured, agreeing measurements change nothing. False: the first assimilation starts from an estimate of zero (C63_first_assimilation_refuted); prescribed concentrations and the upper limit are exceeded (C63_limits_and_boundaries_refuted); the variant without feedback follows the model when it starts with clean water, but its estimate at a prescribed concentration can stay 0 (C63_tracking_boundary_refuted); the transition matrix fails at prescribed concentrations (C63_transition_boundary_refuted). The observation point is not changed between calls."
 },
 "C64": {
  "status": "partial",
  "note": "Proved: from a state reached without numba whose cumulative depth exceeds the tolerance, one step with water gives the same depth in both classes up to an explicit multiple of the tolerance (exactly the same if the surface cannot pond); the class without numba follows the Green-Ampt equation and does not raise while a stated bound holds. False: the first ponding storm on dry soil raises without numba (C64_first_storm_refuted); saturation ends only without numba (C64_saturation_refuted); recovering soil with a negative cumulative depth keeps it or raises without numba (C64_negative_depth_refuted, C64_recovering_soil_refuted). Agreement over a whole history fails for these reasons. scipy's Newton iteration is modelled from its documentation."
 },
 "C65": {
  "status": "partial",
  "note": "Proved when all superlinks have as many links as the first, or one link, and no depth of the superlink is limited; the nonnegative variant is proved for any link counts. False otherwise for the first variant: with different link counts the matrix of one superlink is filled with coefficients of another (C65_uneven_links_refuted). For superlinks of one link the empty system is assumed to be solved without an exception. The solvers are oracles."
 },
 "C66": {
  "status": "partial",
  "note": "Proved: which exits take the tailwater depth and which keep theirs, with a unique critical depth, for flows that are neither below 1e-31 m3/s nor so large that a full pipe is supercritical. False: a free outfall on a mild slope keeps the uniform depth (C66_mild_free_outfall_refuted), and a pipe without flow that ends below its crown makes every step raise (C66_still_or_huge_flow_raises_refuted). brentq is an oracle that finds a single sign change exactly."
 },
 "C67": {
  "status": "partial",
  "note": "False: every step of the fallback solver raises a TypeError (C67_every_step_raises_without_numba_refuted). Its parts, taken one by one, agree with the compiled ones: the sweeps; the momentum coefficients of links with Manning friction, without controls or damping; the flow coefficients of superlinks with end coefficients 1; orifices (not one-way) and weirs; the system for the heads in the first pass, without end pieces; the depths and flows inside superlinks where no upper limit acts. Outside these cases they differ: C67_damped_and_controlled_links_refuted, C67_end_coefficients_refuted, C67_end_depths_refuted, C67_one_way_orifices_refuted, C67_end_storage_refuted, C67_head_limits_refuted, C67_depth_limits_refuted. Not compared: pumps (their arrays are never set)."
 },
 "C11": {
  "status": "partial",
  "note": "The area exists and lies between areas of the table for every table, and is exact at every depth after the first; exact everywhere and monotone for tables of non-decreasing areas. For a storage that narrows upwards the area at and below the first depth is the smallest of the table and above the last depth the largest (C11_narrowing_storage_refuted)."
 },
 "C68": {
  "status": "partial",
  "note": "Proved without friction in the end pieces (still water, or pieces of no length), and for water at rest in any network. False with friction: the upstream end gains head through friction, and the downstream loss is 9.81 A times too large (C68_friction_refuted); for every wet superlink and every flow there is a roughness at which both end flows are reported as zero whatever the heads (C68_end_flows_vanish_refuted)."
 },
 "C69": {
  "status": "partial",
  "note": "Proved at junctions without boundary condition, for reported heads that were not cut off at a limit, and for the augmented form. False at boundary junctions, where the exported row leaves out the prescribed head (C69_boundary_heads_refuted), and for the response to previous heads: A2 leaves out the superlink ends attached to a junction (C69_exported_sensitivity_refuted; C69_sensitivity_to_previous_heads gives the right value)."
 },
 "C70": {
  "status": "partial",
  "note": "The call with SR=True always raises: two values are unpacked into three (C70_square_root_call_refuted). The function behind it agrees with the plain filter for diagonal covariances and identity signal-input matrix; in general it is the textbook filter with transposed Cholesky factors, and differs (C70_forms_agree_refuted)."
 },
 "C71": {
  "status": "partial",
  "note": "Proved for all closed-form shapes except floodplains (which raise), given the same slot, and for the areas of surveyed sections whose lowest point is at or below 0. False for a slot the user chose, which the fallback solver does not pass on (C71_user_slot_refuted), for the top width of a full surveyed section, which exceeds the survey by one sampling step (C71_survey_width_refuted), and for surveys above 0, where shallow depths raise (C71_raised_survey_refuted). The perimeter of an ellipse is a given function."
 },
 "C72": {
  "status": "proved",
  "note": "For steps of one pass, which is the default number; with more passes the coefficients of the second pass depend on the heads of the first. Lateral inflows along the superlinks are the same in both steps."
 },
 "C73": {
  "status": "partial",
  "note": "Proved: tables inside their range, and everywhere if the storage does not narrow upwards and starts at a depth of at least 0; coefficients at depths of at least 0 (exponent other than -1); own table by name; exact areas at all tabulated depths. False for storages that narrow upwards (C73_narrowing_storage_refuted: there the class is right and the compiled function is not) and at negative depths, which the class also overwrites in the caller's array (C73_negative_depth_refuted)."
 },
 "C74": {
  "status": "partial",
  "note": "Proved for every history if the turned superlinks have at most two links (C74_short_superlinks_always), and for longer ones if no internal depth of a turned superlink is on its upper or lower limit after a pass (C74_direction_is_a_convention). False otherwise (C74_limited_depth_depends_on_direction_refuted): the limits are applied while depths are reconstructed from downstream to upstream, so that equal heads at both ends of a symmetric channel give a flow towards the end that was entered as downstream. Default boundary method ('z') only."
 },
 "C75": {
  "status": "partial",
  "note": "Proved: all three constants within one percent of the published ones, order over soils, share recovered. False as stated for every soil: metres are converted to inches with 39.97 instead of 39.37 (C75_inches_refuted)."
 },
 "C76": {
  "status": "partial",
  "note": "Proved for superlinks with both end pieces or none. False with one: the downstream slope is computed where the upstream length is positive, so it is 0 however steep the piece, or not a number (C76_one_end_piece_refuted); with the momentum method the depth of still water is then wrong by the fall of the piece (C76_still_water_depth_refuted)."
 },
 "C77": {
  "status": "partial",
  "note": "Proved for whole histories when a step makes one pass, or all its passes (tolerance not positive), or the part contains every superjunction (pure renumbering). False otherwise: the number of passes is decided by the largest change of head in the whole model, so a tank ends at 11/9 m instead of 5/4 m because an unconnected tank fills (C77_number_of_passes_refuted). Both models are sound designs (S_Model) with the default boundary method."
 },
 "C78": {
  "status": "partial",
  "note": "Proved for sound designs with the default boundary method, for whole histories of steps with any number of passes, and for simulations whose calls have no retries or no subdivisions. False for calls with both: the error of an attempt is divided by the head itself, so the accepted step depends on the datum; measured from 100 m lower, a step of 1 s is accepted that is otherwise halved (C78_accepted_steps_refuted). Tables of storages and sections are of depths. Real arithmetic: in float64 a far datum costs digits."
 },
 "C79": {
  "status": "proved",
  "note": "While no concentration limit is reached, for hydraulic inputs as in C50 (good_input: wet, diffusing, conserving); the linear solver is any exact one."
 },
 "C80": {
  "status": "proved",
  "note": "For every design and every solver, also ones that fail. Real arithmetic: in float64 a late origin costs digits."
 },
 "C81": {
  "status": "partial",
  "note": "Proved for flows, depths and transit times, after any history, for steps that end with all depths inside their limits (default end method, default boundary method, consecutively numbered superlinks). False for concentrations: link_concentrations_from_recurrence passes its arguments in another order than the functions declare, so clean water gets a positive concentration (C81_recomputed_concentrations_refuted); in the declared order the estimates are exact (C81_concentrations_in_declared_order). np.repeat(x, nk) is read as x[_ki]; a superlink with zero mean flow has no transit time (numpy returns inf)."
 },
 "C82": {
  "status": "proved",
  "note": "For every renumbering that leaves the model as it is, with any number of iterations; the starting object (including the indicators of submerged ends and what was saved last), inputs and loaded states must have the symmetry. Identical superlinks, orifices, weirs and pumps between the same superjunctions are the special cases a user meets. Exact arithmetic: with floats, rounding may break ties. Superlinks that are exchanged by reversing them are covered by C74, not here."
 },
 "C83": {
  "status": "partial",
  "note": "What plot_profile draws is characterised exactly. Refuted parts: with an upstream margin (dx_uk > 0) a superlink reaches into the next box of the profile, and its last junction is mapped beyond the downstream superjunction; of parallel superlinks only the last is drawn; a path without superlinks in its direction gets vertical limits that are upside down; the 3D limits leave out beds. Proved without these: placement, side by side, inside the limits, and maps between the superjunctions."
 },
 "C84": {
  "status": "partial",
  "note": "Proved for circles, rectangles, triangles, trapezia, for ellipses (given that scipy's ellipeinc is the elliptic integral; existence shown) and for full parabolas. Refuted for shallow water in parabolas: the perimeter is computed as if the full width were reached at the water surface. Floodplain sections are polygons and are covered by C08; wide channels count no sides and force mains are always full, by definition."
 },
 "C85": {
  "status": "proved",
  "note": "Both directions, for the whole object with orifices, weirs and pumps, with the default end_method 'b', while no head or depth is on a limit and the orifices are supplied."
 },
 "C86": {
  "status": "partial",
  "note": "What holds is proved: without lateral inflow the flow is the same along a superlink and friction alone balances weight and pressure. Refuted: the change of momentum flux is not in the balance (C86_momentum_is_conserved_refuted)."
 },
 "C87": {
  "status": "partial",
  "note": "The rule by which superlinks are turned round is proved, and that superlinks drawn falling, or with equal offsets, keep their ends. Refuted otherwise: the junctions of a rising superlink are exchanged but not its offsets, so its ends move and it may still rise; its initial flow keeps its sign, and supplied internal junctions keep their order."
 },
 "C88": {
  "status": "partial",
  "note": "Proved for junction tables listed in the order of their ids: any renumbering, any tables; prescribed heads follow their tables after any adaptive steps. Refuted for tables listed in another order (with auto_permute a junction gets another one's forcing, and superlinks join other junctions than without it) and for forcing tables whose columns are listed in another order (names are ignored)."
 },
 "C89": {
  "status": "proved",
  "note": "Networks without prescribed heads, default end method, depths inside the superlinks within their limits (as in C26, but with any limits on heads active). The comparison with deeper junctions is for steps of one pass, the default."
 },
 "C90": {
  "status": "partial",
  "note": "Refuted for a start given by the user (the model's clock is not moved there, and the bar then overflows), for a run that stops exactly at the end (the last bar printed can be short of 100 %) and for tables with a single time (the bar raises ZeroDivisionError). Proved otherwise."
 },
 "C91": {
  "status": "partial",
  "note": "Proved: no concentration falls faster than implicit first-order decay at the largest rate, so none falls below c exp(-Kt); in networks of storages and controls decay at a common rate is exactly c divided by every (1 + K dt). Refuted with superlinks: their two end pieces do not react (C91_end_pieces_do_not_react_refuted gives the mass that stays)."
 },
 "C92": {
  "status": "partial",
  "note": "Proved for the filter's own equations over any number of assimilations, and for the model's step in networks of storages joined by controls; for heads before limits and with the coefficients of the step held fixed. Refuted with superlinks (C92_superlinks_refuted: reported variance 0.02, actual 0.706), because the matrix that carries the covariance forward leaves out the superlink ends."
 },
 "C93": {
  "status": "partial",
  "note": "Proved for arguments that are not matrices of a single column: they are used for what they stand for in every assimilation, and with definite errors of the gauges no assimilation of any sequence fails. Refuted for a single noise source (C93_single_noise_source_refuted, C93_noise_reaches_other_heads_refuted), for a scalar Rcov with another number of gauges than heads, for the default covariances, and for readings in the documented shape (C93_column_of_readings_refuted)."
 },
 "C94": {
  "status": "partial",
  "note": "Proved for every initial moisture below saturation (the integral above the residual moisture, where the tension is finite; the bounds and the monotonicity from the residual moisture on). Refuted at saturation and for an impermeable soil, where the formula divides zero by zero (C94_saturated_soil_refuted)."
 },
 "C95": {
  "status": "partial",
  "note": "Proved without the repositioning of junctions (off by default). The steps and what follows them: every design and solver. No failure, water added and boundary heads: sound designs, after any history; boundary heads for steps of one pass. Refuted for round orifices without signals (C95_round_orifice_refuted) and for loading the saved state afterwards (C95_loading_after_spinup_refuted)."
 },
 "C96": {
  "status": "proved",
  "note": "For every invertible change of readings and every non-zero unit of variance, over any sequence of steps and assimilations; np.linalg.inv is an argument, assumed to return the inverse of every invertible matrix of the number of gauges and nothing else."
 }
}