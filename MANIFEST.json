{
 "claims": [
  {
   "property": "C01",
   "status": "proved",
   "theorems": [
    "C01_before_table",
    "C01_after_table",
    "C01_between_neighbours",
    "C01_never_leaves_data",
    "C01_nearest_is_nearest_row"
   ],
   "note": ""
  },
  {
   "property": "C02",
   "status": "proved",
   "theorems": [
    "C02_exact_at_knots",
    "C02_affine_between_knots",
    "C02_monotone",
    "C02_monotone_falling"
   ],
   "note": ""
  },
  {
   "property": "C03",
   "status": "proved",
   "theorems": [
    "C03_stays_in_bracket",
    "C03_terminates_with_answer",
    "C03_start_point_discarded_when_decreasing"
   ],
   "note": ""
  },
  {
   "property": "C04",
   "status": "proved",
   "theorems": [
    "C04_answer_close_to_sign_change"
   ],
   "note": ""
  },
  {
   "property": "C05",
   "status": "proved",
   "theorems": [
    "C05_returns_only_converged",
    "C05_raises_only_when_unconverged"
   ],
   "note": ""
  },
  {
   "property": "C06",
   "status": "proved",
   "theorems": [
    "C06_area_bounded",
    "C06_area_monotone"
   ],
   "note": ""
  },
  {
   "property": "C07",
   "status": "partial",
   "theorems": [
    "C07_area_derivative_is_chord",
    "C07_top_width_is_chord",
    "C07_parabolic_width_refuted",
    "C07_elliptical_width_refuted",
    "C07_circular_ellipse_width"
   ],
   "note": "False as stated for two shapes. Proved: area derivative is the chord for every shape, and the reported width is the chord for the others. Refuted: the parabolic width and the elliptical width (unless the ellipse is a circle) are not the derivative of the reported area."
  },
  {
   "property": "C08",
   "status": "proved",
   "theorems": [
    "C08_perimeter_and_radius",
    "C08_links_of_a_model",
    "C08_ends_of_ellipses"
   ],
   "note": ""
  },
  {
   "property": "C09",
   "status": "partial",
   "theorems": [
    "C09_slot_width",
    "C09_width_positive_when_wet",
    "C09_elliptical_slot_refuted"
   ],
   "note": "False as stated for elliptical pipes: a full one has width 0 (C09_elliptical_slot_refuted). Proved for the other closed shapes."
  },
  {
   "property": "C10",
   "status": "partial",
   "theorems": [
    "C10_functional_volume_derivative",
    "C10_functional_volume_slabs",
    "C10_tabular_volume_is_complement_refuted",
    "C10_tabular_volume_correct_iff",
    "C10_tabular_volume_above_table"
   ],
   "note": "False as stated for tabular storages: the reported volume is the complementary integral (C10_tabular_volume_is_complement_refuted; C10_tabular_volume_correct_iff says exactly when it is right). Proved for functional storages."
  },
  {
   "property": "C11",
   "status": "partial",
   "theorems": [
    "C11_tabular_area_within_table",
    "C11_tabular_area_exact_and_monotone",
    "C11_tabular_area_exact_after_first",
    "C11_narrowing_storage_refuted"
   ],
   "note": "The area exists and lies between areas of the table for every table, and is exact at every depth after the first; exact everywhere and monotone for tables of non-decreasing areas. For a storage that narrows upwards the area at and below the first depth is the smallest of the table and above the last depth the largest (C11_narrowing_storage_refuted)."
  },
  {
   "property": "C12",
   "status": "proved",
   "theorems": [
    "C12_infiltration_within_supply",
    "C12_step_never_raises"
   ],
   "note": ""
  },
  {
   "property": "C13",
   "status": "proved",
   "theorems": [
    "C13_deficit_within_bounds"
   ],
   "note": ""
  },
  {
   "property": "C14",
   "status": "partial",
   "theorems": [
    "C14_balance_error",
    "C14_balance_holds_iff",
    "C14_surface_balance_refuted"
   ],
   "note": "False as stated (C14_surface_balance_refuted). Proved: the exact balance error and when it vanishes."
  },
  {
   "property": "C15",
   "status": "proved",
   "theorems": [
    "C15_runoff"
   ],
   "note": ""
  },
  {
   "property": "C16",
   "status": "partial",
   "theorems": [
    "C16_sum_is_inertia_friction_and_minor_losses",
    "C16_sum_with_darcy_weisbach",
    "C16_darcy_weisbach_still_water_raises_refuted",
    "C16_wet_network_coefficients",
    "C16_advection",
    "C16_one_velocity_per_junction"
   ],
   "note": "Proved for every friction formula that has a value: Manning, Hazen-Williams, and Darcy-Weisbach with moving water. With Darcy-Weisbach and zero flow the code raises (C16_darcy_weisbach_still_water_raises_refuted)."
  },
  {
   "property": "C17",
   "status": "proved",
   "theorems": [
    "C17_forward_relation_holds_for_every_solution",
    "C17_solution_exists_for_any_end_depths"
   ],
   "note": ""
  },
  {
   "property": "C18",
   "status": "proved",
   "theorems": [
    "C18_backward_relation_holds_for_every_solution"
   ],
   "note": ""
  },
  {
   "property": "C19",
   "status": "proved",
   "theorems": [
    "C19_sweeps_never_divide_by_zero"
   ],
   "note": ""
  },
  {
   "property": "C20",
   "status": "proved",
   "theorems": [
    "C20_end_flows_and_depths_solve_boundary_system",
    "C20_determinant_does_not_vanish",
    "C20_default_head_relation",
    "C20_wet_superlink_determinant_at_least_one",
    "C20_alternative_end_depths"
   ],
   "note": ""
  },
  {
   "property": "C21",
   "status": "proved",
   "theorems": [
    "C21_reported_state_satisfies_momentum_and_continuity",
    "C21_superlink_conserves_volume"
   ],
   "note": ""
  },
  {
   "property": "C22",
   "status": "proved",
   "theorems": [
    "C22_row_is_water_balance",
    "C22_step_balances_every_junction"
   ],
   "note": ""
  },
  {
   "property": "C23",
   "status": "proved",
   "theorems": [
    "C23_boundary_row_prescribes_head",
    "C23_step_takes_prescribed_heads"
   ],
   "note": ""
  },
  {
   "property": "C24",
   "status": "proved",
   "theorems": [
    "C24_assembly_is_history_independent"
   ],
   "note": ""
  },
  {
   "property": "C25",
   "status": "proved",
   "theorems": [
    "C25_controls_conserve_water"
   ],
   "note": ""
  },
  {
   "property": "C26",
   "status": "proved",
   "theorems": [
    "C26_step_conserves_volume",
    "C26_object_conserves_volume"
   ],
   "note": ""
  },
  {
   "property": "C27",
   "status": "proved",
   "theorems": [
    "C27_solved_system_has_exactly_one_solution",
    "C27_wet_superlinks_have_ordered_conductances"
   ],
   "note": "Existence and uniqueness, through column dominance of the reduced matrix."
  },
  {
   "property": "C28",
   "status": "proved",
   "theorems": [
    "C28_water_at_rest_stays_at_rest",
    "C28_controls_idle_at_rest",
    "C28_rest_lasts_for_every_history"
   ],
   "note": ""
  },
  {
   "property": "C29",
   "status": "proved",
   "theorems": [
    "C29_banded_layout",
    "C29_banded_and_dense_systems_agree"
   ],
   "note": ""
  },
  {
   "property": "C30",
   "status": "partial",
   "theorems": [
    "C30_bandwidth_covers_permuted_network",
    "C30_bandwidth_misses_connections_refuted",
    "C30_covering_bandwidth_gives_the_dense_solution"
   ],
   "note": "False as stated: the bandwidth search stops at the first empty diagonal (C30_bandwidth_misses_connections_refuted). Proved for networks numbered in an order with the Cuthill-McKee property (what auto_permute requests from scipy; the property of scipy's order is a hypothesis), and that a covering bandwidth gives the dense solution."
  },
  {
   "property": "C31",
   "status": "proved",
   "theorems": [
    "C31_limits_hold_after_any_history",
    "C31_admissible_heads_are_kept"
   ],
   "note": ""
  },
  {
   "property": "C32",
   "status": "proved",
   "theorems": [
    "C32_renumbered_system_has_renumbered_solutions",
    "C32_step_commutes_with_renumbering"
   ],
   "note": ""
  },
  {
   "property": "C33",
   "status": "partial",
   "theorems": [
    "C33_orifice_discharge_is_the_law",
    "C33_orifice_direction_and_closing",
    "C33_equal_heads_give_no_flow_refuted",
    "C33_closed_orifice_passes_nothing",
    "C33_closing_circular_orifice_raises_refuted",
    "C33_object_reports_orifice_law"
   ],
   "note": "False as stated at equal heads, where a partly submerged orifice still discharges (C33_equal_heads_give_no_flow_refuted); closing a circular or elliptical orifice raises. Proved otherwise."
  },
  {
   "property": "C34",
   "status": "partial",
   "theorems": [
    "C34_orifice_cannot_overdrain",
    "C34_equal_heads_overdrain_refuted"
   ],
   "note": "False as stated at equal heads, where the cap uses the downstream volume (C34_equal_heads_overdrain_refuted). Proved for unequal heads."
  },
  {
   "property": "C35",
   "status": "proved",
   "theorems": [
    "C35_linearised_orifice_reproduces_its_discharge",
    "C35_linearised_weir_reproduces_its_discharge",
    "C35_linearised_orifice_around_any_flow",
    "C35_linearised_weir_around_any_flow",
    "C35_linearised_pump_reproduces_its_discharge",
    "C35_linearised_controls_are_ordered"
   ],
   "note": ""
  },
  {
   "property": "C36",
   "status": "proved",
   "theorems": [
    "C36_weir_discharge_is_the_law",
    "C36_weir_direction_and_crest",
    "C36_weir_discharge_monotone",
    "C36_object_reports_weir_law"
   ],
   "note": ""
  },
  {
   "property": "C37",
   "status": "proved",
   "theorems": [
    "C37_pump_flow",
    "C37_object_reports_pump_curve"
   ],
   "note": ""
  },
  {
   "property": "C38",
   "status": "proved",
   "theorems": [
    "C38_generated_tables_form_chains",
    "C38_generated_chain_is_straight",
    "C38_mobile_chain_is_straight",
    "C38_generated_network_well_formed"
   ],
   "note": ""
  },
  {
   "property": "C39",
   "status": "partial",
   "theorems": [
    "C39_oriented_downhill_equal_offsets",
    "C39_downhill_iff",
    "C39_unequal_offsets_refuted"
   ],
   "note": "False as stated for unequal offsets, which are not swapped with the ends (C39_unequal_offsets_refuted). Proved for equal offsets; C39_downhill_iff gives the exact condition."
  },
  {
   "property": "C40",
   "status": "proved",
   "theorems": [
    "C40_step_advances_clock_once"
   ],
   "note": ""
  },
  {
   "property": "C41",
   "status": "partial",
   "theorems": [
    "C41_replay_refuted",
    "C41_same_state_same_future",
    "C41_rollback_replays",
    "C41_load_restores_values",
    "C41_rollback_exact_without_drops"
   ],
   "note": "False as stated: the indicators of submerged ends are not saved (C41_replay_refuted). Proved: if these indicators agree the whole future is the same (any history, any future, any two linear solvers), and rollback is exact without further condition in networks whose superlink ends do not lie above the junction bottoms. Assumes orifice shape codes 1 to 9 and no elliptical links."
  },
  {
   "property": "C42",
   "status": "proved",
   "theorems": [
    "C42_computed_step_within_window",
    "C42_larger_error_never_larger_step",
    "C42_error_at_target_keeps_step",
    "C42_filtered_step_within_window",
    "C42_any_filtered_step",
    "C42_steady_history_keeps_step",
    "C42_filter_larger_error_never_larger_step"
   ],
   "note": ""
  },
  {
   "property": "C43",
   "status": "proved",
   "theorems": [
    "C43_clock_and_retries"
   ],
   "note": ""
  },
  {
   "property": "C44",
   "status": "proved",
   "theorems": [
    "C44_queues_after_one_step",
    "C44_queues_after_any_history"
   ],
   "note": ""
  },
  {
   "property": "C45",
   "status": "partial",
   "theorems": [
    "C45_large_error_only_when_exhausted",
    "C45_default_tolerance_respected",
    "C45_retries_ignore_tolerance_refuted"
   ],
   "note": "False as stated: retries drop the user's tolerance (C45_retries_ignore_tolerance_refuted). Proved for the tolerance in force (the caller's at the first attempt, 1 afterwards), hence for callers using the default."
  },
  {
   "property": "C46",
   "status": "partial",
   "theorems": [
    "C46_table_holds_last_record",
    "C46_initial_record_refuted"
   ],
   "note": "Proved for record_state. False for the record made at construction, which files the model's states under the current time (C46_initial_record_refuted)."
  },
  {
   "property": "C47",
   "status": "proved",
   "theorems": [
    "C47_zero_innovation_keeps_system",
    "C47_perfect_observation_solves_to_data",
    "C47_covariances_stay_symmetric",
    "C47_observation_reduces_uncertainty",
    "C47_filter_leaves_clock",
    "C47_zero_innovation_keeps_prediction",
    "C47_perfect_observation_yields_data"
   ],
   "note": ""
  },
  {
   "property": "C48",
   "status": "proved",
   "theorems": [
    "C48_recurrence_relations",
    "C48_end_relations"
   ],
   "note": ""
  },
  {
   "property": "C49",
   "status": "partial",
   "theorems": [
    "C49_constant_solves",
    "C49_constant_kept",
    "C49_zero_diffusion_refuted"
   ],
   "note": "Proved: a constant solves the transport equations, and the step keeps it with positive diffusion. False for zero diffusion (C49_zero_diffusion_refuted)."
  },
  {
   "property": "C50",
   "status": "proved",
   "theorems": [
    "C50_superlink_bounds",
    "C50_superlink_solution",
    "C50_step_bounds",
    "C50_step_exact"
   ],
   "note": ""
  },
  {
   "property": "C51",
   "status": "proved",
   "theorems": [
    "C51_step_limits"
   ],
   "note": ""
  },
  {
   "property": "C52",
   "status": "proved",
   "theorems": [
    "C52_control_rows",
    "C52_controls_conserve",
    "C52_system_is_balance"
   ],
   "note": ""
  },
  {
   "property": "C53",
   "status": "partial",
   "theorems": [
    "C53_reposition_keeps_superlink",
    "C53_repositions_keep_superlink",
    "C53_later_superlinks_refuted",
    "C53_end_length_refuted",
    "C53_constructed_chain_intact",
    "C53_flow_after_upstream_shift_refuted",
    "C53_starting_positions",
    "C53_constructed_positions"
   ],
   "note": "Proved for the first superlink, and for others while the downstream head is outside the range of the pipe's end inverts. Refuted: later superlinks, the length of the end piece, and the flow written after an upstream shift."
  },
  {
   "property": "C54",
   "status": "partial",
   "theorems": [
    "C54_sorted_tables_are_read_back",
    "C54_unsorted_tables_are_swapped_refuted"
   ],
   "note": "Proved for dictionaries in alphabetical order; otherwise tables are mixed up (C54_unsorted_tables_are_swapped_refuted)."
  },
  {
   "property": "C55",
   "status": "proved",
   "theorems": [
    "C55_infiltration_follows_green_ampt"
   ],
   "note": ""
  },
  {
   "property": "C56",
   "status": "partial",
   "theorems": [
    "C56_saturated_soil_recovers_refuted",
    "C56_python_class_recovers",
    "C56_python_class_releases",
    "C56_ponded_film_refuted"
   ],
   "note": "With numba: refuted, a saturated element stays saturated whatever the later rainfall (C56_saturated_soil_recovers_refuted). Without numba: saturation ends in every step whose water the soil can conduct (C56_python_class_releases), and without ponding, or with a film and steps of at most a second, the deficit becomes the full one (C56_python_class_recovers). Refuted for both classes: with steps longer than a second a film of ponded water is never used up and the deficit never recovers (C56_ponded_film_refuted)."
  },
  {
   "property": "C57",
   "status": "proved",
   "theorems": [
    "C57_mass_balance"
   ],
   "note": ""
  },
  {
   "property": "C58",
   "status": "proved",
   "theorems": [
    "C58_no_history_fails",
    "C58_simulation_never_fails"
   ],
   "note": ""
  },
  {
   "property": "C59",
   "status": "proved",
   "theorems": [
    "C59_section_quantities",
    "C59_rise",
    "C59_width_of_survey",
    "C59_dry_below_survey",
    "C59_positive_above_a_point",
    "C59_width_is_growth_of_area"
   ],
   "note": "Surveys running left to right (a survey running right to left gets negative widths). Positivity needs distinct x values."
  },
  {
   "property": "C60",
   "status": "partial",
   "theorems": [
    "C60_table_conveys",
    "C60_area_of_table",
    "C60_above_survey",
    "C60_link_reads_its_transect",
    "C60_unknown_name_refuted",
    "C60_raised_survey_refuted"
   ],
   "note": "Proved: own table, conveyance, error bound, constant above the survey. False as stated: an unknown name silently gives the first transect (C60_unknown_name_refuted), and depth is measured from elevation 0, not from the lowest surveyed point (C60_raised_survey_refuted)."
  },
  {
   "property": "C61",
   "status": "partial",
   "theorems": [
    "C61_imported_flows_balance_at_junctions",
    "C61_open_channels_conserve_volume",
    "C61_coupled_runs_keep_bounds",
    "C61_round_area_is_hydraulic_area",
    "C61_round_pipes_refuted",
    "C61_two_passes_refuted"
   ],
   "note": "Proved for all sections and any number of passes: balance of the face flows at every internal junction, and at every superjunction without prescribed head when there are no controls. Proved for open rectangular channels, one pass per step and no active limit: conservation everywhere, bounds and progress of coupled runs of any length. False for round pipes (C61_round_pipes_refuted) and for more than one pass per step (C61_two_passes_refuted). With controls the balance holds for the linearised control flows while the water-quality model reads the reported ones (C22)."
  },
  {
   "property": "C62",
   "status": "partial",
   "theorems": [
    "C62_max_norm_bounds_every_head",
    "C62_rms_norm_bounds_mean_square",
    "C62_error_finite_above_datum",
    "C62_count_norm_refuted",
    "C62_mean_norm_refuted",
    "C62_below_datum_refuted"
   ],
   "note": "Proved for the maximum and the root-mean-square norm, of any model; the error is finite if no head is below the datum. False for norm 1 (signed mean, C62_mean_norm_refuted), for norm 0 (C62_count_norm_refuted) and for heads at -1 mm (C62_below_datum_refuted)."
  },
  {
   "property": "C63",
   "status": "partial",
   "theorems": [
    "C63_covariance_stays_valid",
    "C63_measurement_pulls_estimate",
    "C63_agreeing_measurement_changes_nothing",
    "C63_assimilation_defined",
    "C63_tracking_defined",
    "C63_transition_matrix_advances_any_state",
    "C63_first_assimilation_refuted",
    "C63_limits_and_boundaries_refuted",
    "C63_tracking_follows_model",
    "C63_tracking_boundary_refuted",
    "C63_transition_boundary_refuted"
   ],
   "note": "Proved for every history: valid covariances, nonnegative concentrations, and that the operations are defined; from the second assimilation on: values between computed and measured, agreeing measurements change nothing. False: the first assimilation starts from an estimate of zero (C63_first_assimilation_refuted); prescribed concentrations and the upper limit are exceeded (C63_limits_and_boundaries_refuted); the variant without feedback follows the model when it starts with clean water, but its estimate at a prescribed concentration can stay 0 (C63_tracking_boundary_refuted); the transition matrix fails at prescribed concentrations (C63_transition_boundary_refuted). The observation point is not changed between calls."
  },
  {
   "property": "C64",
   "status": "partial",
   "theorems": [
    "C64_python_class_follows_green_ampt",
    "C64_python_class_keeps_bounds",
    "C64_python_class_defined",
    "C64_first_storm_refuted",
    "C64_classes_agree_for_one_step",
    "C64_negative_depth_refuted",
    "C64_saturation_refuted",
    "C64_recovering_soil_refuted"
   ],
   "note": "Proved: from a state reached without numba whose cumulative depth exceeds the tolerance, one step with water gives the same depth in both classes up to an explicit multiple of the tolerance (exactly the same if the surface cannot pond); the class without numba follows the Green-Ampt equation and does not raise while a stated bound holds. False: the first ponding storm on dry soil raises without numba (C64_first_storm_refuted); saturation ends only without numba (C64_saturation_refuted); recovering soil with a negative cumulative depth keeps it or raises without numba (C64_negative_depth_refuted, C64_recovering_soil_refuted). Agreement over a whole history fails for these reasons. scipy's Newton iteration is modelled from its documentation."
  },
  {
   "property": "C65",
   "status": "partial",
   "theorems": [
    "C65_reported_depths_are_a_best_fit",
    "C65_wet_superlinks_are_reconstructed_exactly",
    "C65_nonnegative_variant",
    "C65_agrees_with_the_default_methods",
    "C65_uneven_links_refuted"
   ],
   "note": "Proved when all superlinks have as many links as the first, or one link, and no depth of the superlink is limited; the nonnegative variant is proved for any link counts. False otherwise for the first variant: with different link counts the matrix of one superlink is filled with coefficients of another (C65_uneven_links_refuted). For superlinks of one link the empty system is assumed to be solved without an exception. The solvers are oracles."
  },
  {
   "property": "C66",
   "status": "partial",
   "theorems": [
    "C66_exit_depths",
    "C66_flowing_pipes_solved",
    "C66_mild_free_outfall_refuted",
    "C66_still_or_huge_flow_raises_refuted"
   ],
   "note": "Proved: which exits take the tailwater depth and which keep theirs, with a unique critical depth, for flows that are neither below 1e-31 m3/s nor so large that a full pipe is supercritical. False: a free outfall on a mild slope keeps the uniform depth (C66_mild_free_outfall_refuted), and a pipe without flow that ends below its crown makes every step raise (C66_still_or_huge_flow_raises_refuted). brentq is an oracle that finds a single sign change exactly."
  },
  {
   "property": "C67",
   "status": "partial",
   "theorems": [
    "C67_every_step_raises_without_numba_refuted",
    "C67_steps_run_with_numba",
    "C67_sweeps_agree",
    "C67_momentum_coefficients_agree",
    "C67_damped_and_controlled_links_refuted",
    "C67_flow_coefficients_agree",
    "C67_end_coefficients_refuted",
    "C67_end_depths_refuted",
    "C67_orifices_and_weirs_agree",
    "C67_one_way_orifices_refuted",
    "C67_systems_agree",
    "C67_end_storage_refuted",
    "C67_head_limits_refuted",
    "C67_internals_agree",
    "C67_depth_limits_refuted"
   ],
   "note": "False: every step of the fallback solver raises a TypeError (C67_every_step_raises_without_numba_refuted). Its parts, taken one by one, agree with the compiled ones: the sweeps; the momentum coefficients of links with Manning friction, without controls or damping; the flow coefficients of superlinks with end coefficients 1; orifices (not one-way) and weirs; the system for the heads in the first pass, without end pieces; the depths and flows inside superlinks where no upper limit acts. Outside these cases they differ: C67_damped_and_controlled_links_refuted, C67_end_coefficients_refuted, C67_end_depths_refuted, C67_one_way_orifices_refuted, C67_end_storage_refuted, C67_head_limits_refuted, C67_depth_limits_refuted. Not compared: pumps (their arrays are never set)."
  },
  {
   "property": "C68",
   "status": "partial",
   "theorems": [
    "C68_end_depths_without_friction",
    "C68_friction_refuted",
    "C68_end_flows_vanish_refuted",
    "C68_water_at_rest_stays_at_rest"
   ],
   "note": "Proved without friction in the end pieces (still water, or pieces of no length), and for water at rest in any network. False with friction: the upstream end gains head through friction, and the downstream loss is 9.81 A times too large (C68_friction_refuted); for every wet superlink and every flow there is a roughness at which both end flows are reported as zero whatever the heads (C68_end_flows_vanish_refuted)."
  },
  {
   "property": "C69",
   "status": "partial",
   "theorems": [
    "C69_matrices_reproduce_water_balance",
    "C69_reported_heads_satisfy_exported_step",
    "C69_augmented_form_agrees",
    "C69_boundary_row_reads",
    "C69_sensitivity_to_previous_heads",
    "C69_boundary_heads_refuted",
    "C69_exported_sensitivity_refuted"
   ],
   "note": "Proved at junctions without boundary condition, for reported heads that were not cut off at a limit, and for the augmented form. False at boundary junctions, where the exported row leaves out the prescribed head (C69_boundary_heads_refuted), and for the response to previous heads: A2 leaves out the superlink ends attached to a junction (C69_exported_sensitivity_refuted; C69_sensitivity_to_previous_heads gives the right value)."
  },
  {
   "property": "C70",
   "status": "partial",
   "theorems": [
    "C70_plain_form_is_textbook",
    "C70_square_root_form_transposes_factors",
    "C70_forms_agree_for_diagonal_covariances",
    "C70_default_call_is_plain",
    "C70_square_root_call_refuted",
    "C70_forms_agree_refuted"
   ],
   "note": "The call with SR=True always raises: two values are unpacked into three (C70_square_root_call_refuted). The function behind it agrees with the plain filter for diagonal covariances and identity signal-input matrix; in general it is the textbook filter with transposed Cholesky factors, and differs (C70_forms_agree_refuted)."
  },
  {
   "property": "C71",
   "status": "partial",
   "theorems": [
    "C71_classes_agree_with_compiled",
    "C71_user_slot_refuted",
    "C71_survey_area",
    "C71_survey_width_refuted",
    "C71_raised_survey_refuted"
   ],
   "note": "Proved for all closed-form shapes except floodplains (which raise), given the same slot, and for the areas of surveyed sections whose lowest point is at or below 0. False for a slot the user chose, which the fallback solver does not pass on (C71_user_slot_refuted), for the top width of a full surveyed section, which exceeds the survey by one sampling step (C71_survey_width_refuted), and for surveys above 0, where shallow depths raise (C71_raised_survey_refuted). The perimeter of an ellipse is a given function."
  },
  {
   "property": "C72",
   "status": "proved",
   "theorems": [
    "C72_more_inflow_never_lowers_a_head",
    "C72_heads_move_by_at_most_the_added_water"
   ],
   "note": "For steps of one pass, which is the default number; with more passes the coefficients of the second pass depend on the heads of the first. Lateral inflows along the superlinks are the same in both steps."
  },
  {
   "property": "C73",
   "status": "partial",
   "theorems": [
    "C73_table_class_is_exact",
    "C73_tabular_storages_agree",
    "C73_narrowing_storage_refuted",
    "C73_functional_storages_agree",
    "C73_negative_depth_refuted",
    "C73_every_storage_uses_its_own_table"
   ],
   "note": "Proved: tables inside their range, and everywhere if the storage does not narrow upwards and starts at a depth of at least 0; coefficients at depths of at least 0 (exponent other than -1); own table by name; exact areas at all tabulated depths. False for storages that narrow upwards (C73_narrowing_storage_refuted: there the class is right and the compiled function is not) and at negative depths, which the class also overwrites in the caller's array (C73_negative_depth_refuted)."
  },
  {
   "property": "C74",
   "status": "partial",
   "theorems": [
    "C74_direction_is_a_convention",
    "C74_short_superlinks_always",
    "C74_limited_depth_depends_on_direction_refuted"
   ],
   "note": "Proved for every history if the turned superlinks have at most two links (C74_short_superlinks_always), and for longer ones if no internal depth of a turned superlink is on its upper or lower limit after a pass (C74_direction_is_a_convention). False otherwise (C74_limited_depth_depends_on_direction_refuted): the limits are applied while depths are reconstructed from downstream to upstream, so that equal heads at both ends of a symmetric channel give a flow towards the end that was entered as downstream. Default boundary method ('z') only."
  },
  {
   "property": "C75",
   "status": "partial",
   "theorems": [
    "C75_constants_within_one_percent",
    "C75_share_recovered",
    "C75_constants_order_soils",
    "C75_inches_refuted"
   ],
   "note": "Proved: all three constants within one percent of the published ones, order over soils, share recovered. False as stated for every soil: metres are converted to inches with 39.97 instead of 39.37 (C75_inches_refuted)."
  },
  {
   "property": "C76",
   "status": "partial",
   "theorems": [
    "C76_two_end_pieces",
    "C76_no_end_pieces",
    "C76_generated_superlink",
    "C76_one_end_piece_refuted",
    "C76_still_water_depth_refuted"
   ],
   "note": "Proved for superlinks with both end pieces or none. False with one: the downstream slope is computed where the upstream length is positive, so it is 0 however steep the piece, or not a number (C76_one_end_piece_refuted); with the momentum method the depth of still water is then wrong by the fall of the piece (C76_still_water_depth_refuted)."
  },
  {
   "property": "C77",
   "status": "partial",
   "theorems": [
    "C77_only_what_is_connected_matters",
    "C77_side_by_side",
    "C77_number_of_passes_refuted"
   ],
   "note": "Proved for whole histories when a step makes one pass, or all its passes (tolerance not positive), or the part contains every superjunction (pure renumbering). False otherwise: the number of passes is decided by the largest change of head in the whole model, so a tank ends at 11/9 m instead of 5/4 m because an unconnected tank fills (C77_number_of_passes_refuted). Both models are sound designs (S_Model) with the default boundary method."
  },
  {
   "property": "C78",
   "status": "partial",
   "theorems": [
    "C78_datum_is_a_convention",
    "C78_simulation_without_retries",
    "C78_accepted_steps_refuted"
   ],
   "note": "Proved for sound designs with the default boundary method, for whole histories of steps with any number of passes, and for simulations whose calls have no retries or no subdivisions. False for calls with both: the error of an attempt is divided by the head itself, so the accepted step depends on the datum; measured from 100 m lower, a step of 1 s is accepted that is otherwise halved (C78_accepted_steps_refuted). Tables of storages and sections are of depths. Real arithmetic: in float64 a far datum costs digits."
  },
  {
   "property": "C79",
   "status": "proved",
   "theorems": [
    "C79_constituents_superpose",
    "C79_more_never_gives_less"
   ],
   "note": "While no concentration limit is reached, for hydraulic inputs as in C50 (good_input: wet, diffusing, conserving); the linear solver is any exact one."
  },
  {
   "property": "C80",
   "status": "proved",
   "theorems": [
    "C80_time_origin_is_a_convention"
   ],
   "note": "For every design and every solver, also ones that fail. Real arithmetic: in float64 a late origin costs digits."
  },
  {
   "property": "C81",
   "status": "partial",
   "theorems": [
    "C81_recomputed_flows_and_depths_agree",
    "C81_transit_time",
    "C81_concentrations_in_declared_order",
    "C81_recomputed_concentrations_refuted"
   ],
   "note": "Proved for flows, depths and transit times, after any history, for steps that end with all depths inside their limits (default end method, default boundary method, consecutively numbered superlinks). False for concentrations: link_concentrations_from_recurrence passes its arguments in another order than the functions declare, so clean water gets a positive concentration (C81_recomputed_concentrations_refuted); in the declared order the estimates are exact (C81_concentrations_in_declared_order). np.repeat(x, nk) is read as x[_ki]; a superlink with zero mean flow has no transit time (numpy returns inf)."
  },
  {
   "property": "C82",
   "status": "proved",
   "theorems": [
    "C82_symmetric_models_stay_symmetric",
    "C82_identical_superlinks_share",
    "C82_identical_orifices_share",
    "C82_identical_weirs_share",
    "C82_identical_pumps_share"
   ],
   "note": "For every renumbering that leaves the model as it is, with any number of iterations; the starting object (including the indicators of submerged ends and what was saved last), inputs and loaded states must have the symmetry. Identical superlinks, orifices, weirs and pumps between the same superjunctions are the special cases a user meets. Exact arithmetic: with floats, rounding may break ties. Superlinks that are exchanged by reversing them are covered by C74, not here."
  },
  {
   "property": "C83",
   "status": "partial",
   "theorems": [
    "C83_profile_draws_the_path",
    "C83_profile_draws_the_beds",
    "C83_profile_superlink_fits",
    "C83_profile_overlaps_next_box_refuted",
    "C83_profile_inside_vertical_limits",
    "C83_profile_inside_horizontal_limits",
    "C83_profile_without_superlinks_refuted",
    "C83_profile_needs_two_superjunctions",
    "C83_map_between_superjunctions",
    "C83_map_inside_limits",
    "C83_map_beyond_downstream_end_refuted",
    "C83_surfaces_inside_3d_limits",
    "C83_beds_outside_3d_limits_refuted",
    "C83_profile_parallel_superlinks_refuted"
   ],
   "note": "What plot_profile draws is characterised exactly. Refuted parts: with an upstream margin (dx_uk > 0) a superlink reaches into the next box of the profile, and its last junction is mapped beyond the downstream superjunction; of parallel superlinks only the last is drawn; a path without superlinks in its direction gets vertical limits that are upside down; the 3D limits leave out beds. Proved without these: placement, side by side, inside the limits, and maps between the superjunctions."
  },
  {
   "property": "C84",
   "status": "partial",
   "theorems": [
    "C84_perimeter_is_boundary_length",
    "C84_ellipse_perimeter_is_boundary_length",
    "C84_parabola_perimeter",
    "C84_shallow_parabola_refuted"
   ],
   "note": "Proved for circles, rectangles, triangles, trapezia, for ellipses (given that scipy's ellipeinc is the elliptic integral; existence shown) and for full parabolas. Refuted for shallow water in parabolas: the perimeter is computed as if the full width were reached at the water surface. Floodplain sections are polygons and are covered by C08; wide channels count no sides and force mains are always full, by definition."
  },
  {
   "property": "C85",
   "status": "proved",
   "theorems": [
    "C85_unchanged_flow_is_steady",
    "C85_steady_flow_lasts",
    "C85_steady_for_every_step_length"
   ],
   "note": "Both directions, for the whole object with orifices, weirs and pumps, with the default end_method 'b', while no head or depth is on a limit and the orifices are supplied."
  },
  {
   "property": "C86",
   "status": "partial",
   "theorems": [
    "C86_steady_profile_has_no_momentum_flux",
    "C86_momentum_is_conserved_refuted"
   ],
   "note": "What holds is proved: without lateral inflow the flow is the same along a superlink and friction alone balances weight and pressure. Refuted: the change of momentum flux is not in the balance (C86_momentum_is_conserved_refuted)."
  },
  {
   "property": "C87",
   "status": "partial",
   "theorems": [
    "C87_direction_rule",
    "C87_pipe_is_kept",
    "C87_ends_are_kept_refuted",
    "C87_superlinks_fall_refuted",
    "C87_initial_flow_refuted",
    "C87_supplied_internals_refuted",
    "C87_constructed_superlinks_keep_their_ends"
   ],
   "note": "The rule by which superlinks are turned round is proved, and that superlinks drawn falling, or with equal offsets, keep their ends. Refuted otherwise: the junctions of a rising superlink are exchanged but not its offsets, so its ends move and it may still rise; its initial flow keeps its sign, and supplied internal junctions keep their order."
  },
  {
   "property": "C88",
   "status": "partial",
   "theorems": [
    "C88_renumbering_goes_by_id",
    "C88_forcing_reaches_its_junction",
    "C88_without_renumbering",
    "C88_ids_in_another_order_refuted",
    "C88_same_network_refuted",
    "C88_columns_by_name_refuted",
    "C88_prescribed_heads_follow_the_table",
    "C88_signals_reach_their_controls"
   ],
   "note": "Proved for junction tables listed in the order of their ids: any renumbering, any tables; prescribed heads follow their tables after any adaptive steps. Refuted for tables listed in another order (with auto_permute a junction gets another one's forcing, and superlinks join other junctions than without it) and for forcing tables whose columns are listed in another order (names are ignored)."
  },
  {
   "property": "C89",
   "status": "proved",
   "theorems": [
    "C89_limits_do_not_create_or_lose_elsewhere",
    "C89_overflow_is_lost"
   ],
   "note": "Networks without prescribed heads, default end method, depths inside the superlinks within their limits (as in C26, but with any limits on heads active). The comparison with deeper junctions is for steps of one pass, the default."
  },
  {
   "property": "C90",
   "status": "partial",
   "theorems": [
    "C90_covers_the_data",
    "C90_given_start_refuted",
    "C90_bar_shows_the_share",
    "C90_bar_does_not_go_back",
    "C90_run_of_the_bar",
    "C90_ends_at_100_refuted",
    "C90_single_time_refuted",
    "C90_before_start_refuted"
   ],
   "note": "Refuted for a start given by the user (the model's clock is not moved there, and the bar then overflows), for a run that stops exactly at the end (the last bar printed can be short of 100 %) and for tables with a single time (the bar raises ZeroDivisionError). Proved otherwise."
  },
  {
   "property": "C91",
   "status": "partial",
   "theorems": [
    "C91_no_faster_than_first_order",
    "C91_storages_decay_exactly",
    "C91_end_pieces_do_not_react_refuted"
   ],
   "note": "Proved: no concentration falls faster than implicit first-order decay at the largest rate, so none falls below c exp(-Kt); in networks of storages and controls decay at a common rate is exactly c divided by every (1 + K dt). Refuted with superlinks: their two end pieces do not react (C91_end_pieces_do_not_react_refuted gives the mass that stays)."
  },
  {
   "property": "C92",
   "status": "partial",
   "theorems": [
    "C92_reported_covariance_is_that_of_the_errors",
    "C92_no_correction_is_better",
    "C92_any_number_of_assimilations",
    "C92_networks_without_superlinks",
    "C92_superlinks_refuted"
   ],
   "note": "Proved for the filter's own equations over any number of assimilations, and for the model's step in networks of storages joined by controls; for heads before limits and with the coefficients of the step held fixed. Refuted with superlinks (C92_superlinks_refuted: reported variance 0.02, actual 0.706), because the matrix that carries the covariance forward leaves out the superlink ends."
  },
  {
   "property": "C93",
   "status": "partial",
   "theorems": [
    "C93_filter_uses_what_it_is_given",
    "C93_filter_never_fails",
    "C93_single_noise_source_refuted",
    "C93_noise_reaches_other_heads_refuted",
    "C93_scalar_gauge_error_refuted",
    "C93_defaults_refuted",
    "C93_column_of_readings_refuted"
   ],
   "note": "Proved for arguments that are not matrices of a single column: they are used for what they stand for in every assimilation, and with definite errors of the gauges no assimilation of any sequence fails. Refuted for a single noise source (C93_single_noise_source_refuted, C93_noise_reaches_other_heads_refuted), for a scalar Rcov with another number of gauges than heads, for the default covariances, and for readings in the documented shape (C93_column_of_readings_refuted)."
  },
  {
   "property": "C94",
   "status": "partial",
   "theorems": [
    "C94_suction_head_is_the_capillary_drive",
    "C94_wetter_soils_suck_less",
    "C94_such_soils_are_valid",
    "C94_saturated_soil_refuted"
   ],
   "note": "Proved for every initial moisture below saturation (the integral above the residual moisture, where the tension is finite; the bounds and the monotonicity from the residual moisture on). Refuted at saturation and for an impermeable soil, where the formula divides zero by zero (C94_saturated_soil_refuted)."
  },
  {
   "property": "C95",
   "status": "partial",
   "theorems": [
    "C95_spinup_is_ordinary_steps",
    "C95_spinup_never_fails",
    "C95_each_step_adds_the_trickle",
    "C95_boundary_heads_are_kept",
    "C95_round_orifice_refuted",
    "C95_loading_after_spinup_refuted"
   ],
   "note": "Proved without the repositioning of junctions (off by default). The steps and what follows them: every design and solver. No failure, water added and boundary heads: sound designs, after any history; boundary heads for steps of one pass. Refuted for round orifices without signals (C95_round_orifice_refuted) and for loading the saved state afterwards (C95_loading_after_spinup_refuted)."
  },
  {
   "property": "C96",
   "status": "proved",
   "theorems": [
    "C96_units_and_order_of_gauges_are_conventions"
   ],
   "note": "For every invertible change of readings and every non-zero unit of variance, over any sequence of steps and assimilations; np.linalg.inv is an argument, assumed to return the inverse of every invertible matrix of the number of gauges and nothing else."
  }
 ]
}