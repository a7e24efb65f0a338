(** Audit: the axioms every property theorem rests on, printed at build time. *)
From Verif Require Import Prelude P_Numerics P_Superlink P_Assembly P_Wellposed P_Step P_Banded P_Limits P_Permute P_Controls P_Geometry P_Storage P_Infiltration P_Simulation P_ErrorNorm P_Kalman P_Layout P_Reposition P_Quality P_QualityMass P_QualityCases P_Model P_Replay P_Resume P_Object P_Transect P_Coupling P_CouplingCases P_QualityFilter P_QualityFilterCases P_InfiltrationPy P_InfiltrationPyCases P_LeastSquares P_LeastSquaresCases P_ExitHydraulics P_SuperLinkPy P_SuperLinkPyCases P_MomentumEnds P_Export P_SquareRoot P_GeometryPy P_Compare P_StoragePy P_Mirror P_MirrorCases P_Advection P_SoilConstants P_EndSlopes P_ObjectGeometry P_Embed P_EmbedCases P_EmbedPasses P_Superpose P_TimeOrigin P_Datum P_Diagnostics P_DiagnosticsCases P_Symmetry P_SymmetryCases P_Visualization P_Perimeter P_Steady P_Tables P_Inputs P_Overflow P_Progress P_Decay P_BestEstimate P_FilterSetup P_Suction P_Spinup P_GaugeUnits P_FallbackSystem P_FallbackInternals.

Print Assumptions C01_before_table.
Print Assumptions C01_after_table.
Print Assumptions C01_between_neighbours.
Print Assumptions C01_never_leaves_data.
Print Assumptions C01_nearest_is_nearest_row.
Print Assumptions C02_exact_at_knots.
Print Assumptions C02_affine_between_knots.
Print Assumptions C02_monotone.
Print Assumptions C02_monotone_falling.
Print Assumptions C03_stays_in_bracket.
Print Assumptions C03_terminates_with_answer.
Print Assumptions C03_start_point_discarded_when_decreasing.
Print Assumptions C04_answer_close_to_sign_change.
Print Assumptions C05_returns_only_converged.
Print Assumptions C05_raises_only_when_unconverged.
Print Assumptions C16_sum_is_inertia_friction_and_minor_losses.
Print Assumptions C16_sum_with_darcy_weisbach.
Print Assumptions C16_darcy_weisbach_still_water_raises_refuted.
Print Assumptions C16_wet_network_coefficients.
Print Assumptions C17_forward_relation_holds_for_every_solution.
Print Assumptions C17_solution_exists_for_any_end_depths.
Print Assumptions C18_backward_relation_holds_for_every_solution.
Print Assumptions C19_sweeps_never_divide_by_zero.
Print Assumptions C20_end_flows_and_depths_solve_boundary_system.
Print Assumptions C20_determinant_does_not_vanish.
Print Assumptions C20_default_head_relation.
Print Assumptions C21_reported_state_satisfies_momentum_and_continuity.
Print Assumptions C21_superlink_conserves_volume.
Print Assumptions C22_row_is_water_balance.
Print Assumptions C23_boundary_row_prescribes_head.
Print Assumptions C24_assembly_is_history_independent.
Print Assumptions C25_controls_conserve_water.
Print Assumptions C27_solved_system_has_exactly_one_solution.
Print Assumptions C27_wet_superlinks_have_ordered_conductances.
Print Assumptions C20_wet_superlink_determinant_at_least_one.
Print Assumptions C26_step_conserves_volume.
Print Assumptions C28_water_at_rest_stays_at_rest.
Print Assumptions C29_banded_layout.
Print Assumptions C29_banded_and_dense_systems_agree.
Print Assumptions C30_bandwidth_covers_permuted_network.
Print Assumptions C30_bandwidth_misses_connections_refuted.
Print Assumptions C30_covering_bandwidth_gives_the_dense_solution.
Print Assumptions C31_limits_hold_after_any_history.
Print Assumptions C31_admissible_heads_are_kept.
Print Assumptions C32_renumbered_system_has_renumbered_solutions.
Print Assumptions C32_step_commutes_with_renumbering.
Print Assumptions C33_orifice_discharge_is_the_law.
Print Assumptions C33_orifice_direction_and_closing.
Print Assumptions C33_equal_heads_give_no_flow_refuted.
Print Assumptions C34_orifice_cannot_overdrain.
Print Assumptions C34_equal_heads_overdrain_refuted.
Print Assumptions C36_weir_discharge_is_the_law.
Print Assumptions C36_weir_direction_and_crest.
Print Assumptions C36_weir_discharge_monotone.
Print Assumptions C37_pump_flow.
Print Assumptions C35_linearised_orifice_reproduces_its_discharge.
Print Assumptions C35_linearised_weir_reproduces_its_discharge.
Print Assumptions C35_linearised_orifice_around_any_flow.
Print Assumptions C35_linearised_weir_around_any_flow.
Print Assumptions C35_linearised_pump_reproduces_its_discharge.
Print Assumptions C35_linearised_controls_are_ordered.
Print Assumptions C28_controls_idle_at_rest.
Print Assumptions C06_area_bounded.
Print Assumptions C06_area_monotone.
Print Assumptions C07_area_derivative_is_chord.
Print Assumptions C07_top_width_is_chord.
Print Assumptions C07_parabolic_width_refuted.
Print Assumptions C07_elliptical_width_refuted.
Print Assumptions C07_circular_ellipse_width.
Print Assumptions C08_perimeter_and_radius.
Print Assumptions C09_slot_width.
Print Assumptions C09_width_positive_when_wet.
Print Assumptions C09_elliptical_slot_refuted.
Print Assumptions C33_closed_orifice_passes_nothing.
Print Assumptions C33_closing_circular_orifice_raises_refuted.
Print Assumptions C10_functional_volume_derivative.
Print Assumptions C10_functional_volume_slabs.
Print Assumptions C10_tabular_volume_is_complement_refuted.
Print Assumptions C10_tabular_volume_correct_iff.
Print Assumptions C11_tabular_area_within_table.
Print Assumptions C11_tabular_area_exact_and_monotone.
Print Assumptions C11_tabular_area_exact_after_first.
Print Assumptions C11_narrowing_storage_refuted.
Print Assumptions C10_tabular_volume_above_table.
Print Assumptions C54_sorted_tables_are_read_back.
Print Assumptions C54_unsorted_tables_are_swapped_refuted.
Print Assumptions C12_infiltration_within_supply.
Print Assumptions C12_step_never_raises.
Print Assumptions C55_infiltration_follows_green_ampt.
Print Assumptions C13_deficit_within_bounds.
Print Assumptions C15_runoff.
Print Assumptions C14_balance_error.
Print Assumptions C14_balance_holds_iff.
Print Assumptions C56_saturated_soil_recovers_refuted.
Print Assumptions C14_surface_balance_refuted.
Print Assumptions C42_computed_step_within_window.
Print Assumptions C42_larger_error_never_larger_step.
Print Assumptions C42_error_at_target_keeps_step.
Print Assumptions C42_filtered_step_within_window.
Print Assumptions C42_any_filtered_step.
Print Assumptions C42_steady_history_keeps_step.
Print Assumptions C42_filter_larger_error_never_larger_step.
Print Assumptions C40_step_advances_clock_once.
Print Assumptions C43_clock_and_retries.
Print Assumptions C44_queues_after_one_step.
Print Assumptions C44_queues_after_any_history.
Print Assumptions C45_large_error_only_when_exhausted.
Print Assumptions C45_default_tolerance_respected.
Print Assumptions C45_retries_ignore_tolerance_refuted.
Print Assumptions C46_table_holds_last_record.
Print Assumptions C46_initial_record_refuted.
Print Assumptions C62_max_norm_bounds_every_head.
Print Assumptions C62_rms_norm_bounds_mean_square.
Print Assumptions C62_error_finite_above_datum.
Print Assumptions C62_count_norm_refuted.
Print Assumptions C62_mean_norm_refuted.
Print Assumptions C62_below_datum_refuted.
Print Assumptions C47_zero_innovation_keeps_system.
Print Assumptions C47_perfect_observation_solves_to_data.
Print Assumptions C47_covariances_stay_symmetric.
Print Assumptions C47_observation_reduces_uncertainty.
Print Assumptions C47_filter_leaves_clock.
Print Assumptions C47_zero_innovation_keeps_prediction.
Print Assumptions C47_perfect_observation_yields_data.
Print Assumptions C38_generated_tables_form_chains.
Print Assumptions C38_generated_chain_is_straight.
Print Assumptions C38_mobile_chain_is_straight.
Print Assumptions C39_oriented_downhill_equal_offsets.
Print Assumptions C39_downhill_iff.
Print Assumptions C39_unequal_offsets_refuted.
Print Assumptions C38_generated_network_well_formed.
Print Assumptions C53_reposition_keeps_superlink.
Print Assumptions C53_repositions_keep_superlink.
Print Assumptions C53_later_superlinks_refuted.
Print Assumptions C53_end_length_refuted.
Print Assumptions C53_constructed_chain_intact.
Print Assumptions C53_flow_after_upstream_shift_refuted.
Print Assumptions C48_recurrence_relations.
Print Assumptions C48_end_relations.
Print Assumptions C50_superlink_bounds.
Print Assumptions C50_superlink_solution.
Print Assumptions C50_step_bounds.
Print Assumptions C50_step_exact.
Print Assumptions C49_constant_solves.
Print Assumptions C49_constant_kept.
Print Assumptions C51_step_limits.
Print Assumptions C52_control_rows.
Print Assumptions C52_controls_conserve.
Print Assumptions C52_system_is_balance.
Print Assumptions C57_mass_balance.
Print Assumptions C49_zero_diffusion_refuted.
Print Assumptions C58_no_history_fails.
Print Assumptions C58_simulation_never_fails.
Print Assumptions C41_replay_refuted.
Print Assumptions C41_same_state_same_future.
Print Assumptions C41_rollback_replays.
Print Assumptions C41_load_restores_values.
Print Assumptions C41_rollback_exact_without_drops.
Print Assumptions C23_step_takes_prescribed_heads.
Print Assumptions C22_step_balances_every_junction.
Print Assumptions C26_object_conserves_volume.
Print Assumptions C33_object_reports_orifice_law.
Print Assumptions C36_object_reports_weir_law.
Print Assumptions C37_object_reports_pump_curve.
Print Assumptions C28_rest_lasts_for_every_history.
Print Assumptions C59_section_quantities.
Print Assumptions C59_rise.
Print Assumptions C59_width_of_survey.
Print Assumptions C59_dry_below_survey.
Print Assumptions C59_positive_above_a_point.
Print Assumptions C59_width_is_growth_of_area.
Print Assumptions C60_table_conveys.
Print Assumptions C60_area_of_table.
Print Assumptions C60_above_survey.
Print Assumptions C60_link_reads_its_transect.
Print Assumptions C60_unknown_name_refuted.
Print Assumptions C60_raised_survey_refuted.
Print Assumptions C61_imported_flows_balance_at_junctions.
Print Assumptions C61_open_channels_conserve_volume.
Print Assumptions C61_coupled_runs_keep_bounds.
Print Assumptions C61_round_area_is_hydraulic_area.
Print Assumptions C61_round_pipes_refuted.
Print Assumptions C61_two_passes_refuted.
Print Assumptions C63_covariance_stays_valid.
Print Assumptions C63_measurement_pulls_estimate.
Print Assumptions C63_agreeing_measurement_changes_nothing.
Print Assumptions C63_assimilation_defined.
Print Assumptions C63_tracking_defined.
Print Assumptions C63_transition_matrix_advances_any_state.
Print Assumptions C63_first_assimilation_refuted.
Print Assumptions C63_limits_and_boundaries_refuted.
Print Assumptions C63_tracking_follows_model.
Print Assumptions C63_tracking_boundary_refuted.
Print Assumptions C63_transition_boundary_refuted.
Print Assumptions C56_python_class_recovers.
Print Assumptions C56_python_class_releases.
Print Assumptions C64_python_class_follows_green_ampt.
Print Assumptions C64_python_class_keeps_bounds.
Print Assumptions C64_python_class_defined.
Print Assumptions C64_first_storm_refuted.
Print Assumptions C64_classes_agree_for_one_step.
Print Assumptions C64_negative_depth_refuted.
Print Assumptions C56_ponded_film_refuted.
Print Assumptions C64_saturation_refuted.
Print Assumptions C64_recovering_soil_refuted.
Print Assumptions C65_reported_depths_are_a_best_fit.
Print Assumptions C65_wet_superlinks_are_reconstructed_exactly.
Print Assumptions C65_nonnegative_variant.
Print Assumptions C65_agrees_with_the_default_methods.
Print Assumptions C65_uneven_links_refuted.
Print Assumptions C66_exit_depths.
Print Assumptions C66_flowing_pipes_solved.
Print Assumptions C66_mild_free_outfall_refuted.
Print Assumptions C66_still_or_huge_flow_raises_refuted.
Print Assumptions C67_every_step_raises_without_numba_refuted.
Print Assumptions C67_steps_run_with_numba.
Print Assumptions C67_sweeps_agree.
Print Assumptions C67_momentum_coefficients_agree.
Print Assumptions C67_damped_and_controlled_links_refuted.
Print Assumptions C68_end_depths_without_friction.
Print Assumptions C68_friction_refuted.
Print Assumptions C68_end_flows_vanish_refuted.
Print Assumptions C68_water_at_rest_stays_at_rest.
Print Assumptions C69_matrices_reproduce_water_balance.
Print Assumptions C69_reported_heads_satisfy_exported_step.
Print Assumptions C69_augmented_form_agrees.
Print Assumptions C69_boundary_row_reads.
Print Assumptions C69_sensitivity_to_previous_heads.
Print Assumptions C69_boundary_heads_refuted.
Print Assumptions C69_exported_sensitivity_refuted.
Print Assumptions C70_plain_form_is_textbook.
Print Assumptions C70_square_root_form_transposes_factors.
Print Assumptions C70_forms_agree_for_diagonal_covariances.
Print Assumptions C70_default_call_is_plain.
Print Assumptions C70_square_root_call_refuted.
Print Assumptions C70_forms_agree_refuted.
Print Assumptions C71_classes_agree_with_compiled.
Print Assumptions C71_user_slot_refuted.
Print Assumptions C71_survey_area.
Print Assumptions C71_survey_width_refuted.
Print Assumptions C71_raised_survey_refuted.
Print Assumptions C72_more_inflow_never_lowers_a_head.
Print Assumptions C72_heads_move_by_at_most_the_added_water.
Print Assumptions C73_table_class_is_exact.
Print Assumptions C73_tabular_storages_agree.
Print Assumptions C73_narrowing_storage_refuted.
Print Assumptions C73_functional_storages_agree.
Print Assumptions C73_negative_depth_refuted.
Print Assumptions C73_every_storage_uses_its_own_table.
Print Assumptions C74_direction_is_a_convention.
Print Assumptions C74_short_superlinks_always.
Print Assumptions C74_limited_depth_depends_on_direction_refuted.
Print Assumptions C16_advection.
Print Assumptions C16_one_velocity_per_junction.
Print Assumptions C75_constants_within_one_percent.
Print Assumptions C75_share_recovered.
Print Assumptions C75_constants_order_soils.
Print Assumptions C75_inches_refuted.
Print Assumptions C76_two_end_pieces.
Print Assumptions C76_no_end_pieces.
Print Assumptions C76_generated_superlink.
Print Assumptions C76_one_end_piece_refuted.
Print Assumptions C76_still_water_depth_refuted.
Print Assumptions C53_starting_positions.
Print Assumptions C53_constructed_positions.
Print Assumptions C08_links_of_a_model.
Print Assumptions C08_ends_of_ellipses.
Print Assumptions C77_only_what_is_connected_matters.
Print Assumptions C78_datum_is_a_convention.
Print Assumptions C77_side_by_side.
Print Assumptions C77_number_of_passes_refuted.
Print Assumptions C79_constituents_superpose.
Print Assumptions C79_more_never_gives_less.
Print Assumptions C80_time_origin_is_a_convention.
Print Assumptions C78_simulation_without_retries.
Print Assumptions C78_accepted_steps_refuted.
Print Assumptions C81_recomputed_flows_and_depths_agree.
Print Assumptions C81_transit_time.
Print Assumptions C81_concentrations_in_declared_order.
Print Assumptions C81_recomputed_concentrations_refuted.
Print Assumptions C82_symmetric_models_stay_symmetric.
Print Assumptions C82_identical_superlinks_share.
Print Assumptions C82_identical_orifices_share.
Print Assumptions C82_identical_weirs_share.
Print Assumptions C82_identical_pumps_share.
Print Assumptions C83_profile_draws_the_path.
Print Assumptions C83_profile_draws_the_beds.
Print Assumptions C83_profile_superlink_fits.
Print Assumptions C83_profile_overlaps_next_box_refuted.
Print Assumptions C83_profile_inside_vertical_limits.
Print Assumptions C83_profile_inside_horizontal_limits.
Print Assumptions C83_profile_without_superlinks_refuted.
Print Assumptions C83_profile_needs_two_superjunctions.
Print Assumptions C83_map_between_superjunctions.
Print Assumptions C83_map_inside_limits.
Print Assumptions C83_map_beyond_downstream_end_refuted.
Print Assumptions C83_surfaces_inside_3d_limits.
Print Assumptions C83_beds_outside_3d_limits_refuted.
Print Assumptions C83_profile_parallel_superlinks_refuted.
Print Assumptions C84_perimeter_is_boundary_length.
Print Assumptions C84_ellipse_perimeter_is_boundary_length.
Print Assumptions C84_parabola_perimeter.
Print Assumptions C84_shallow_parabola_refuted.
Print Assumptions C85_unchanged_flow_is_steady.
Print Assumptions C85_steady_flow_lasts.
Print Assumptions C85_steady_for_every_step_length.
Print Assumptions C86_steady_profile_has_no_momentum_flux.
Print Assumptions C86_momentum_is_conserved_refuted.
Print Assumptions C87_direction_rule.
Print Assumptions C87_pipe_is_kept.
Print Assumptions C87_ends_are_kept_refuted.
Print Assumptions C87_superlinks_fall_refuted.
Print Assumptions C87_initial_flow_refuted.
Print Assumptions C87_supplied_internals_refuted.
Print Assumptions C88_renumbering_goes_by_id.
Print Assumptions C88_forcing_reaches_its_junction.
Print Assumptions C87_constructed_superlinks_keep_their_ends.
Print Assumptions C88_without_renumbering.
Print Assumptions C88_ids_in_another_order_refuted.
Print Assumptions C88_same_network_refuted.
Print Assumptions C88_columns_by_name_refuted.
Print Assumptions C88_prescribed_heads_follow_the_table.
Print Assumptions C88_signals_reach_their_controls.
Print Assumptions C89_limits_do_not_create_or_lose_elsewhere.
Print Assumptions C89_overflow_is_lost.
Print Assumptions C90_covers_the_data.
Print Assumptions C90_given_start_refuted.
Print Assumptions C90_bar_shows_the_share.
Print Assumptions C90_bar_does_not_go_back.
Print Assumptions C90_run_of_the_bar.
Print Assumptions C90_ends_at_100_refuted.
Print Assumptions C90_single_time_refuted.
Print Assumptions C90_before_start_refuted.
Print Assumptions C91_no_faster_than_first_order.
Print Assumptions C91_storages_decay_exactly.
Print Assumptions C91_end_pieces_do_not_react_refuted.
Print Assumptions C92_reported_covariance_is_that_of_the_errors.
Print Assumptions C92_no_correction_is_better.
Print Assumptions C92_any_number_of_assimilations.
Print Assumptions C92_networks_without_superlinks.
Print Assumptions C92_superlinks_refuted.
Print Assumptions C93_filter_uses_what_it_is_given.
Print Assumptions C93_filter_never_fails.
Print Assumptions C93_single_noise_source_refuted.
Print Assumptions C93_noise_reaches_other_heads_refuted.
Print Assumptions C93_scalar_gauge_error_refuted.
Print Assumptions C93_defaults_refuted.
Print Assumptions C93_column_of_readings_refuted.
Print Assumptions C94_suction_head_is_the_capillary_drive.
Print Assumptions C94_wetter_soils_suck_less.
Print Assumptions C94_such_soils_are_valid.
Print Assumptions C94_saturated_soil_refuted.
Print Assumptions C95_spinup_is_ordinary_steps.
Print Assumptions C95_spinup_never_fails.
Print Assumptions C95_each_step_adds_the_trickle.
Print Assumptions C95_boundary_heads_are_kept.
Print Assumptions C95_round_orifice_refuted.
Print Assumptions C95_loading_after_spinup_refuted.
Print Assumptions C96_units_and_order_of_gauges_are_conventions.
Print Assumptions C20_alternative_end_depths.
Print Assumptions C67_flow_coefficients_agree.
Print Assumptions C67_end_coefficients_refuted.
Print Assumptions C67_end_depths_refuted.
Print Assumptions C67_orifices_and_weirs_agree.
Print Assumptions C67_one_way_orifices_refuted.
Print Assumptions C67_systems_agree.
Print Assumptions C67_end_storage_refuted.
Print Assumptions C67_head_limits_refuted.
Print Assumptions C67_internals_agree.
Print Assumptions C67_depth_limits_refuted.
