# Formal model of pipedream (mdbartos/pipedream) in Rocq/Coq

Status of this file: sections 1-3 were written before any proof; sections 4-6
(trusted base, findings, what is not modelled) are kept current as the model grows.

## 1. Approach

* **Subject.** The numerical classes `nSuperLink` (with the parts it inherits from
  `SuperLink`), `nGreenAmpt`/`GreenAmpt`, `QualityBuilder`, `Simulation`, the geometry,
  storage and utility modules.  `nSuperLink` is the class users instantiate (the pure-python
  base class cannot take a step by itself, see Findings).
* **Model.** Function by function transcription into Gallina.  Every definition has a comment
  with the file and lines it models, and says where it simplifies.
* **Numbers.** `float64` is modelled by the real numbers `R` of the standard library.
  Rounding, overflow, NaN and infinities are *not* modelled.  A scalar division inside an
  `@njit` function raises `ZeroDivisionError` when the divisor is 0; where the code does not guard
  against that, the model returns `None` (an error value) instead of using Coq's total division.
  `safe_divide` is modelled as written (0 when the denominator is 0).
* **Arrays.** Read/write NumPy arrays are total maps `nat -> R` with a point update; loops are
  the recursion `for_n`; each theorem states index ranges explicitly.  Where the property is about
  sizes, `list` is used.
* **Library oracles.** `scipy.linalg.solve`, `solve_banded`, `spsolve`, `np.linalg.inv`
  and similar are section variables or plain hypotheses "the returned vector solves the system"; nothing
  is assumed about *which* answer they give when there are several.
* **Errors.** Exceptions are values (`option`/`sum`); fuelled loops return an explicit error
  when exhausted, exactly as the code raises.

## 2. Layout

`rocq/theories/`

| file family | content |
|---|---|
| `Prelude.v` | arrays, loops, sums, clamps |
| `M_*.v` | the model: definitions only (each cites `/repo` lines) |
| `S_*.v` | small independent specifications used in theorem statements |
| `L_*.v` | lemmas and proofs |
| `P_*.v` | property theorems `Cxx_...`, each with an `Example` showing that a concrete case meets the hypotheses; some also hold lemmas used only there |
| `Audit.v` | generated: `Print Assumptions` for every property theorem |

`tools/gen.py` writes `_CoqProject`, `MANIFEST.json` and `Audit.v` from `tools/order.txt` and `tools/notes.json`.
`tools/axioms.py` writes the list of section 4 from the output of `coqc Audit.v`.
`tools/mutate.py` edits a model definition in a scratch copy and reports the property theorems whose proofs no longer go through.
`tools/log.py` copies those reports to `seeded/LOG.jsonl`.

## 3. Plan per property

C01/C02 interpolation: list model of `searchsorted`, proof by induction on the table.
C03-C05 root finders: fuelled loops over an arbitrary `f`, `df`; invariant "iterate and bracket stay
inside the initial bracket", sign invariant + IVT for C04.
C06-C09 geometry: real analysis of each closed formula; derivatives with `derivable_pt_lim`.
C10/C11 storage: derivative of the functional volume; tables by list induction; the tabular volume is expected to be **refuted** (`cumtrapz(h, A)` integrates h over A).
C12-C15 Green-Ampt: one-cell state machine, root finder from C03 used inside; invariants by induction over rain histories; C14 expected **refuted** for dt <> 1.
C16-C21 superlink core: coefficients, recurrences over arrays with the real index arithmetic, induction over links; sign invariants for pivots.
C22-C27 assembly: array loops `add_at`, `clear_off_diagonals`, `create_A_matrix`, ...; row lemma by induction over element lists; sums over junctions for conservation; diagonal dominance for uniqueness.
C28 lake at rest: instantiate the coefficient model at a hydrostatic state, show it solves every equation, use C27 for uniqueness.
C29/C30 banded solver: index arithmetic, `nat` lemmas; C30 expected **refuted** in general and proved when no diagonal is skipped.
C31 clamps.  C32 permutation: re-indexing of sums.
C33-C37 control structures: scalar case analysis over all branches.
C38 layout: arithmetic of `cumsum`, `delete`, `linspace`.
C39 orientation: expected **refuted** with unequal offsets, proved for equal ones.
C40 step clock: state machine with oracle solver.
C41 replay: run the whole object twice and relate the runs; **refuted** because `theta_uk/theta_dk`
are not part of the saved state although geometry reads them; proved for the case that they agree, and
for networks whose superlink ends never drop below the junction inverts.
C42-C46 Simulation: state machine over a model oracle, error oracle; C45 expected **refuted** (the recursive call drops `tol`).
C47 Kalman: matrices as functions with dimension-restricted equality.
C48-C52 water quality: same technique as C16-C27 plus a discrete maximum principle.
C53 mobile junctions: list insertion; expected to be partial (global index used on a local slice).
C59/C60 transects: each piece's quantities as an integral or a fraction of its length, summed over the polyline; tables by the interpolation theorems.
C61 coupling of the two solvers: show that the continuity equations the hydraulic step solves are the conservation hypotheses of C49/C50; expected to be **refuted** where areas are not linear in depth.
C62 error metric: characterise each norm by the set of head differences it accepts; **refuted** for norms 0 and 1.
C63 quality Kalman filters: relate the call to C47's filter and the prediction to the step's own system through uniqueness of its solution; **refuted** for the first call, limits and prescribed concentrations.
C64 two infiltration classes: one `step` parametrised by the root finder; convergence of unbounded Newton iteration by concavity; **refuted** for dry, saturated and recovering soil.
C65 least-squares reconstruction: normal equations and kernel of the link matrix; an exact solution has residual 0, so the minimiser is exact; **refuted** for uneven link counts.
C66 exit hydraulics: the squared Froude number decreases strictly with depth (mean value theorem on the half angle), so the critical depth is unique and bracketed; **refuted** for mild free outfalls and pipes at rest.
C67 fallback solver: the masked array sweeps equal the compiled loops, by induction on the round; masks of orifices and weirs cover every case, so no old entry survives; both assemblies give the same closed form of every matrix entry after any number of steps (P_FallbackSystem); the internal depths of all superlinks by induction on the round, with the list of junctions in work as the frontier (P_FallbackInternals); **refuted**: every step raises.
C68 momentum ends: solve the head relation for its flow and compare with the momentum equation; the vanishing flows solve the determinant for the roughness, using the order of the end coefficients from C27; **refuted** with friction.
C69 exported matrices: each exported row against C22's row, and the dependence of the right-hand side on the previous heads; **refuted** at boundary junctions and for the response.
C70 square-root filter: Gram matrices of the stacked QR factors give the textbook filter for transposed Cholesky factors; diagonal factors by induction on columns; **refuted** for the call and for correlated covariances.
C71 array geometry: masked assignments entry by entry; linear interpolation of a table that rises, by induction on the table; **refuted** for chosen slots, survey widths and raised surveys.
C72 comparison of two steps: off-diagonal entries of the solved matrix are not positive and its columns sum to at least surface / step; sum the rows over the junctions where the difference of the heads is positive.
C73 storage classes: interpolation by induction on the table, three cases of the depth; loop over tables by induction on the dictionary; **refuted** for narrowing storages and negative depths.
C74 direction of superlinks: forward and backward recurrences exchange roles under reflection (induction along the superlink), the assembled matrix and right-hand side are the same, the reconstruction agrees because its exact solution is unique; then induction over passes and actions; **refuted** when a limit is active in a superlink of three or more links.
C75 soil constants, C76 end slopes: algebra; **both refuted** as stated.  C08 and C16 were extended to whole objects and networks (P_ObjectGeometry: invariant over passes, loads and histories; P_Advection).
C77 parts of models, C78 datum: simulation between two models (S_Embed relates a part, numbered and measured anew, to a whole; L_Embed recurrences and rows, L_EmbedObject passes, P_Embed histories, P_EmbedCases the two concrete constructions); C77 **refuted** for steps with several passes and a positive tolerance (P_EmbedPasses).
C78 simulations: attempts without retries are sequences of steps and rollbacks (P_Datum); **refuted** with error control.
C79 superposition of constituents: the balances of C48-C50 are linear and have one solution (P_Superpose); C80 origin of time: the stepper commutes with a shift of its clock and tables (M_Forcing, P_TimeOrigin).
C81 diagnostics: both sweep relations hold for the reported state (C17, C18, C21), so flows and depths recomputed from them are the reported ones (P_Diagnostics); transit time and concentrations in P_DiagnosticsCases; **refuted** for concentrations.
C82 symmetry: C77 with a model found inside itself; the step is deterministic, so both images are the same object (P_Symmetry); superlinks and controls in parallel are exchanged by a transposition.
C83 plots: the drawing loop as a fold over the pairs of the path, equal to one list of shapes; membership by position (P_Visualization).
C84 arc lengths: each side of a section as a parametrised curve whose speed has an explicit antiderivative; an upper bound for every parametrisation refutes the parabola (P_Perimeter).
C85 steady flow: a pass started in a state is inverted by uniqueness (the old flows and depths solve the recurrences and the junction system exactly when the steady laws hold), then induction over passes and actions (S_Steady, L_Steady, P_Steady); C86 as a corollary with a backwater as counterexample.
C87 the constructor's loop over superlinks by induction over rows (M_Tables, P_Tables).
C88 sorting renumbered ids is the inverse renumbering, because an increasing map of an interval to itself is the identity; the last model step of an adaptive step ends at the clock's time (P_Inputs).
C89 the balance of C26 with limited heads: the imbalance is the sum over junctions of (limited head - solved head) times what a metre of head there takes up, which is at least the water surface (P_Overflow).
C90 start, end, checkpoints and the bar by induction over the clock times (M_Progress, P_Progress).
C91 comparison with the state from which a step leads to a constant, using the maximum principle (C50, C79), and the mass ledger (P_Decay).
C92 second moments of random vectors under any linear positive expectation; the gain minimises every weighted mean square error by completing the square; errors stay uncorrelated with later noise by induction (P_BestEstimate).
C93 arrays with number of dimensions and shape, NumPy's rules for `@` and broadcasting (M_FilterSetup); where shapes fit this is the filter of C47 and C92; definedness by induction on the calls with positive semidefinite covariances (P_FilterSetup).
C94 both sides have the same derivative in the moisture, so by the mean value theorem they differ by a constant (P_Suction).
C95 induction on the steps of the loop; a bisimulation between objects that differ in clock, counter and saved time only; then C23, C26, C40 and C58 after the history extended by the steps made (P_Spinup).
C96 the inverse of T S T' is the transformed inverse of S, so the gain absorbs the conversion; induction on the sequence of events (P_GaugeUnits).
C22, C23, C26, C28, C33, C36, C37 also hold for the whole object after any history (`P_Object.v`): the last pass of a step is one pass of M_Step.
C58 whole object: compose geometry, coefficients, recurrences, assembly, solution and back-substitution in one state machine; totality by an invariant that every step restores.

In `MANIFEST.json`, *proved* means that the property as worded in `properties.jsonl` is proved of the model, under the
hypotheses its note names.  *partial* means that part of it is proved and the rest is either refuted (a theorem with
`refuted` in its name) or missing; the note says which.

## 4. Trusted base

* The kernel of Coq 8.16.1 and the standard library.  No other library, no plugin, no axiom of our own, no switched-off check.
* The transcription from python to Gallina.  It is checked by reading only; the code was never run.
* The real numbers in place of `float64`.  Nothing here speaks about rounding, overflow or NaN.  A user's `inf` for
  `max_depth` or `c_max` corresponds to any real larger than every value that occurs.
* The linear solvers.  `scipy`/`numpy` solvers appear only as the hypothesis that the returned vector solves the given
  system (`solves`, or `solver M slv` for a function).  `L_Gauss.v` builds such a function, to show that the hypothesis can be met;
  it is not a model of LAPACK.
* What `Print Assumptions` reports, for each property theorem (from compiling `Audit.v`):

<!-- axioms begin -->
* **no axioms** (10 theorems): C30_bandwidth_covers_permuted_network,
  C30_bandwidth_misses_connections_refuted, C54_sorted_tables_are_read_back,
  C54_unsorted_tables_are_swapped_refuted, C38_generated_tables_form_chains,
  C38_generated_network_well_formed, C60_link_reads_its_transect, C60_unknown_name_refuted,
  C67_every_step_raises_without_numba_refuted, C67_steps_run_with_numba.
* **`ClassicalDedekindReals.sig_forall_dec`** (6 theorems): C29_banded_layout,
  C29_banded_and_dense_systems_agree, C70_plain_form_is_textbook, C70_default_call_is_plain,
  C70_square_root_call_refuted, C93_single_noise_source_refuted.
* **`ClassicalDedekindReals.sig_forall_dec`, `FunctionalExtensionality.functional_extensionality_dep`** (168
  theorems): C01_before_table, C01_after_table, C01_between_neighbours, C01_never_leaves_data,
  C01_nearest_is_nearest_row, C02_exact_at_knots, C02_affine_between_knots, C02_monotone,
  C02_monotone_falling, C03_stays_in_bracket, C03_terminates_with_answer,
  C03_start_point_discarded_when_decreasing, C05_returns_only_converged, C05_raises_only_when_unconverged,
  C17_forward_relation_holds_for_every_solution, C17_solution_exists_for_any_end_depths,
  C18_backward_relation_holds_for_every_solution, C20_end_flows_and_depths_solve_boundary_system,
  C20_determinant_does_not_vanish, C21_reported_state_satisfies_momentum_and_continuity,
  C21_superlink_conserves_volume, C22_row_is_water_balance, C23_boundary_row_prescribes_head,
  C24_assembly_is_history_independent, C25_controls_conserve_water,
  C27_solved_system_has_exactly_one_solution, C20_wet_superlink_determinant_at_least_one,
  C30_covering_bandwidth_gives_the_dense_solution, C31_limits_hold_after_any_history,
  C31_admissible_heads_are_kept, C32_renumbered_system_has_renumbered_solutions,
  C10_tabular_volume_is_complement_refuted, C10_tabular_volume_correct_iff, C11_tabular_area_within_table,
  C11_tabular_area_exact_and_monotone, C11_tabular_area_exact_after_first, C11_narrowing_storage_refuted,
  C10_tabular_volume_above_table, C40_step_advances_clock_once, C46_table_holds_last_record,
  C46_initial_record_refuted, C47_zero_innovation_keeps_system, C47_perfect_observation_solves_to_data,
  C47_covariances_stay_symmetric, C47_observation_reduces_uncertainty, C47_filter_leaves_clock,
  C47_zero_innovation_keeps_prediction, C47_perfect_observation_yields_data, C38_generated_chain_is_straight,
  C38_mobile_chain_is_straight, C39_oriented_downhill_equal_offsets, C39_downhill_iff,
  C39_unequal_offsets_refuted, C53_reposition_keeps_superlink, C53_repositions_keep_superlink,
  C53_later_superlinks_refuted, C53_end_length_refuted, C53_constructed_chain_intact,
  C53_flow_after_upstream_shift_refuted, C48_recurrence_relations, C48_end_relations, C50_superlink_bounds,
  C50_superlink_solution, C50_step_bounds, C50_step_exact, C49_constant_solves, C49_constant_kept,
  C51_step_limits, C52_control_rows, C52_controls_conserve, C52_system_is_balance, C57_mass_balance,
  C49_zero_diffusion_refuted, C59_width_of_survey, C59_dry_below_survey, C59_width_is_growth_of_area,
  C63_covariance_stays_valid, C63_measurement_pulls_estimate, C63_agreeing_measurement_changes_nothing,
  C63_assimilation_defined, C63_tracking_defined, C63_transition_matrix_advances_any_state,
  C63_first_assimilation_refuted, C63_limits_and_boundaries_refuted, C63_tracking_follows_model,
  C63_tracking_boundary_refuted, C63_transition_boundary_refuted, C65_reported_depths_are_a_best_fit,
  C65_wet_superlinks_are_reconstructed_exactly, C65_nonnegative_variant, C65_agrees_with_the_default_methods,
  C65_uneven_links_refuted, C67_sweeps_agree, C69_matrices_reproduce_water_balance,
  C69_reported_heads_satisfy_exported_step, C69_augmented_form_agrees, C69_boundary_row_reads,
  C69_sensitivity_to_previous_heads, C69_boundary_heads_refuted, C69_exported_sensitivity_refuted,
  C70_square_root_form_transposes_factors, C70_forms_agree_for_diagonal_covariances, C73_table_class_is_exact,
  C73_tabular_storages_agree, C73_narrowing_storage_refuted, C76_two_end_pieces, C76_no_end_pieces,
  C76_generated_superlink, C76_one_end_piece_refuted, C53_starting_positions, C53_constructed_positions,
  C79_constituents_superpose, C79_more_never_gives_less, C81_transit_time,
  C81_concentrations_in_declared_order, C81_recomputed_concentrations_refuted, C83_profile_draws_the_path,
  C83_profile_draws_the_beds, C83_profile_superlink_fits, C83_profile_overlaps_next_box_refuted,
  C83_profile_inside_vertical_limits, C83_profile_inside_horizontal_limits,
  C83_profile_without_superlinks_refuted, C83_profile_needs_two_superjunctions,
  C83_map_between_superjunctions, C83_map_inside_limits, C83_map_beyond_downstream_end_refuted,
  C83_surfaces_inside_3d_limits, C83_beds_outside_3d_limits_refuted, C83_profile_parallel_superlinks_refuted,
  C87_direction_rule, C87_pipe_is_kept, C87_ends_are_kept_refuted, C87_superlinks_fall_refuted,
  C87_initial_flow_refuted, C87_supplied_internals_refuted, C88_renumbering_goes_by_id,
  C88_forcing_reaches_its_junction, C87_constructed_superlinks_keep_their_ends, C88_without_renumbering,
  C88_ids_in_another_order_refuted, C88_same_network_refuted, C88_columns_by_name_refuted,
  C90_covers_the_data, C90_given_start_refuted, C90_bar_shows_the_share, C90_bar_does_not_go_back,
  C90_run_of_the_bar, C90_ends_at_100_refuted, C90_single_time_refuted, C90_before_start_refuted,
  C91_end_pieces_do_not_react_refuted, C92_reported_covariance_is_that_of_the_errors, C92_superlinks_refuted,
  C93_filter_uses_what_it_is_given, C93_filter_never_fails, C93_noise_reaches_other_heads_refuted,
  C93_scalar_gauge_error_refuted, C93_defaults_refuted, C93_column_of_readings_refuted,
  C96_units_and_order_of_gauges_are_conventions, C20_alternative_end_depths, C67_end_coefficients_refuted,
  C67_systems_agree, C67_end_storage_refuted, C67_head_limits_refuted, C67_internals_agree,
  C67_depth_limits_refuted.
* **`ClassicalDedekindReals.sig_forall_dec`, `ClassicalDedekindReals.sig_not_dec`,
  `FunctionalExtensionality.functional_extensionality_dep`** (41 theorems): C04_answer_close_to_sign_change,
  C33_orifice_discharge_is_the_law, C33_orifice_direction_and_closing, C33_equal_heads_give_no_flow_refuted,
  C34_orifice_cannot_overdrain, C34_equal_heads_overdrain_refuted, C36_weir_discharge_is_the_law,
  C36_weir_direction_and_crest, C36_weir_discharge_monotone, C35_linearised_orifice_reproduces_its_discharge,
  C35_linearised_weir_reproduces_its_discharge, C35_linearised_orifice_around_any_flow,
  C35_linearised_weir_around_any_flow, C42_computed_step_within_window, C42_larger_error_never_larger_step,
  C42_error_at_target_keeps_step, C43_clock_and_retries, C44_queues_after_one_step,
  C44_queues_after_any_history, C45_large_error_only_when_exhausted, C45_default_tolerance_respected,
  C45_retries_ignore_tolerance_refuted, C62_max_norm_bounds_every_head, C62_rms_norm_bounds_mean_square,
  C62_error_finite_above_datum, C62_count_norm_refuted, C62_mean_norm_refuted, C62_below_datum_refuted,
  C59_rise, C59_positive_above_a_point, C60_table_conveys, C70_forms_agree_refuted, C71_survey_area,
  C71_survey_width_refuted, C71_raised_survey_refuted, C75_constants_within_one_percent, C75_share_recovered,
  C75_constants_order_soils, C75_inches_refuted, C67_orifices_and_weirs_agree, C67_one_way_orifices_refuted.
* **`ClassicalDedekindReals.sig_forall_dec`, `Classical_Prop.classic`,
  `FunctionalExtensionality.functional_extensionality_dep`** (3 theorems): C92_no_correction_is_better,
  C92_any_number_of_assimilations, C92_networks_without_superlinks.
* **`ClassicalDedekindReals.sig_forall_dec`, `ClassicalDedekindReals.sig_not_dec`, `Classical_Prop.classic`,
  `FunctionalExtensionality.functional_extensionality_dep`** (142 theorems):
  C16_sum_is_inertia_friction_and_minor_losses, C16_sum_with_darcy_weisbach,
  C16_darcy_weisbach_still_water_raises_refuted, C16_wet_network_coefficients,
  C19_sweeps_never_divide_by_zero, C20_default_head_relation, C27_wet_superlinks_have_ordered_conductances,
  C26_step_conserves_volume, C28_water_at_rest_stays_at_rest, C32_step_commutes_with_renumbering,
  C37_pump_flow, C35_linearised_pump_reproduces_its_discharge, C35_linearised_controls_are_ordered,
  C28_controls_idle_at_rest, C06_area_bounded, C06_area_monotone, C07_area_derivative_is_chord,
  C07_top_width_is_chord, C07_parabolic_width_refuted, C07_elliptical_width_refuted,
  C07_circular_ellipse_width, C08_perimeter_and_radius, C09_slot_width, C09_width_positive_when_wet,
  C09_elliptical_slot_refuted, C33_closed_orifice_passes_nothing, C33_closing_circular_orifice_raises_refuted,
  C10_functional_volume_derivative, C10_functional_volume_slabs, C12_infiltration_within_supply,
  C12_step_never_raises, C55_infiltration_follows_green_ampt, C13_deficit_within_bounds, C15_runoff,
  C14_balance_error, C14_balance_holds_iff, C56_saturated_soil_recovers_refuted, C14_surface_balance_refuted,
  C42_filtered_step_within_window, C42_any_filtered_step, C42_steady_history_keeps_step,
  C42_filter_larger_error_never_larger_step, C58_no_history_fails, C58_simulation_never_fails,
  C41_replay_refuted, C41_same_state_same_future, C41_rollback_replays, C41_load_restores_values,
  C41_rollback_exact_without_drops, C23_step_takes_prescribed_heads, C22_step_balances_every_junction,
  C26_object_conserves_volume, C33_object_reports_orifice_law, C36_object_reports_weir_law,
  C37_object_reports_pump_curve, C28_rest_lasts_for_every_history, C59_section_quantities, C60_area_of_table,
  C60_above_survey, C60_raised_survey_refuted, C61_imported_flows_balance_at_junctions,
  C61_open_channels_conserve_volume, C61_coupled_runs_keep_bounds, C61_round_area_is_hydraulic_area,
  C61_round_pipes_refuted, C61_two_passes_refuted, C56_python_class_recovers, C56_python_class_releases,
  C64_python_class_follows_green_ampt, C64_python_class_keeps_bounds, C64_python_class_defined,
  C64_first_storm_refuted, C64_classes_agree_for_one_step, C64_negative_depth_refuted,
  C56_ponded_film_refuted, C64_saturation_refuted, C64_recovering_soil_refuted, C66_exit_depths,
  C66_flowing_pipes_solved, C66_mild_free_outfall_refuted, C66_still_or_huge_flow_raises_refuted,
  C67_momentum_coefficients_agree, C67_damped_and_controlled_links_refuted, C68_end_depths_without_friction,
  C68_friction_refuted, C68_end_flows_vanish_refuted, C68_water_at_rest_stays_at_rest,
  C71_classes_agree_with_compiled, C71_user_slot_refuted, C72_more_inflow_never_lowers_a_head,
  C72_heads_move_by_at_most_the_added_water, C73_functional_storages_agree, C73_negative_depth_refuted,
  C73_every_storage_uses_its_own_table, C74_direction_is_a_convention, C74_short_superlinks_always,
  C74_limited_depth_depends_on_direction_refuted, C16_advection, C16_one_velocity_per_junction,
  C76_still_water_depth_refuted, C08_links_of_a_model, C08_ends_of_ellipses,
  C77_only_what_is_connected_matters, C78_datum_is_a_convention, C77_side_by_side,
  C77_number_of_passes_refuted, C80_time_origin_is_a_convention, C78_simulation_without_retries,
  C78_accepted_steps_refuted, C81_recomputed_flows_and_depths_agree, C82_symmetric_models_stay_symmetric,
  C82_identical_superlinks_share, C82_identical_orifices_share, C82_identical_weirs_share,
  C82_identical_pumps_share, C84_perimeter_is_boundary_length, C84_ellipse_perimeter_is_boundary_length,
  C84_parabola_perimeter, C84_shallow_parabola_refuted, C85_unchanged_flow_is_steady, C85_steady_flow_lasts,
  C85_steady_for_every_step_length, C86_steady_profile_has_no_momentum_flux,
  C86_momentum_is_conserved_refuted, C88_prescribed_heads_follow_the_table, C88_signals_reach_their_controls,
  C89_limits_do_not_create_or_lose_elsewhere, C89_overflow_is_lost, C91_no_faster_than_first_order,
  C91_storages_decay_exactly, C94_suction_head_is_the_capillary_drive, C94_wetter_soils_suck_less,
  C94_such_soils_are_valid, C94_saturated_soil_refuted, C95_spinup_is_ordinary_steps, C95_spinup_never_fails,
  C95_each_step_adds_the_trickle, C95_boundary_heads_are_kept, C95_round_orifice_refuted,
  C95_loading_after_spinup_refuted, C67_flow_coefficients_agree, C67_end_depths_refuted.
<!-- axioms end -->

All four are axioms of the standard library: two of its construction of the reals, functional extensionality, and excluded middle.

## 5. Findings

Behaviour of the code that a user would not expect.  A name in parentheses is the theorem that shows it on the model; the others
were found while transcribing and are not theorems.

**Hydraulics**

* Friction by Darcy-Weisbach divides by zero when the water is still (`C16_darcy_weisbach_still_water_raises_refuted`).
* With `bc_method='b'` the end coefficient kappa adds the friction term without the 1/(gA) its other terms have, and with the same sign at both ends (nsuperlink.py:2316-2343): upstream, friction raises the head (`C68_friction_refuted`).  Rough enough end pieces make the determinant vanish, and `safe_divide` then reports zero end flows (`C68_end_flows_vanish_refuted`).
* Switching a junction's boundary flag after assembly leaves entries of the old kind in the matrix.
* The bandwidth search stops at the first empty diagonal, so it can miss connections (`C30_bandwidth_misses_connections_refuted`).
* The downstream end slope is computed where the *upstream* end length is positive (superlink.py:733 tests `dx_uk`; `C76_one_end_piece_refuted`, `C76_still_water_depth_refuted`).
* Orienting a superlink downhill swaps its ends but not its offsets (`C39_unequal_offsets_refuted`).
* `step(dt=None)` raises TypeError although `None` is the default.  The base class `SuperLink.step` always raises TypeError.
* `save_state` omits `theta_uk`/`theta_dk`, so a replayed step can differ (`C41_replay_refuted`).  It also omits `h_uk`, `h_dk`, the iteration count, orifice areas and moved junction positions.
* The Courant number of a superlink divides by its flow, which may be zero.
* A link that names an unknown transect silently gets the first one (`C60_unknown_name_refuted`).
* Transect tables start at elevation 0 but are looked up by depth: a survey in absolute elevations has no area at ordinary depths (`C60_raised_survey_refuted`).
* The documentation shows transects as lists with `horiz_points`; the code calls `y.max()`, which lists do not have, and reads only `sample_points`.
* Moving internal junctions indexes a local slice with a global index, forgets the end length, and assigns flows to the wrong links after an upstream shift (`C53_later_superlinks_refuted`, `C53_end_length_refuted`, `C53_flow_after_upstream_shift_refuted`).

**Controls**

* A partly submerged orifice between equal heads still discharges (`C33_equal_heads_give_no_flow_refuted`).
* At equal heads the volume cap looks at the downstream junction (`C34_equal_heads_overdrain_refuted`).
* Closing a circular or elliptical orifice divides by zero (`C33_closing_circular_orifice_raises_refuted`).  An opening of 0 is also the default.
* A pump curve with a negative base gives NaN.
* The reported flow is the capped nonlinear law at the new heads, while the solved system used linearised coefficients.  With a previous flow of 0 the linearised coefficients are 0.
* The volume cap uses volumes from the start of the iteration.

**Geometry and storage**

* The parabolic section's area and top width do not belong to the same shape (`C07_parabolic_width_refuted`).
* The elliptical width is a chord only for a circle, and the shape has no slot (`C07_elliptical_width_refuted`, `C09_elliptical_slot_refuted`).
* The wetted perimeter of a full closed rectangle omits the lid.
* End geometry never computes the perimeter of an ellipse, so the hydraulic radius at such ends is 0 for ever (`C08_ends_of_ellipses`).  A circle or ellipse of size 0 divides by zero.
* The force-main orifice ignores the head, and orifices have no code 10.
* Tabular volume integrates depth over area instead of area over depth (`C10_tabular_volume_is_complement_refuted`).
* At and below its first depth the tabular area is the smallest of the table and above its last depth the largest: wrong for a storage that narrows upwards (`C11_narrowing_storage_refuted`).
* With several named tables, offsets are right only if the names are in alphabetical order (`C54_unsorted_tables_are_swapped_refuted`).  A table that no junction uses raises KeyError.
* The `Functional` storage class changes the caller's array.

**Reconstruction of internal depths**

* `lsq` finds the rows of a superlink's matrix with offsets that are right only if all superlinks have as many links as the first, or one (`_k_1k`, superlink.py:656).  Otherwise it mixes coefficients of different superlinks (`C65_uneven_links_refuted`).
* `nnls` does not apply the minimum depth.

**Exit hydraulics** (option `exit_hydraulics`)

* The computation of normal depths is commented out (superlink.py:4072), so they stay zero and the branches for mild and critical slopes are dead: a free outfall keeps the depth of the pipe (`C66_mild_free_outfall_refuted`).
* A pipe at rest that ends below its crown makes the step raise: the logarithm is minus infinity at both ends of the bracket (`C66_still_or_huge_flow_raises_refuted`).  A network starts at rest.
* By reading: `np.asscalar` no longer exists in NumPy 1.23 and later; every cross-section is treated as round.

**Fallback solver without numba** (superlink.py, exported by hydraulics.py when numba is missing)

* `_setup_step` passes `_dt` to two methods that do not take it (superlink.py:4040-4041 against 2304 and 2348), so every step raises a TypeError (`C67_every_step_raises_without_numba_refuted`).
* Controls of links act through C A|Q|/A_c^2 in one solver and through A|Q|/(A_c C)^2 in the other; the damping factor is ignored (`C67_damped_and_controlled_links_refuted`).
* The loss coefficient of superlink ends multiplies in one solver and divides squared in the other, a factor C^3 (`C67_end_coefficients_refuted`; the default is 1/0.67^2). Ends above a low junction get negative depths (`C67_end_depths_refuted`), one-way orifices flow back (`C67_one_way_orifices_refuted`), end pieces store no water (`C67_end_storage_refuted`), depths inside superlinks have no upper limit (`C67_depth_limits_refuted`), junctions cannot fall below `min_depth` (`C67_head_limits_refuted`).
* By reading: with two or more pumps `_dHp[_dHp > _dHp_max] = _dHp_max` (superlink.py:2647, 3130) assigns an array of another length and raises.
* The array sections ignore a slot width the user gave (`C71_user_slot_refuted`); a surveyed section is one sampling step too wide when full (`C71_survey_width_refuted`) and raises below its lowest point if that lies above 0 (`C71_raised_survey_refuted`).
* By reading: the constructor itself raises, since `_shape_ik` is a plain array (superlink.py:434) and `configure_hydraulic_geometry` uses it as a Series (1623).
* By reading: `orifice_hydraulic_geometry` passes the depths of all orifices with the dimensions of one shape (superlink.py:1928), so orifices of two shapes do not broadcast.
* The storage classes and the compiled functions differ for storages that narrow upwards (`C73_narrowing_storage_refuted`) and below the bottom (`C73_negative_depth_refuted`); the functional class overwrites negative depths in the caller's array; a superjunction whose table is missing keeps its old area and volume without a message (`C73_every_storage_uses_its_own_table`).
* The limits on internal depths are applied inside the reconstruction from downstream to upstream, so results depend on the direction in which a superlink was entered; a symmetric channel at rest whose ends rise equally gets a flow in its middle link, towards opposite ends in the two descriptions (`C74_limited_depth_depends_on_direction_refuted`).
* With several passes and a positive head tolerance, parts of a model that are not connected influence each other: the passes end for all when the largest change of any head is small (`C77_number_of_passes_refuted`).
* The error that decides about a retry is divided by the head itself (simulation.py 322-332), not by a depth: the higher a model lies above its datum, the larger the steps that are accepted (`C78_accepted_steps_refuted`: 1 s instead of 1/2 s at 100 m); at heads near -1 mm the divisor vanishes.
* `link_concentrations_from_recurrence` (nquality.py 927-949) passes (X, c, Y, Z, c_end) and (U, c, V, W, c_start) to functions that declare (c, c_end, X, Y, Z) and (c, c_start, U, V, W): it returns Y X + Z + c_end c instead of X c + Y + Z c_end (`C81_recomputed_concentrations_refuted`).
* C83: `plot_profile` and the network maps measure positions from the start of the upstream margin dx_uk but lengths without it. With dx_uk > 0 a superlink is drawn into the next superjunction of the profile, and its last internal junction is mapped beyond the downstream superjunction (`C83_profile_overlaps_next_box_refuted`, `C83_map_beyond_downstream_end_refuted`).
* C83: `plot_profile` shows only the last of parallel superlinks. A path that follows no superlink in its direction (uphill, or along orifices, weirs and pumps) shows boxes only, with the vertical axis upside down. A path of one superjunction raises (`C83_profile_parallel_superlinks_refuted`, `C83_profile_without_superlinks_refuted`, `C83_profile_needs_two_superjunctions`).
* C83: the vertical limits of `plot_network_3d` start at the lowest water surface, so beds below it are cut off (`C83_beds_outside_3d_limits_refuted`).
* C84: area and perimeter of a parabolic link are computed as if the full width were reached at the water surface. With 1 cm of water in a ditch 1 m high and wide, the perimeter is more than half a metre; the wetted boundary is at most 12 cm long (`C84_parabola_perimeter`, `C84_shallow_parabola_refuted`).
* C86: in steady flow without lateral inflow the advection terms cancel (they multiply differences of flows, not of velocities), so momentum that the water gains or loses where the section changes has no effect: profiles are those of friction alone, without velocity head (`C86_steady_profile_has_no_momentum_flux`, `C86_momentum_is_conserved_refuted`).
* C87: the constructor (superlink.py:299-310) turns rising superlinks round by exchanging their two junctions, but not `in_offset` and `out_offset`, the sign of `Q_0`, or supplied internal junctions. A pipe from a bottom at 0 m to 2 m above a bottom at 1 m becomes a pipe from 1 m to 2 m: both ends have moved, and it still rises (`C87_ends_are_kept_refuted`, `C87_superlinks_fall_refuted`, `C87_initial_flow_refuted`, `C87_supplied_internals_refuted`).
* C88: with `auto_permute` the junction table is sorted by its id column but forcing columns are permuted by position, so a table not listed in the order of its ids gives junctions each other's inflows and prescribed heads, even when the permutation is the identity; superlinks then also join other junctions than without `auto_permute` (`C88_ids_in_another_order_refuted`, `C88_same_network_refuted`). Column names of forcing tables are ignored (`C88_columns_by_name_refuted`).
* C89: water cut off at a full junction is not reported anywhere; moreover the superlinks' flows are recomputed from the cut heads without a new balance, so more is lost than the water above the maximum depth (`C89_overflow_is_lost`).
* C90: `t_start` given by the user is only stored: the model's clock stays where it was, so the run does not start there (simulation.py 152-159) and the bar has more than 50 cells and a negative percentage until the clock arrives (`C90_given_start_refuted`, `C90_before_start_refuted`). A run that stops exactly at `t_end` can leave the bar below 100 %, because the last checkpoint is `t_end` itself (`C90_ends_at_100_refuted`). With a single time in the tables the bar divides by zero after the first step (`C90_single_time_refuted`).
* C91: the coefficients of the two end pieces of every superlink are computed with reaction rate 0 (nquality.py 385, 391), so constituents there do not decay (`C91_end_pieces_do_not_react_refuted`).
* C92: because that A2 leaves out the superlink ends, the filter can report errors far smaller than they are, and then corrects too little (`C92_superlinks_refuted`: reported variance 0.02, actual 0.706).
* C93: `X.shape[0] == X.size` in the set-up of the filter (simulation.py 170-205) takes matrices of one column for vectors. With a single noise source the constructor raises or the first assimilation does; with Pxx given and Qcov a vector of length one the noise goes to every head (`C93_single_noise_source_refuted`, `C93_noise_reaches_other_heads_refuted`).
* C93: a scalar Rcov becomes an M by M matrix whatever the number of gauges, so no assimilation with another number of gauges works (`C93_scalar_gauge_error_refuted`); with the default covariances the first assimilation inverts a zero matrix (`C93_defaults_refuted`).
* C93: readings passed as the documented column (b x 1) turn the right-hand side into a matrix (`C93_column_of_readings_refuted`); a one-dimensional array works.
* C94: the suction head of a saturated soil (theta_i = theta_s) or of an impermeable one is 0/0, nan for arrays, although the factors cancel and the value is 0 at saturation (`C94_saturated_soil_refuted`).
* C95: `spinup()` without signals closes every orifice, which raises for round ones (`C95_round_orifice_refuted`). With `reset_counters` the saved time is not reset: `load_state()` after spin-up goes back one step and puts the clock at (n-1) dt (`C95_loading_after_spinup_refuted`).
* By reading: with pumps the constructor never sets `_ap_h` and `_ap_q`; end pieces of superlinks are left out of the continuity coefficients; the friction method is ignored.

**Infiltration**

* The ponding update lacks a factor dt and counts runoff twice (`C14_surface_balance_refuted`).
* In `nGreenAmpt` a saturated cell never recovers (`C56_saturated_soil_recovers_refuted`); in `GreenAmpt` it does (`C56_python_class_releases`).
* In both classes the ponded depth changes by (rainfall rate - infiltration rate), not multiplied by the step.  With steps longer than a second a film never disappears, so the soil never recovers (`C56_ponded_film_refuted`).
* Without numba, the first storm that ponds on dry soil raises: the derivative at depth 0 is 0 (`C64_first_storm_refuted`).
* Without numba, a storm on soil with negative cumulative depth ends with a negative depth or raises (`C64_recovering_soil_refuted`).
* A dry step on saturated soil can report a rate slightly below 0, and cumulative infiltration goes negative during recovery.
* Metres are converted to inches with 39.97 instead of 39.37 (`C75_inches_refuted`).
* The bounded Newton method in `utils.py` returns None.

**Simulation and filters**

* Retries drop the caller's tolerance and norm (`C45_retries_ignore_tolerance_refuted`).
* Norm 1 averages signed errors, which cancel (`C62_mean_norm_refuted`), and norm 0 counts only positive ones (`C62_count_norm_refuted`).
* The error is scaled by the larger head instead of the larger magnitude, so it depends on the datum and is not finite one millimetre below it (`C62_below_datum_refuted`).
* The first record stores the states under the current time, whatever time they belong to (`C46_initial_record_refuted`).
* Step sizes are not clamped when there is no error estimate, fewer than three records or a NaN.  With one subdivision the history holds None and raises TypeError.
* An explicit `t_start` does not set the model's clock.
* The square-root Kalman filter returns two values and its caller unpacks three, so no call returns (`C70_square_root_call_refuted`).  It uses NumPy's lower Cholesky factors as if they were upper ones and does not read the signal-input matrix C (utils.py:163-181, `C70_forms_agree_refuted`).
* `state_space_system` and `_augmented_system` return D without the prescribed heads, so the rows of boundary junctions read H = D + Q (superlink.py:3839-3849, 3904, `C69_boundary_heads_refuted`).  A2 holds the junction's own area only, while the step also stores water in the attached superlink ends (`C69_exported_sensitivity_refuted`); the Kalman filter uses the same A2 to carry its covariance forward.

**Water quality**

* Without diffusion an upstream boundary coefficient vanishes and the first concentration becomes 0 (`C49_zero_diffusion_refuted`).  The last one does so under reverse flow.
* The storage term differs from the change of mass by (change of volume)(change of concentration); `C57_mass_balance` states it exactly.
* Only the first link's shape code is used, and end areas read the diameter at a superlink index.  The default end length of 0 divides by zero.
* In round pipes the imported areas follow the circle, but the imported face flows use the width at the start of the step, so volume is not conserved (`C61_round_pipes_refuted`).
* With more than one pass per hydraulic step, the previous area of a link is the one at the start of the last pass (`C61_two_passes_refuted`).
* The previous area of an open channel is limited to the height of its walls, the next one is not.
* The control flows the water-quality model reads are the reported ones, while the hydraulic balance holds for the linearised ones.
* The water-quality `step(dt=None)` raises: the default is put in place only after `import_hydraulic_states` has used `dt`.
* The first assimilation starts from an estimate of 0, so the mass initially stored at the superjunctions is dropped (`C63_first_assimilation_refuted`).
* The filter clamps concentrations at 0 but not at the maximum, and changes prescribed concentrations (`C63_limits_and_boundaries_refuted`).
* The filter treats rows of prescribed concentrations as if they stored mass: a deviation there is multiplied by volume over time step (`C63_transition_boundary_refuted`), and the estimate of the variant without feedback can stay 0 for ever (`C63_tracking_boundary_refuted`).
* Changing the observation point after a call leaves the old one in the observation matrix (by reading; not in the model).

## 6. What is modelled and what is not

| code | model |
|---|---|
| nutils.py, utils.py | M_Numerics: interpolation, root finders (utils.py: same loops, see the comments) |
| ngeometry.py | M_Geometry: all closed-form sections and orifice openings; M_Transect: surveyed sections and their tables |
| geometry.py | M_GeometryPy: all classes.  Not: the elliptic integrals of the ellipse's perimeter |
| storage.py, storage part of superlink.py | M_Storage (compiled functions), M_StoragePy (classes and their callers) |
| ninfiltration.py | M_Infiltration: one cell; cells are independent in the code.  M_InfiltrationPy: the `GreenAmpt` class used without numba, with scipy's Newton iteration |
| nsuperlink.py step | M_Coeffs, M_Recurrence, M_Controls, M_Assembly, M_Banded, M_Step |
| `lsq` and `nnls` reconstructions | M_LeastSquares, with oracles for the solvers |
| diagnostics recomputed from the recurrence (superlink.py 3733-3809, nquality.py 927-949) | M_Diagnostics |
| `exit_hydraulics` | M_ExitHydraulics, with an oracle for `brentq` |
| superlink.py methods that nsuperlink.py overrides | M_SuperLinkPy: the calls of a step, the sweeps, the momentum coefficients; M_FallbackSystem: ends, orifices, weirs, assembly, limits of heads, `solve_superlink_depths_alt`; M_FallbackInternals: `solve_internals_backwards`.  Not: pumps, end methods 'j' and 'o' outside the sweeps, `solve_internals_forwards`, geometry tables |
| superlink.py constructor tables, mobile junctions | M_Layout: the index arithmetic and coordinates.  Not: reading data frames, column checks |
| superlink.py `save_state`, `load_state`, whole step | M_Model: the complete hydraulic object |
| simulation.py | M_Simulation over an abstract model and error estimate; the Kalman updates in M_Kalman and M_SquareRoot (with oracles for the factorisations); the exported system matrices (superlink.py) in M_Export |
| nquality.py step | M_Quality: the step; M_Coupling: `import_hydraulic_states` with its geometry, and coupled steps; M_QualityFilter: the Kalman filters, with an oracle for the matrix inverse |
| visualization.py | M_Visualization: the points, polygons and limits handed to matplotlib.  Not: styles, control lines, stems and fills of the 3D plot |
| geometry.py `Elliptical.Pe_ik` | M_Perimeter, with scipy's incomplete elliptic integral as a parameter |
| superlink.py constructor: direction of superlinks, `permute_network`; simulation.py: permuted forcing columns, named heads | M_Tables, with the order found by reverse_cuthill_mckee as an argument |
| simulation.py: start, end, checkpoints, `print_progress` | M_Progress; the clock time shown beside the bar is left out |
| simulation.py: set-up of the Kalman filter | M_FilterSetup, with the shapes of arrays |
| infiltration.py: `_s2`, `suction_head` | M_Suction; `None` for a zero division or a negative base |
| superlink.py: `spinup` | M_Spinup, without repositioning of junctions |

Not modelled at all: the other superlink.py functions that nsuperlink.py overrides, hydrology/hydraulics/transport (re-exports), data frames, logging.

Simplifications, beyond those of section 1:

* Superlinks are numbered 0..NK-1 in every loop, as the constructor arranges.
* `argsort` is a stable sort.
* The simulation's error estimate is a real number, and its Kalman step uses an oracle for the matrix inverse.
* The water-quality step is stated for every solution of its linear system.
* The Cuthill-McKee ordering is any permutation.
* M_Model takes the table of a transect as part of the design; `C60_table_conveys` shows that the tables M_Transect builds meet its hypotheses.  Its internal junctions do not move.  It leaves out `exit_hydraulics`
  (off by default) and the `nnls` and `lsq` reconstructions, which M_ExitHydraulics and M_LeastSquares model on their own.  The perimeter of an ellipse is a given function.
