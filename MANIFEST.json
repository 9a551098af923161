{
 "claims": [
  {
   "property": "C01",
   "status": "proved",
   "theorems": [
    "C01_history_xs_round_trip"
   ],
   "note": "History returns exactly the parameter vectors that were added"
  },
  {
   "property": "C02",
   "status": "proved",
   "theorems": [
    "C02_history_evals_round_trip"
   ],
   "note": "Evaluations are stored with the right point and in call order"
  },
  {
   "property": "C03",
   "status": "proved",
   "theorems": [
    "C03_history_counts_and_no_padding"
   ],
   "note": "The evaluation counter is exact and storage padding never leaks"
  },
  {
   "property": "C04",
   "status": "proved",
   "theorems": [
    "C04_history_fvals_aggregate_fvecs"
   ],
   "note": "Stored scalar values are the aggregate of the stored vectors"
  },
  {
   "property": "C05",
   "status": "proved",
   "theorems": [
    "C05_rejected_add_evals_no_effect"
   ],
   "note": "Rejected add_evals calls have no effect"
  },
  {
   "property": "C06",
   "status": "partial",
   "theorems": [
    "C06_failed_add_evals_atomic_partial",
    "C06_failed_add_evals_atomic_refuted"
   ],
   "note": "The full statement is false of the model; the _refuted theorem gives the counterexample, the _partial theorem the part that holds."
  },
  {
   "property": "C07",
   "status": "proved",
   "theorems": [
    "C07_region_query_exact"
   ],
   "note": "The region query returns exactly the points inside the region"
  },
  {
   "property": "C08",
   "status": "proved",
   "theorems": [
    "C08_model_data_aligned"
   ],
   "note": "Averaged model data pairs every point with the mean of its own evaluations"
  },
  {
   "property": "C09",
   "status": "partial",
   "theorems": [
    "C09_model_data_lengths_partial",
    "C09_model_data_lengths_refuted"
   ],
   "note": "The full statement is false of the model; the _refuted theorem gives the counterexample, the _partial theorem the part that holds."
  },
  {
   "property": "C10",
   "status": "proved",
   "theorems": [
    "C10_wrapped_criterion_exact",
    "C10_empty_request_no_effect"
   ],
   "note": "The wrapped criterion performs and records exactly the requested evaluations"
  },
  {
   "property": "C11",
   "status": "proved",
   "theorems": [
    "C11_scalar_failures_become_inf"
   ],
   "note": "Failed and NaN evaluations of scalar criteria are stored as +inf and nothing else is altered"
  },
  {
   "property": "C12",
   "status": "partial",
   "theorems": [
    "C12_vector_failure_recorded_refuted",
    "C12_vector_failure_recorded_partial"
   ],
   "note": "The full statement is false of the model; the _refuted theorem gives the counterexample, the _partial theorem the part that holds."
  },
  {
   "property": "C13",
   "status": "partial",
   "theorems": [
    "C13_fvals_not_nan_partial",
    "C13_fvals_not_nan_refuted"
   ],
   "note": "The full statement is false of the model; the _refuted theorem gives the counterexample, the _partial theorem the part that holds."
  },
  {
   "property": "C14",
   "status": "proved",
   "theorems": [
    "C14_cube_inside_bounds_contains_center",
    "C14_cube_not_degenerate"
   ],
   "note": "Cube trust regions are boxes inside the bounds that contain the center"
  },
  {
   "property": "C15",
   "status": "proved",
   "theorems": [
    "C15_sphere_never_reaches_bounds"
   ],
   "note": "Spherical trust regions never reach a bound"
  },
  {
   "property": "C16",
   "status": "proved",
   "theorems": [
    "C16_unit_maps_inverse_sphere",
    "C16_unit_maps_inverse_cube",
    "C16_effective_center_and_radius"
   ],
   "note": "Mapping to unit space and back is lossless"
  },
  {
   "property": "C17",
   "status": "proved",
   "theorems": [
    "C17_map_from_unit_cube_in_bounds"
   ],
   "note": "Points mapped from the unit cube satisfy the bounds"
  },
  {
   "property": "C18",
   "status": "partial",
   "theorems": [
    "C18_one_sided_bounds_partial",
    "C18_one_sided_bounds_refuted"
   ],
   "note": "The full statement is false of the model; the _refuted theorem gives the counterexample, the _partial theorem the part that holds."
  },
  {
   "property": "C19",
   "status": "proved",
   "theorems": [
    "C19_conversion_preserves_volume",
    "C19_radius_inverts_volume",
    "C19_volume_scaling",
    "C19_cube_radius_at_most_sphere_radius"
   ],
   "note": "Sphere and cube radii describe equal volumes and convert back and forth losslessly"
  },
  {
   "property": "C20",
   "status": "proved",
   "theorems": [
    "C20_radius_in_limits"
   ],
   "note": "The radius update stays in [min_radius, max_radius]"
  },
  {
   "property": "C21",
   "status": "proved",
   "theorems": [
    "C21_radius_direction",
    "C21_no_growth_after_bad_step",
    "C21_default_rejection_halves"
   ],
   "note": "The radius grows, stays or shrinks as documented"
  },
  {
   "property": "C22",
   "status": "partial",
   "theorems": [
    "C22_radius_positive_with_ratio_partial",
    "C22_radius_positive_with_ratio_refuted"
   ],
   "note": "The full statement is false of the model; the _refuted theorem gives the counterexample, the _partial theorem the part that holds."
  },
  {
   "property": "C23",
   "status": "partial",
   "theorems": [
    "C23_default_radius_usable_partial",
    "C23_default_radius_usable_refuted"
   ],
   "note": "The full statement is false of the model; the _refuted theorem gives the counterexample, the _partial theorem the part that holds."
  },
  {
   "property": "C24",
   "status": "proved",
   "theorems": [
    "C24_accepted_iff_improvement",
    "C24_accepted_iff_improvement_all"
   ],
   "note": "Accepted candidates improve the criterion by at least min_improvement"
  },
  {
   "property": "C25",
   "status": "proved",
   "theorems": [
    "C25_rejection_keeps_point",
    "C25_accepted_is_history_entry"
   ],
   "note": "A rejected candidate leaves the accepted point untouched"
  },
  {
   "property": "C26",
   "status": "proved",
   "theorems": [
    "C26_accepted_value_is_finite",
    "C26_nonfinite_candidates_rejected"
   ],
   "note": "Non-finite candidates are never accepted"
  },
  {
   "property": "C27",
   "status": "proved",
   "theorems": [
    "C27_rho_formula",
    "C27_deciders_report_rho"
   ],
   "note": "rho is defined for all inputs and equals actual over expected improvement"
  },
  {
   "property": "C28",
   "status": "proved",
   "theorems": [
    "C28_exact_number_of_evaluations"
   ],
   "note": "Every decider spends exactly its advertised number of evaluations"
  },
  {
   "property": "C29",
   "status": "proved",
   "theorems": [
    "C29_line_search_accepts_best_of_batch"
   ],
   "note": "The line search returns the best evaluated point of its batch"
  },
  {
   "property": "C30",
   "status": "partial",
   "theorems": [
    "C30_line_search_points_in_bounds_partial",
    "C30_line_search_points_in_bounds_refuted"
   ],
   "note": "The full statement is false of the model; the _refuted theorem gives the counterexample, the _partial theorem the part that holds."
  },
  {
   "property": "C31",
   "status": "partial",
   "theorems": [
    "C31_reported_value_is_mean_partial",
    "C31_reported_value_is_mean_refuted"
   ],
   "note": "The full statement is false of the model; the _refuted theorem gives the counterexample, the _partial theorem the part that holds."
  },
  {
   "property": "C32",
   "status": "proved",
   "theorems": [
    "C32_acceptance_sample_sizes_in_limits",
    "C32_nan_noise_raises"
   ],
   "note": "Acceptance sample sizes respect their limits"
  },
  {
   "property": "C33",
   "status": "proved",
   "theorems": [
    "C33_raw_sample_sizes_power"
   ],
   "note": "The unclipped acceptance sample sizes attain exactly the requested power"
  },
  {
   "property": "C34",
   "status": "proved",
   "theorems": [
    "C34_n_evals_adjustment"
   ],
   "note": "The number of evaluations per point stays within its limits and moves by at most one"
  },
  {
   "property": "C35",
   "status": "proved",
   "theorems": [
    "C35_next_multiple"
   ],
   "note": "next_multiple returns the smallest sufficient multiple of the batch size"
  },
  {
   "property": "C36",
   "status": "proved",
   "theorems": [
    "C36_identity_predicts_entry",
    "C36_sum_predicts_sum",
    "C36_sum_defined_iff_quadratic",
    "C36_least_squares_predicts_sum_of_squares",
    "C36_information_equality_prediction"
   ],
   "note": "Aggregated models predict the aggregate of the vector model"
  },
  {
   "property": "C37",
   "status": "proved",
   "theorems": [
    "C37_aggregated_hessian_definiteness"
   ],
   "note": "Aggregated Hessians are symmetric and definite as expected"
  },
  {
   "property": "C38",
   "status": "proved",
   "theorems": [
    "C38_moved_scalar_model_predicts_the_same",
    "C38_moved_vector_model_predicts_the_same",
    "C38_shift_vector_model_modifies_argument"
   ],
   "note": "Moving a model to another spherical region does not change its predictions"
  },
  {
   "property": "C39",
   "status": "partial",
   "theorems": [
    "C39_vector_radius_partial",
    "C39_vector_radius_vector_model_partial",
    "C39_vector_radius_refuted"
   ],
   "note": "The full statement is false of the model; the _refuted theorem gives the counterexample, the _partial theorem the part that holds."
  },
  {
   "property": "C40",
   "status": "partial",
   "theorems": [
    "C40_sum_of_scalar_models_partial",
    "C40_sum_of_vector_models_partial",
    "C40_dropped_square_terms_partial",
    "C40_sum_of_models_refuted",
    "C40_regions_agree"
   ],
   "note": "The full statement is false of the model; the _refuted theorem gives the counterexample, the _partial theorem the part that holds."
  },
  {
   "property": "C41",
   "status": "proved",
   "theorems": [
    "C41_free_params_match_features",
    "C41_second_order_terms"
   ],
   "note": "Numbers of free parameters match the feature matrices"
  },
  {
   "property": "C42",
   "status": "proved",
   "theorems": [
    "C42_fitted_model_predicts_features_times_coefs",
    "C42_wrong_number_of_coefficients_raises",
    "C42_fitter_template_predicts_features_times_coefs"
   ],
   "note": "The fitted Hessian reproduces the fitted regression function"
  },
  {
   "property": "C43",
   "status": "proved",
   "theorems": [
    "C43_fit_tranquilo_minimizes_penalty_weighted_norm",
    "C43_fitted_values_of_rescaled_regression"
   ],
   "note": "Penalty rescaling does not change which function is fitted"
  },
  {
   "property": "C44",
   "status": "proved",
   "theorems": [
    "C44_powell_never_raises"
   ],
   "note": "The powell fitter always selects an applicable method"
  },
  {
   "property": "C45",
   "status": "partial",
   "theorems": [
    "C45_poly_value_partial",
    "C45_poly_value_column_major_partial",
    "C45_poly_value_refuted"
   ],
   "note": "The full statement is false of the model; the _refuted theorem gives the counterexample, the _partial theorem the part that holds."
  },
  {
   "property": "C46",
   "status": "proved",
   "theorems": [
    "C46_clip_relative_finite"
   ],
   "note": "Infinite function values are replaced by finite ones and finite ones are kept"
  },
  {
   "property": "C47",
   "status": "partial",
   "theorems": [
    "C47_clip_order_partial",
    "C47_penalty_values_partial",
    "C47_all_infinite_partial",
    "C47_constant_column_refuted",
    "C47_clip_order_refuted"
   ],
   "note": "The full statement is false of the model; the _refuted theorem gives the counterexample, the _partial theorem the part that holds."
  },
  {
   "property": "C48",
   "status": "proved",
   "theorems": [
    "C48_drop_worst_points_removes_n",
    "C48_drop_excess_bound",
    "C48_too_many_to_drop_raises"
   ],
   "note": "Dropping points removes exactly the requested number and keeps points and indices paired"
  },
  {
   "property": "C49",
   "status": "proved",
   "theorems": [
    "C49_current_point_is_kept"
   ],
   "note": "The current point survives dropping"
  },
  {
   "property": "C50",
   "status": "proved",
   "theorems": [
    "C50_removed_points_are_farthest",
    "C50_interior_rule"
   ],
   "note": "Points outside the trust region are dropped first, farthest first"
  },
  {
   "property": "C51",
   "status": "proved",
   "theorems": [
    "C51_cluster"
   ],
   "note": "Clustering produces a valid partition with genuine centers"
  },
  {
   "property": "C52",
   "status": "partial",
   "theorems": [
    "C52_a_close_point_is_kept_partial",
    "C52_isolated_center_is_kept_partial",
    "C52_center_kept_refuted"
   ],
   "note": "The full statement is false of the model; the _refuted theorem gives the counterexample, the _partial theorem the part that holds."
  },
  {
   "property": "C53",
   "status": "proved",
   "theorems": [
    "C53_improvement_nonnegative",
    "C53_improvement_is_model_decrease"
   ],
   "note": "The subproblem solution is never worse than the center according to the model"
  },
  {
   "property": "C54",
   "status": "proved",
   "theorems": [
    "C54_cube_feasible"
   ],
   "note": "Cube subproblem solutions are feasible"
  },
  {
   "property": "C55",
   "status": "proved",
   "theorems": [
    "C55_fallback_policy"
   ],
   "note": "Fallback solvers are used exactly when requested and needed"
  },
  {
   "property": "C56",
   "status": "partial",
   "theorems": [
    "C56_sphere_feasible_refuted",
    "C56_sphere_feasible_partial"
   ],
   "note": "The full statement is false of the model; the _refuted theorem gives the counterexample, the _partial theorem the part that holds."
  },
  {
   "property": "C57",
   "status": "proved",
   "theorems": [
    "C57_cg_within_radius"
   ],
   "note": "Conjugate gradient steps stay in the trust region"
  },
  {
   "property": "C58",
   "status": "proved",
   "theorems": [
    "C58_cg_residual_and_descent",
    "C58_cg_model_decrease"
   ],
   "note": "Conjugate gradient steps never increase the model"
  },
  {
   "property": "C59",
   "status": "partial",
   "theorems": [
    "C59_stcg_within_radius_partial",
    "C59_stcg_within_radius_refuted"
   ],
   "note": "The full statement is false of the model; the _refuted theorem gives the counterexample, the _partial theorem the part that holds."
  },
  {
   "property": "C60",
   "status": "proved",
   "theorems": [
    "C60_trsbox_in_box"
   ],
   "note": "Box-constrained steps respect the bounds"
  },
  {
   "property": "C61",
   "status": "proved",
   "theorems": [
    "C61_bntr_feasible",
    "C61_bntr_terminates",
    "C61_methods_terminate"
   ],
   "note": "bntr returns a feasible point"
  },
  {
   "property": "C62",
   "status": "proved",
   "theorems": [
    "C62_measure_zero_iff_KKT"
   ],
   "note": "bntr's convergence measure vanishes exactly at stationary points"
  },
  {
   "property": "C63",
   "status": "partial",
   "theorems": [
    "C63_partition_fast",
    "C63_partition_partial",
    "C63_partition_refuted",
    "C63_versions_same_step"
   ],
   "note": "The full statement is false of the model; the _refuted theorem gives the counterexample, the _partial theorem the part that holds."
  },
  {
   "property": "C64",
   "status": "partial",
   "theorems": [
    "C64_accepted_step_partial",
    "C64_accepted_step_refuted"
   ],
   "note": "The full statement is false of the model; the _refuted theorem gives the counterexample, the _partial theorem the part that holds."
  },
  {
   "property": "C65",
   "status": "partial",
   "theorems": [
    "C65_criterion_partial",
    "C65_criterion_refuted"
   ],
   "note": "The full statement is false of the model; the _refuted theorem gives the counterexample, the _partial theorem the part that holds."
  },
  {
   "property": "C66",
   "status": "proved",
   "theorems": [
    "C66_update_radius",
    "C66_radius_within_limits"
   ],
   "note": "bntr's radius updates stay within [1e-10, 1e10]"
  },
  {
   "property": "C67",
   "status": "proved",
   "theorems": [
    "C67_candidate_in_bracket",
    "C67_initial_bracket_ordered"
   ],
   "note": "gqtpar's damping candidates stay in their bracket"
  },
  {
   "property": "C68",
   "status": "proved",
   "theorems": [
    "C68_gershgorin_bounds"
   ],
   "note": "Gershgorin bounds enclose the curvature of the model"
  },
  {
   "property": "C69",
   "status": "proved",
   "theorems": [
    "C69_smallest_step"
   ],
   "note": "The interior-to-boundary step of gqtpar lands on the unit sphere"
  },
  {
   "property": "C70",
   "status": "proved",
   "theorems": [
    "C70_optimality",
    "C70_interior_exit"
   ],
   "note": "A converged damped Newton point is a global minimizer of the ball-constrained model"
  },
  {
   "property": "C71",
   "status": "proved",
   "theorems": [
    "C71_inscribed_cube_in_unit_ball",
    "C71_reparametrized_in_unit_ball",
    "C71_reported_criterion"
   ],
   "note": "Fallback sphere solvers stay in the unit ball"
  },
  {
   "property": "C72",
   "status": "partial",
   "theorems": [
    "C72_ball_and_descent_partial",
    "C72_ordered_coordinates_partial",
    "C72_raises_refuted",
    "C72_outside_bounds_refuted",
    "C72_center_at_bound_refuted"
   ],
   "note": "The full statement is false of the model; the _refuted theorem gives the counterexample, the _partial theorem the part that holds."
  },
  {
   "property": "C73",
   "status": "partial",
   "theorems": [
    "C73_hull_sampler",
    "C73_interior_sampler",
    "C73_optimal_hull_partial",
    "C73_optimal_hull_refuted"
   ],
   "note": "The full statement is false of the model; the _refuted theorem gives the counterexample, the _partial theorem the part that holds."
  },
  {
   "property": "C74",
   "status": "partial",
   "theorems": [
    "C74_optimal_sample_partial",
    "C74_no_points",
    "C74_nan_points_refuted"
   ],
   "note": "The full statement is false of the model; the _refuted theorem gives the counterexample, the _partial theorem the part that holds."
  },
  {
   "property": "C75",
   "status": "proved",
   "theorems": [
    "C75_pairs_considered",
    "C75_pairs_complete",
    "C75_pairs_once"
   ],
   "note": "Distances between existing points are excluded from the sampling criterion, and only those"
  },
  {
   "property": "C76",
   "status": "proved",
   "theorems": [
    "C76_selection",
    "C76_weighted_mean"
   ],
   "note": "Variance estimation uses properly weighted, sufficiently evaluated points"
  },
  {
   "property": "C77",
   "status": "partial",
   "theorems": [
    "C77_finite_partial",
    "C77_single_evaluations",
    "C77_nan_variance_refuted"
   ],
   "note": "The full statement is false of the model; the _refuted theorem gives the counterexample, the _partial theorem the part that holds."
  },
  {
   "property": "C78",
   "status": "proved",
   "theorems": [
    "C78_states_are_consistent",
    "C78_solution_is_last_accepted"
   ],
   "note": "The reported solution is consistent with the history"
  },
  {
   "property": "C79",
   "status": "proved",
   "theorems": [
    "C79_iterations_and_budget"
   ],
   "note": "The optimizer terminates and respects its evaluation budget up to one iteration"
  },
  {
   "property": "C80",
   "status": "proved",
   "theorems": [
    "C80_values_do_not_increase"
   ],
   "note": "Accepted function values never increase"
  },
  {
   "property": "C81",
   "status": "proved",
   "theorems": [
    "C81_value_is_mean_of_evaluations",
    "C81_value_is_criterion_value",
    "C81_deterministic_criterion"
   ],
   "note": "solution_criterion is the value of the criterion at solution_x"
  },
  {
   "property": "C82",
   "status": "proved",
   "theorems": [
    "C82_radius_within_limits"
   ],
   "note": "The trust-region radius stays in its limits during the whole run"
  },
  {
   "property": "C83",
   "status": "proved",
   "theorems": [
    "C83_index_sets"
   ],
   "note": "Model bookkeeping is a partition"
  },
  {
   "property": "C84",
   "status": "proved",
   "theorems": [
    "C84_enough_evaluations"
   ],
   "note": "Every model point has been evaluated often enough"
  },
  {
   "property": "C85",
   "status": "proved",
   "theorems": [
    "C85_current_point_in_model"
   ],
   "note": "The accepted point is always among the model points"
  },
  {
   "property": "C86",
   "status": "proved",
   "theorems": [
    "C86_convergence_criteria",
    "C86_loop_reports_convergence"
   ],
   "note": "Convergence is reported exactly when a documented tolerance is met"
  },
  {
   "property": "C87",
   "status": "partial",
   "theorems": [
    "C87_message_partial",
    "C87_no_message_refuted"
   ],
   "note": "The full statement is false of the model; the _refuted theorem gives the counterexample, the _partial theorem the part that holds."
  },
  {
   "property": "C88",
   "status": "partial",
   "theorems": [
    "C88_max_time_refuted",
    "C88_min_trust_region_radius_refuted"
   ],
   "note": "The full statement is false of the model; the _refuted theorem gives the counterexample, the _partial theorem the part that holds."
  },
  {
   "property": "C89",
   "status": "proved",
   "theorems": [
    "C89_stagnation_loops"
   ],
   "note": "The stagnation loops terminate within their limits"
  },
  {
   "property": "C90",
   "status": "proved",
   "theorems": [
    "C90_evaluations_per_iteration"
   ],
   "note": "The number of evaluations per iteration is bounded"
  },
  {
   "property": "C91",
   "status": "partial",
   "theorems": [
    "C91_progress_partial",
    "C91_converged_without_progress_refuted"
   ],
   "note": "The full statement is false of the model; the _refuted theorem gives the counterexample, the _partial theorem the part that holds."
  },
  {
   "property": "C92",
   "status": "partial",
   "theorems": [
    "C92_candidates_are_not_better_partial",
    "C92_better_point_evaluated_refuted"
   ],
   "note": "The full statement is false of the model; the _refuted theorem gives the counterexample, the _partial theorem the part that holds."
  },
  {
   "property": "C93",
   "status": "partial",
   "theorems": [
    "C93_always_the_start_model_refuted",
    "C93_first_iteration_partial"
   ],
   "note": "The full statement is false of the model; the _refuted theorem gives the counterexample, the _partial theorem the part that holds."
  },
  {
   "property": "C94",
   "status": "proved",
   "theorems": [
    "C94_evaluations_within_bounds"
   ],
   "note": "All criterion evaluations are inside the bounds"
  },
  {
   "property": "C95",
   "status": "proved",
   "theorems": [
    "C95_none",
    "C95_unknown_field",
    "C95_exact_replacement",
    "C95_accepted",
    "C95_conversion_error",
    "C95_tuple",
    "C95_idempotent",
    "C95_int_conversion",
    "C95_number_conversion"
   ],
   "note": "Option bundles: user values override, others keep defaults, unknown names are rejected"
  },
  {
   "property": "C96",
   "status": "proved",
   "theorems": [
    "C96_call",
    "C96_mandatory",
    "C96_mandatory_value_error",
    "C96_unknown_name",
    "C96_not_callable",
    "C96_constructed",
    "C96_invalid_options",
    "C96_raise_redundant_option",
    "C96_raise_redundant_argument"
   ],
   "note": "Component wrappers pass exactly the supported arguments, runtime arguments winning"
  },
  {
   "property": "C97",
   "status": "partial",
   "theorems": [
    "C97_accepted_partial",
    "C97_basic_accepted",
    "C97_defaults_accepted",
    "C97_values_used",
    "C97_unknown_model_type",
    "C97_nan_search_radius_refuted"
   ],
   "note": "The full statement is false of the model; the _refuted theorem gives the counterexample, the _partial theorem the part that holds."
  },
  {
   "property": "C98",
   "status": "partial",
   "theorems": [
    "C98_relative_gradient_refuted"
   ],
   "note": "The full statement is false of the model; the _refuted theorem gives the counterexample, the _partial theorem the part that holds."
  },
  {
   "property": "C99",
   "status": "partial",
   "theorems": [
    "C99_wrong_length_x_rejected_partial",
    "C99_wrong_length_x_rejected_refuted"
   ],
   "note": "The full statement is false of the model; the _refuted theorem gives the counterexample, the _partial theorem the part that holds."
  },
  {
   "property": "C100",
   "status": "proved",
   "theorems": [
    "C100_fit_ridge_minimizes_penalized_error"
   ],
   "note": "Ridge regression minimizes the penalized objective"
  },
  {
   "property": "C101",
   "status": "proved",
   "theorems": [
    "C101_dropping_composes"
   ],
   "note": "Dropping points composes"
  },
  {
   "property": "C102",
   "status": "proved",
   "theorems": [
    "C102_multistart_takes_the_best"
   ],
   "note": "The multistart cube solver takes the best start"
  },
  {
   "property": "C103",
   "status": "proved",
   "theorems": [
    "C103_cg_fast_equals_cg"
   ],
   "note": "The numba conjugate gradient solver equals the numpy one"
  },
  {
   "property": "C104",
   "status": "proved",
   "theorems": [
    "C104_trsbox_within_radius"
   ],
   "note": "trsbox stays in the trustregion"
  },
  {
   "property": "C105",
   "status": "proved",
   "theorems": [
    "C105_trsbox_model_decrease"
   ],
   "note": "trsbox does not increase the model"
  },
  {
   "property": "C106",
   "status": "partial",
   "theorems": [
    "C106_poor_agreement_partial",
    "C106_poor_agreement_refuted",
    "C106_cg_radius_update"
   ],
   "note": "The full statement is false of the model; the _refuted theorem gives the counterexample, the _partial theorem the part that holds."
  },
  {
   "property": "C107",
   "status": "partial",
   "theorems": [
    "C107_fast_raises_refuted",
    "C107_numpy_never_divides_by_zero_partial"
   ],
   "note": "The full statement is false of the model; the _refuted theorem gives the counterexample, the _partial theorem the part that holds."
  },
  {
   "property": "C108",
   "status": "proved",
   "theorems": [
    "C108_bntr_fast_agrees"
   ],
   "note": "The numba bntr solver equals the numpy one"
  },
  {
   "property": "C109",
   "status": "partial",
   "theorems": [
    "C109_interior_minimizer_partial",
    "C109_interior_minimizer_refuted"
   ],
   "note": "The full statement is false of the model; the _refuted theorem gives the counterexample, the _partial theorem the part that holds."
  },
  {
   "property": "C110",
   "status": "partial",
   "theorems": [
    "C110_negative_curvature_partial",
    "C110_negative_curvature_refuted"
   ],
   "note": "The full statement is false of the model; the _refuted theorem gives the counterexample, the _partial theorem the part that holds."
  },
  {
   "property": "C111",
   "status": "partial",
   "theorems": [
    "C111_interior_stationary_refuted",
    "C111_interior_stationary_partial"
   ],
   "note": "The full statement is false of the model; the _refuted theorem gives the counterexample, the _partial theorem the part that holds."
  },
  {
   "property": "C112",
   "status": "proved",
   "theorems": [
    "C112_unsuccessful_lower_bound",
    "C112_failed_pass"
   ],
   "note": "Lower bound after a failed factorization"
  },
  {
   "property": "C113",
   "status": "partial",
   "theorems": [
    "C113_initial_bracket",
    "C113_fresh_pass_partial",
    "C113_bracket_refuted"
   ],
   "note": "The full statement is false of the model; the _refuted theorem gives the counterexample, the _partial theorem the part that holds."
  },
  {
   "property": "C114",
   "status": "proved",
   "theorems": [
    "C114_converged_norm"
   ],
   "note": "Norm of a solution reported by gqtpar"
  },
  {
   "property": "C115",
   "status": "proved",
   "theorems": [
    "C115_run_returns_a_result"
   ],
   "note": "Every run returns a result"
  },
  {
   "property": "C116",
   "status": "proved",
   "theorems": [
    "C116_lagrange_polynomial",
    "C116_value_error",
    "C116_maximizes"
   ],
   "note": "Geometry improving step"
  },
  {
   "property": "C117",
   "status": "proved",
   "theorems": [
    "C117_soft_minimum",
    "C117_monotone",
    "C117_no_distances"
   ],
   "note": "The distance criterion is a soft minimum"
  },
  {
   "property": "C118",
   "status": "partial",
   "theorems": [
    "C118_covariance_partial",
    "C118_single_evaluations_refuted"
   ],
   "note": "The full statement is false of the model; the _refuted theorem gives the counterexample, the _partial theorem the part that holds."
  },
  {
   "property": "C119",
   "status": "partial",
   "theorems": [
    "C119_numeric_options_partial",
    "C119_hardness_refuted",
    "C119_false_string_refuted",
    "C119_none_radius_refuted"
   ],
   "note": "The full statement is false of the model; the _refuted theorem gives the counterexample, the _partial theorem the part that holds."
  },
  {
   "property": "C120",
   "status": "partial",
   "theorems": [
    "C120_warn_refuted",
    "C120_no_default_options_refuted",
    "C120_nameless_callable_refuted"
   ],
   "note": "The full statement is false of the model; the _refuted theorem gives the counterexample, the _partial theorem the part that holds."
  },
  {
   "property": "C121",
   "status": "partial",
   "theorems": [
    "C121_builtins_partial",
    "C121_subsolvers_partial",
    "C121_cube_solver_refuted"
   ],
   "note": "The full statement is false of the model; the _refuted theorem gives the counterexample, the _partial theorem the part that holds."
  },
  {
   "property": "C122",
   "status": "partial",
   "theorems": [
    "C122_defaults_partial",
    "C122_cores_refuted",
    "C122_sample_size_refuted",
    "C122_infinite_limit_refuted"
   ],
   "note": "The full statement is false of the model; the _refuted theorem gives the counterexample, the _partial theorem the part that holds."
  },
  {
   "property": "C123",
   "status": "proved",
   "theorems": [
    "C123_derived_defaults",
    "C123_fit_determined",
    "C123_n_evals_default"
   ],
   "note": "Derived default values"
  },
  {
   "property": "C124",
   "status": "proved",
   "theorems": [
    "C124_one_rho_per_draw"
   ],
   "note": "Simulated rhos come from independent refits of noisy predictions"
  },
  {
   "property": "C125",
   "status": "proved",
   "theorems": [
    "C125_only_variances",
    "C125_diagonal"
   ],
   "note": "Ignoring correlations uses only the variances"
  },
  {
   "property": "C126",
   "status": "proved",
   "theorems": [
    "C126_without_noise_rho_is_one"
   ],
   "note": "Without noise the simulated rhos are one"
  },
  {
   "property": "C127",
   "status": "partial",
   "theorems": [
    "C127_noise_free_decrease_partial",
    "C127_noise_free_increase_refuted"
   ],
   "note": "The full statement is false of the model; the _refuted theorem gives the counterexample, the _partial theorem the part that holds."
  },
  {
   "property": "C128",
   "status": "proved",
   "theorems": [
    "C128_determinant",
    "C128_one_at_own_point_zero_elsewhere",
    "C128_reproduction"
   ],
   "note": "Lagrange polynomials"
  },
  {
   "property": "C129",
   "status": "proved",
   "theorems": [
    "C129_largest_value",
    "C129_unbound_argmax"
   ],
   "note": "The poisedness constant is the largest critical value found"
  },
  {
   "property": "C130",
   "status": "partial",
   "theorems": [
    "C130_poisedness_constant_partial",
    "C130_poisedness_constant_refuted"
   ],
   "note": "The full statement is false of the model; the _refuted theorem gives the counterexample, the _partial theorem the part that holds."
  },
  {
   "property": "C131",
   "status": "partial",
   "theorems": [
    "C131_determinant_partial",
    "C131_replacements",
    "C131_volume_times_lambda_partial",
    "C131_volume_never_decreases_partial",
    "C131_volume_refuted"
   ],
   "note": "The full statement is false of the model; the _refuted theorem gives the counterexample, the _partial theorem the part that holds."
  },
  {
   "property": "C132",
   "status": "proved",
   "theorems": [
    "C132_degenerate_samples",
    "C132_too_few_points",
    "C132_more_points",
    "C132_log_of_determinant",
    "C132_order_irrelevant"
   ],
   "note": "The log determinant quality"
  },
  {
   "property": "C133",
   "status": "partial",
   "theorems": [
    "C133_uniform_within_bounds",
    "C133_uniform_rejects_inconsistent_bounds",
    "C133_invalid_arguments",
    "C133_triangular_within_bounds_partial",
    "C133_triangular_nan_refuted"
   ],
   "note": "The full statement is false of the model; the _refuted theorem gives the counterexample, the _partial theorem the part that holds."
  },
  {
   "property": "C134",
   "status": "proved",
   "theorems": [
    "C134_multistart_values_in_cube"
   ],
   "note": "Starting points of the multistart fallback lie in the cube"
  },
  {
   "property": "C135",
   "status": "proved",
   "theorems": [
    "C135_determinant_criterion",
    "C135_existing_points"
   ],
   "note": "The determinant criterion of the optimal sampler"
  },
  {
   "property": "C136",
   "status": "proved",
   "theorems": [
    "C136_pass",
    "C136_result"
   ],
   "note": "Every pass of bntr solves the problem restricted to the movable parameters"
  },
  {
   "property": "C137",
   "status": "partial",
   "theorems": [
    "C137_first_step_partial",
    "C137_minimizer_refuted"
   ],
   "note": "The full statement is false of the model; the _refuted theorem gives the counterexample, the _partial theorem the part that holds."
  },
  {
   "property": "C138",
   "status": "partial",
   "theorems": [
    "C138_compiled_agrees",
    "C138_compiled_feasible",
    "C138_interpreted_partial",
    "C138_interpreted_refuted"
   ],
   "note": "The full statement is false of the model; the _refuted theorem gives the counterexample, the _partial theorem the part that holds."
  },
  {
   "property": "C139",
   "status": "proved",
   "theorems": [
    "C139_gradient_untouched"
   ],
   "note": "The numba version of trsbox does not change the caller's gradient"
  },
  {
   "property": "C140",
   "status": "proved",
   "theorems": [
    "C140_builtin_components_good"
   ],
   "note": "The built-in components meet the contracts of the main loop"
  },
  {
   "property": "C141",
   "status": "proved",
   "theorems": [
    "C141_deterministic_runs_succeed"
   ],
   "note": "Deterministic runs with built-in components succeed"
  },
  {
   "property": "C142",
   "status": "partial",
   "theorems": [
    "C142_evaluations_within_bounds_partial",
    "C142_evaluations_within_bounds_refuted"
   ],
   "note": "The full statement is false of the model; the _refuted theorem gives the counterexample, the _partial theorem the part that holds."
  },
  {
   "property": "C143",
   "status": "proved",
   "theorems": [
    "C143_evaluated_in_order"
   ],
   "note": "Deterministic runs evaluate each point once, in the order of the history"
  },
  {
   "property": "C144",
   "status": "partial",
   "theorems": [
    "C144_frame",
    "C144_run_partial",
    "C144_run_refuted"
   ],
   "note": "The full statement is false of the model; the _refuted theorem gives the counterexample, the _partial theorem the part that holds."
  },
  {
   "property": "C145",
   "status": "proved",
   "theorems": [
    "C145_indices_in_square_region"
   ],
   "note": "Points of a square region"
  },
  {
   "property": "C146",
   "status": "partial",
   "theorems": [
    "C146_found",
    "C146_ends",
    "C146_does_not_end",
    "C146_nearest_refuted"
   ],
   "note": "The full statement is false of the model; the _refuted theorem gives the counterexample, the _partial theorem the part that holds."
  },
  {
   "property": "C147",
   "status": "partial",
   "theorems": [
    "C147_points_located_partial",
    "C147_points_located_refuted",
    "C147_other_optimizers"
   ],
   "note": "The full statement is false of the model; the _refuted theorem gives the counterexample, the _partial theorem the part that holds."
  },
  {
   "property": "C148",
   "status": "partial",
   "theorems": [
    "C148_iteration",
    "C148_one_iteration",
    "C148_several_iterations",
    "C148_iterations_by_case",
    "C148_rejected",
    "C148_processed_refuted"
   ],
   "note": "The full statement is false of the model; the _refuted theorem gives the counterexample, the _partial theorem the part that holds."
  },
  {
   "property": "C149",
   "status": "proved",
   "theorems": [
    "C149_rhos",
    "C149_cluster_ratio",
    "C149_no_points",
    "C149_distances"
   ],
   "note": "Data of the line plots"
  },
  {
   "property": "C150",
   "status": "partial",
   "theorems": [
    "C150_legend",
    "C150_shown_once",
    "C150_every_name_shown_refuted"
   ],
   "note": "The full statement is false of the model; the _refuted theorem gives the counterexample, the _partial theorem the part that holds."
  },
  {
   "property": "C151",
   "status": "proved",
   "theorems": [
    "C151_get_rng",
    "C151_rejected"
   ],
   "note": "Seeds"
  },
  {
   "property": "C152",
   "status": "proved",
   "theorems": [
    "C152_proposals",
    "C152_rejected"
   ],
   "note": "Proposals for misspelt names"
  },
  {
   "property": "C153",
   "status": "proved",
   "theorems": [
    "C153_built_in",
    "C153_rejected",
    "C153_user"
   ],
   "note": "Sample weights"
  },
  {
   "property": "C154",
   "status": "proved",
   "theorems": [
    "C154_ieee_operations"
   ],
   "note": "The floating-point operations are those of IEEE 754"
  },
  {
   "property": "C155",
   "status": "proved",
   "theorems": [
    "C155_mapped_points_in_bounds",
    "C155_candidate_in_bounds"
   ],
   "note": "Rounding does not push points out of the bounds"
  },
  {
   "property": "C156",
   "status": "partial",
   "theorems": [
    "C156_center_in_unit_cube_partial",
    "C156_center_of_sphere",
    "C156_center_in_unit_cube_refuted"
   ],
   "note": "The full statement is false of the model; the _refuted theorem gives the counterexample, the _partial theorem the part that holds."
  },
  {
   "property": "C157",
   "status": "partial",
   "theorems": [
    "C157_sample_moves_partial",
    "C157_collapse",
    "C157_sample_moves_refuted"
   ],
   "note": "The full statement is false of the model; the _refuted theorem gives the counterexample, the _partial theorem the part that holds."
  },
  {
   "property": "C158",
   "status": "partial",
   "theorems": [
    "C158_projection_in_unit_cube_partial",
    "C158_cube_on_hull",
    "C158_hull_points_in_bounds_partial",
    "C158_projection_in_unit_cube_refuted"
   ],
   "note": "The full statement is false of the model; the _refuted theorem gives the counterexample, the _partial theorem the part that holds."
  },
  {
   "property": "C159",
   "status": "proved",
   "theorems": [
    "C159_radius_in_limits",
    "C159_no_growth",
    "C159_reaches_minimum"
   ],
   "note": "The radius in binary64"
  },
  {
   "property": "C160",
   "status": "proved",
   "theorems": [
    "C160_next_multiple"
   ],
   "note": "Rounding does not change the sample size"
  },
  {
   "property": "C161",
   "status": "proved",
   "theorems": [
    "C161_region_in_search_ball"
   ],
   "note": "The search region contains the trust region"
  },
  {
   "property": "C162",
   "status": "partial",
   "theorems": [
    "C162_last_region_found_again_partial",
    "C162_last_region_found_again_refuted"
   ],
   "note": "The full statement is false of the model; the _refuted theorem gives the counterexample, the _partial theorem the part that holds."
  },
  {
   "property": "C163",
   "status": "proved",
   "theorems": [
    "C163_iteration"
   ],
   "note": "One iteration of a deterministic run"
  },
  {
   "property": "C164",
   "status": "proved",
   "theorems": [
    "C164_radius_update"
   ],
   "note": "The trust region of the next iteration"
  },
  {
   "property": "C165",
   "status": "partial",
   "theorems": [
    "C165_smallest_second_order_coefficients_partial",
    "C165_linear_functions_partial",
    "C165_linear_functions_refuted"
   ],
   "note": "The full statement is false of the model; the _refuted theorem gives the counterexample, the _partial theorem the part that holds."
  },
  {
   "property": "C166",
   "status": "partial",
   "theorems": [
    "C166_hessian_norm_partial",
    "C166_smallest_hessian_refuted"
   ],
   "note": "The full statement is false of the model; the _refuted theorem gives the counterexample, the _partial theorem the part that holds."
  },
  {
   "property": "C167",
   "status": "partial",
   "theorems": [
    "C167_when_the_line_search_raises",
    "C167_line_search_decides_partial",
    "C167_line_search_decides_refuted"
   ],
   "note": "The full statement is false of the model; the _refuted theorem gives the counterexample, the _partial theorem the part that holds."
  },
  {
   "property": "C168",
   "status": "partial",
   "theorems": [
    "C168_improvements_are_taken_partial",
    "C168_improvements_are_taken_refuted"
   ],
   "note": "The full statement is false of the model; the _refuted theorem gives the counterexample, the _partial theorem the part that holds."
  },
  {
   "property": "C169",
   "status": "partial",
   "theorems": [
    "C169_rho_of_accepted_steps_partial",
    "C169_rho_of_accepted_steps_refuted"
   ],
   "note": "The full statement is false of the model; the _refuted theorem gives the counterexample, the _partial theorem the part that holds."
  },
  {
   "property": "C170",
   "status": "partial",
   "theorems": [
    "C170_border_partial",
    "C170_border_refuted"
   ],
   "note": "The full statement is false of the model; the _refuted theorem gives the counterexample, the _partial theorem the part that holds."
  },
  {
   "property": "C171",
   "status": "partial",
   "theorems": [
    "C171_rejection_shrinks_partial",
    "C171_rejection_shrinks_refuted",
    "C171_builtin_expectations"
   ],
   "note": "The full statement is false of the model; the _refuted theorem gives the counterexample, the _partial theorem the part that holds."
  },
  {
   "property": "C172",
   "status": "proved",
   "theorems": [
    "C172_rejections_are_bounded"
   ],
   "note": "The number of rejected steps is bounded by the accepted ones"
  },
  {
   "property": "C173",
   "status": "proved",
   "theorems": [
    "C173_accepted_steps_are_bounded"
   ],
   "note": "The number of accepted steps is bounded by the improvement"
  },
  {
   "property": "C174",
   "status": "partial",
   "theorems": [
    "C174_no_minimum",
    "C174_minimum_partial",
    "C174_minimum_refuted"
   ],
   "note": "The full statement is false of the model; the _refuted theorem gives the counterexample, the _partial theorem the part that holds."
  },
  {
   "property": "C175",
   "status": "partial",
   "theorems": [
    "C175_rho_sign_partial",
    "C175_rho_sign_refuted",
    "C175_rho_accuracy",
    "C175_rejection_shrinks"
   ],
   "note": "The full statement is false of the model; the _refuted theorem gives the counterexample, the _partial theorem the part that holds."
  },
  {
   "property": "C176",
   "status": "partial",
   "theorems": [
    "C176_mean_accuracy",
    "C176_mean_between_partial",
    "C176_mean_between_refuted",
    "C176_constant_criterion_refuted"
   ],
   "note": "The full statement is false of the model; the _refuted theorem gives the counterexample, the _partial theorem the part that holds."
  },
  {
   "property": "C177",
   "status": "proved",
   "theorems": [
    "C177_fit_is_exact",
    "C177_model_is_exact",
    "C177_ridge_is_not_exact"
   ],
   "note": "Fitted models are exact for criteria they can represent"
  },
  {
   "property": "C178",
   "status": "proved",
   "theorems": [
    "C178_exact_steps"
   ],
   "note": "Steps with exact models"
  },
  {
   "property": "C179",
   "status": "proved",
   "theorems": [
    "C179_noisy_runs_succeed"
   ],
   "note": "Noisy runs succeed"
  },
  {
   "property": "C180",
   "status": "proved",
   "theorems": [
    "C180_start_values_finite",
    "C180_not_finite_start_raises"
   ],
   "note": "Noisy runs need finite start values"
  },
  {
   "property": "C181",
   "status": "proved",
   "theorems": [
    "C181_evaluations_bounded",
    "C181_accepted_points_evaluated"
   ],
   "note": "Numbers of evaluations in noisy runs"
  },
  {
   "property": "C182",
   "status": "proved",
   "theorems": [
    "C182_errors_do_not_depend_on_stopping",
    "C182_longer_runs_continue",
    "C182_history_continues",
    "C182_longer_runs_are_not_worse"
   ],
   "note": "Stopping rules only truncate a run"
  },
  {
   "property": "C183",
   "status": "partial",
   "theorems": [
    "C183_translated_runs_partial",
    "C183_relative_change_refuted",
    "C183_border_refuted"
   ],
   "note": "The full statement is false of the model; the _refuted theorem gives the counterexample, the _partial theorem the part that holds."
  },
  {
   "property": "C184",
   "status": "proved",
   "theorems": [
    "C184_builtin_runs"
   ],
   "note": "The built-in components commute with translations"
  },
  {
   "property": "C185",
   "status": "proved",
   "theorems": [
    "C185_padding_is_not_read"
   ],
   "note": "Padding rows of the history are never read"
  },
  {
   "property": "C186",
   "status": "partial",
   "theorems": [
    "C186_same_value",
    "C186_same_point_partial",
    "C186_same_point_refuted"
   ],
   "note": "The full statement is false of the model; the _refuted theorem gives the counterexample, the _partial theorem the part that holds."
  },
  {
   "property": "C187",
   "status": "proved",
   "theorems": [
    "C187_stcg_fast_same_result"
   ],
   "note": "The numba version of Steihaug-Toint agrees with the numpy version"
  },
  {
   "property": "C188",
   "status": "proved",
   "theorems": [
    "C188_singular_value_estimate"
   ],
   "note": "The estimate of the smallest singular value is one from above"
  },
  {
   "property": "C189",
   "status": "partial",
   "theorems": [
    "C189_gradient_norm",
    "C189_small_gradient_partial",
    "C189_small_gradient_refuted"
   ],
   "note": "The full statement is false of the model; the _refuted theorem gives the counterexample, the _partial theorem the part that holds."
  },
  {
   "property": "C190",
   "status": "proved",
   "theorems": [
    "C190_good_steps_reach_the_target",
    "C190_convex_criteria_are_minimized"
   ],
   "note": "Convex criteria are minimized exactly in finitely many iterations"
  },
  {
   "property": "C191",
   "status": "proved",
   "theorems": [
    "C191_iteration",
    "C191_linear_rate"
   ],
   "note": "Runs with gqtpar converge linearly on quadratic criteria"
  },
  {
   "property": "C192",
   "status": "partial",
   "theorems": [
    "C192_units_partial",
    "C192_three_parameters_refuted"
   ],
   "note": "The full statement is false of the model; the _refuted theorem gives the counterexample, the _partial theorem the part that holds."
  },
  {
   "property": "C193",
   "status": "proved",
   "theorems": [
    "C193_cg_units",
    "C193_relative_tolerance",
    "C193_default_tolerances"
   ],
   "note": "The conjugate gradient solver and the units of the problem"
  },
  {
   "property": "C194",
   "status": "proved",
   "theorems": [
    "C194_steihaug_units"
   ],
   "note": "The Steihaug-Toint solver and the units of the problem"
  },
  {
   "property": "C195",
   "status": "proved",
   "theorems": [
    "C195_small_region_succeeds",
    "C195_next_radius"
   ],
   "note": "An iteration in a small region succeeds"
  },
  {
   "property": "C196",
   "status": "proved",
   "theorems": [
    "C196_radius_stays_large",
    "C196_successes_and_failures",
    "C196_number_of_iterations"
   ],
   "note": "The number of iterations with accurate models"
  },
  {
   "property": "C197",
   "status": "partial",
   "theorems": [
    "C197_fresh_exit",
    "C197_near_optimal_partial",
    "C197_near_optimal_refuted"
   ],
   "note": "The full statement is false of the model; the _refuted theorem gives the counterexample, the _partial theorem the part that holds."
  },
  {
   "property": "C198",
   "status": "proved",
   "theorems": [
    "C198_cauchy_decrease",
    "C198_decrease_bound"
   ],
   "note": "The Cauchy decrease of the conjugate gradient solver"
  },
  {
   "property": "C199",
   "status": "proved",
   "theorems": [
    "C199_promised_improvement",
    "C199_good_iterations",
    "C199_number_of_iterations"
   ],
   "note": "What the steps of gqtpar promise, and the iterations of runs with gqtpar"
  },
  {
   "property": "C200",
   "status": "proved",
   "theorems": [
    "C200_problem",
    "C200_minimizer"
   ],
   "note": "The norm constraint fallback states and solves the trust region problem"
  },
  {
   "property": "C201",
   "status": "proved",
   "theorems": [
    "C201_reparametrized",
    "C201_inscribed_cube",
    "C201_inscribed_cube_sharp"
   ],
   "note": "What the other sphere fallbacks find with exact inner optimizers"
  },
  {
   "property": "C202",
   "status": "partial",
   "theorems": [
    "C202_radii",
    "C202_rhos",
    "C202_fekete",
    "C202_cluster_ratios",
    "C202_marker_on_line_partial",
    "C202_marker_on_line_refuted"
   ],
   "note": "The full statement is false of the model; the _refuted theorem gives the counterexample, the _partial theorem the part that holds."
  },
  {
   "property": "C203",
   "status": "proved",
   "theorems": [
    "C203_markers",
    "C203_raises",
    "C203_run"
   ],
   "note": "The markers of the criterion plot lie on the criterion"
  },
  {
   "property": "C204",
   "status": "partial",
   "theorems": [
    "C204_two_parameters_partial",
    "C204_one_parameter_refuted",
    "C204_heat_map"
   ],
   "note": "The full statement is false of the model; the _refuted theorem gives the counterexample, the _partial theorem the part that holds."
  },
  {
   "property": "C205",
   "status": "partial",
   "theorems": [
    "C205_cauchy_decrease_partial",
    "C205_decrease_bound_partial",
    "C205_cauchy_decrease_refuted"
   ],
   "note": "The full statement is false of the model; the _refuted theorem gives the counterexample, the _partial theorem the part that holds."
  },
  {
   "property": "C206",
   "status": "partial",
   "theorems": [
    "C206_cauchy_decrease_partial",
    "C206_decrease_bound_partial",
    "C206_cauchy_decrease_refuted"
   ],
   "note": "The full statement is false of the model; the _refuted theorem gives the counterexample, the _partial theorem the part that holds."
  },
  {
   "property": "C207",
   "status": "proved",
   "theorems": [
    "C207_fit",
    "C207_fit_powell",
    "C207_rotated_model",
    "C207_rotated_fit",
    "C207_permuted_model"
   ],
   "note": "Orthogonal coordinates and the order of the residuals do not matter"
  },
  {
   "property": "C208",
   "status": "proved",
   "theorems": [
    "C208_sample_order",
    "C208_repeated_points"
   ],
   "note": "The order of the sample points does not matter for the fit"
  },
  {
   "property": "C209",
   "status": "partial",
   "theorems": [
    "C209_powell_order_partial",
    "C209_powell_order_other_sizes",
    "C209_powell_order_refuted"
   ],
   "note": "The full statement is false of the model; the _refuted theorem gives the counterexample, the _partial theorem the part that holds."
  },
  {
   "property": "C210",
   "status": "proved",
   "theorems": [
    "C210_first_points",
    "C210_repeated_point",
    "C210_order_of_evaluations"
   ],
   "note": "The fit of Powell passes through the first points of the sample"
  },
  {
   "property": "C211",
   "status": "proved",
   "theorems": [
    "C211_weighted_averages",
    "C211_equal_evaluations",
    "C211_equal_evaluations_ridge",
    "C211_unequal_evaluations",
    "C211_model_data"
   ],
   "note": "Fitting averages and fitting all evaluations"
  },
  {
   "property": "C212",
   "status": "proved",
   "theorems": [
    "C212_sum_of_old_and_fitted_model",
    "C212_least_change_tranquilo",
    "C212_least_change_ols",
    "C212_determined",
    "C212_succeeds"
   ],
   "note": "Fitting the residuals of an old model"
  },
  {
   "property": "C213",
   "status": "partial",
   "theorems": [
    "C213_residualized_partial",
    "C213_determined_partial",
    "C213_powell_partial",
    "C213_affine_refuted"
   ],
   "note": "The full statement is false of the model; the _refuted theorem gives the counterexample, the _partial theorem the part that holds."
  },
  {
   "property": "C214",
   "status": "proved",
   "theorems": [
    "C214_level_and_scale",
    "C214_covariance"
   ],
   "note": "The variance estimate depends on the noise only"
  },
  {
   "property": "C215",
   "status": "proved",
   "theorems": [
    "C215_upper_limits",
    "C215_lower_limit"
   ],
   "note": "The upper limits of the radius hold for every ratio"
  },
  {
   "property": "C216",
   "status": "proved",
   "theorems": [
    "C216_initial_model"
   ],
   "note": "The initial model is the value at the start point"
  }
 ]
}