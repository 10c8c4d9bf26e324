{
 "claims": [
  {
   "property": "C01",
   "status": "proved",
   "theorems": [
    "C01_construct_iff_valid",
    "C01_construct_total"
   ],
   "note": ""
  },
  {
   "property": "C02",
   "status": "proved",
   "theorems": [
    "C02_ids",
    "C02_n_timesteps_int",
    "C02_n_timesteps_table",
    "C02_counts_sum_to_rows"
   ],
   "note": ""
  },
  {
   "property": "C03",
   "status": "proved",
   "theorems": [
    "C03_float_scalar_iff",
    "C03_float_error_iff",
    "C03_datetime_first_series",
    "C03_scalar_iff_regular",
    "C03_regular_any_kind",
    "C03_nan_iff_no_regular_series",
    "C03_table_entries",
    "C03_never_fails",
    "C03_float_refuted",
    "C03_unsorted_ids_refuted",
    "C03_datetime_refuted",
    "C03_large_steps_refuted",
    "C03_float_degenerate_refuted"
   ],
   "note": "Exact characterisation for integer times (steps below 1e11), floating point times (steps below 1e11) and datetime values; _refuted theorems give witnesses where `one value means regular sampling` fails (float, datetime, very large steps) and where the table is permuted (unsorted IDs)."
  },
  {
   "property": "C04",
   "status": "proved",
   "theorems": [
    "C04_is_equal_length",
    "C04_is_same_time_values"
   ],
   "note": ""
  },
  {
   "property": "C05",
   "status": "proved",
   "theorems": [
    "C05_pairs",
    "C05_succeeds",
    "C05_unsorted_unequal_refuted"
   ],
   "note": "Proved for sorted IDs or equal lengths; C05_unsorted_unequal_refuted shows the remaining case violates the property."
  },
  {
   "property": "C06",
   "status": "proved",
   "theorems": [
    "C06_round_trip",
    "C06_construct_succeeds"
   ],
   "note": ""
  },
  {
   "property": "C07",
   "status": "proved",
   "theorems": [
    "C07_from_tensor",
    "C07_duplicate_ids_rejected"
   ],
   "note": ""
  },
  {
   "property": "C08",
   "status": "proved",
   "theorems": [
    "C08_insert_iff",
    "C08_default_id_is_max_plus_one",
    "C08_present_id_rejected",
    "C08_histories"
   ],
   "note": ""
  },
  {
   "property": "C09",
   "status": "proved",
   "theorems": [
    "C09_drop_last",
    "C09_initial_states",
    "C09_final_states",
    "C09_short_series_rejected"
   ],
   "note": ""
  },
  {
   "property": "C10",
   "status": "proved",
   "theorems": [
    "C10_per_series",
    "C10_collection_wide",
    "C10_collection_wide_unsorted",
    "C10_window_positions",
    "C10_bad_parameters_rejected"
   ],
   "note": "The iterator has two modes: per_time_series=True (per series) and the default, which runs over the distinct time values of the collection; both characterised."
  },
  {
   "property": "C11",
   "status": "proved",
   "theorems": [
    "C11_train_test_ids",
    "C11_accepts_disjoint_index_sets"
   ],
   "note": ""
  },
  {
   "property": "C12",
   "status": "proved",
   "theorems": [
    "C12_series_split",
    "C12_time_split",
    "C12_series_split_succeeds",
    "C12_time_split_succeeds"
   ],
   "note": ""
  },
  {
   "property": "C13",
   "status": "proved",
   "theorems": [
    "C13_window_splits",
    "C13_windows_disjoint",
    "C13_unsorted_ids_refuted",
    "C13_no_training_data_refuted"
   ],
   "note": ""
  },
  {
   "property": "C14",
   "status": "proved",
   "theorems": [
    "C14_embedding",
    "C14_succeeds_when_long_enough",
    "C14_too_short_rejected",
    "C14_parameters",
    "C14_labels",
    "C14_inverse_transform"
   ],
   "note": ""
  },
  {
   "property": "C15",
   "status": "proved",
   "theorems": [
    "C15_requested_times",
    "C15_accepted_iff",
    "C15_default",
    "C15_no_common_reference",
    "C15_array_initial_condition",
    "C15_control_collection"
   ],
   "note": ""
  },
  {
   "property": "C16",
   "status": "proved",
   "theorems": [
    "C16_dmd_labels",
    "C16_dmd_once",
    "C16_dmd_succeeds",
    "C16_edmd_labels",
    "C16_edmd_refuted"
   ],
   "note": ""
  },
  {
   "property": "C17",
   "status": "proved",
   "theorems": [
    "C17_recovers_system",
    "C17_predicts_trajectory"
   ],
   "note": ""
  },
  {
   "property": "C18",
   "status": "proved",
   "theorems": [
    "C18_least_squares",
    "C18_lstsq_exists"
   ],
   "note": ""
  },
  {
   "property": "C19",
   "status": "proved",
   "theorems": [
    "C19_spectral_equals_matrix",
    "C19_post_map",
    "C19_controlled",
    "C19_controlled_trajectory"
   ],
   "note": ""
  },
  {
   "property": "C20",
   "status": "proved",
   "theorems": [
    "C20_dual_basis",
    "C20_fails_iff_singular",
    "C20_singular_refuted"
   ],
   "note": ""
  },
  {
   "property": "C21",
   "status": "proved",
   "theorems": [
    "C21_sorted_triplets",
    "C21_sorted_triplets_without_left"
   ],
   "note": ""
  },
  {
   "property": "C22",
   "status": "proved",
   "theorems": [
    "C22_recovers_controlled_system",
    "C22_least_squares"
   ],
   "note": ""
  },
  {
   "property": "C23",
   "status": "proved",
   "theorems": [
    "C23_online_least_squares",
    "C23_batch_fit_least_squares",
    "C23_batching",
    "C23_batching_batch_fit",
    "C23_ready",
    "C23_oracles_exist"
   ],
   "note": ""
  },
  {
   "property": "C24",
   "status": "proved",
   "theorems": [
    "C24_later_batches_complete",
    "C24_first_batch",
    "C24_first_batch_complete_iff",
    "C24_first_batch_refuted",
    "C24_sampling_of_first_batch_refuted",
    "C24_compression_keeps_smallest",
    "C24_compression_refuted"
   ],
   "note": ""
  },
  {
   "property": "C25",
   "status": "proved",
   "theorems": [
    "C25_condensed_matrices"
   ],
   "note": ""
  },
  {
   "property": "C26",
   "status": "proved",
   "theorems": [
    "C26_quadratic_program",
    "C26_optimal_sequence",
    "C26_invalid_costs_rejected",
    "C26_documented_bounds_refuted"
   ],
   "note": ""
  },
  {
   "property": "C27",
   "status": "proved",
   "theorems": [
    "C27_gradient_iff_unit_weights",
    "C27_state_term_iff_unit_weights",
    "C27_gradient_refuted"
   ],
   "note": ""
  },
  {
   "property": "C28",
   "status": "proved",
   "theorems": [
    "C28_supported_configurations",
    "C28_flowmap_matrix_uses_control",
    "C28_flowmap_spectral_uses_control",
    "C28_controlled_differential_unreachable",
    "C28_differential_ignores_control",
    "C28_affine_refuted"
   ],
   "note": ""
  },
  {
   "property": "C29",
   "status": "proved",
   "theorems": [
    "C29_first_matrix_setup",
    "C29_matrix_setup_once",
    "C29_spectral_setup_repeatable",
    "C29_spectral_last_wins",
    "C29_failed_setup_blocks",
    "C29_failed_setup_refuted",
    "C29_left_eigenvectors_refuted",
    "C29_matrix_setup_in_spectral_mode_refuted"
   ],
   "note": ""
  },
  {
   "property": "C30",
   "status": "proved",
   "theorems": [
    "C30_by_name_correct",
    "C30_spectral_correct_iff_storage_order",
    "C30_spectral_succeeds",
    "C30_spectral_refuted"
   ],
   "note": ""
  },
  {
   "property": "C31",
   "status": "proved",
   "theorems": [
    "C31_sorted_pairs",
    "C31_succeeds_iff",
    "C31_magnitude_if_nonnegative",
    "C31_magnitude_refuted"
   ],
   "note": ""
  },
  {
   "property": "C32",
   "status": "proved",
   "theorems": [
    "C32_brute_force",
    "C32_trees",
    "C32_backends_agree_refuted",
    "C32_zero_cut_off"
   ],
   "note": ""
  },
  {
   "property": "C33",
   "status": "proved",
   "theorems": [
    "C33_k_nearest_stored",
    "C33_succeeds",
    "C33_squared_metric_refuted",
    "C33_infinite_cut_off_fails"
   ],
   "note": ""
  },
  {
   "property": "C34",
   "status": "proved",
   "theorems": [
    "C34_pairwise_independent_of_history",
    "C34_componentwise_reference",
    "C34_same_reference_correct",
    "C34_other_reference_refuted"
   ],
   "note": ""
  },
  {
   "property": "C35",
   "status": "proved",
   "theorems": [
    "C35_conjugate_symmetric",
    "C35_same_eigenpairs",
    "C35_undo_basis_change",
    "C35_zero_row_rejected",
    "C35_unsymmetric_internal_kernel_refuted"
   ],
   "note": ""
  },
  {
   "property": "C36",
   "status": "proved",
   "theorems": [
    "C36_rows",
    "C36_sparse_same",
    "C36_renormalisation",
    "C36_isolated_point"
   ],
   "note": ""
  },
  {
   "property": "C37",
   "status": "proved",
   "theorems": [
    "C37_transform_training_points",
    "C37_embedding",
    "C37_selected_with_exponent_refuted",
    "C37_single_coordinate_refuted"
   ],
   "note": ""
  },
  {
   "property": "C38",
   "status": "proved",
   "theorems": [
    "C38_refit_like_new",
    "C38_transform_last_fit",
    "C38_inverse_transform_first_use",
    "C38_other_number_of_features_refuted",
    "C38_inverse_transform_refuted",
    "C38_selected_coordinates_refuted",
    "C38_failed_fit_refuted"
   ],
   "note": ""
  },
  {
   "property": "C39",
   "status": "proved",
   "theorems": [
    "C39_transform_training_points",
    "C39_time_exponent",
    "C39_time_exponent_refuted",
    "C39_landmark_diffusion"
   ],
   "note": ""
  },
  {
   "property": "C40",
   "status": "proved",
   "theorems": [
    "C40_orthonormal",
    "C40_extension_at_training_points",
    "C40_extension_refuted",
    "C40_too_many_functions_refuted",
    "C40_multi_orthonormal",
    "C40_multi_extension"
   ],
   "note": ""
  },
  {
   "property": "C41",
   "status": "proved",
   "theorems": [
    "C41_projection",
    "C41_band_limited",
    "C41_any_kernel",
    "C41_stochastic_refuted"
   ],
   "note": ""
  },
  {
   "property": "C42",
   "status": "proved",
   "theorems": [
    "C42_training_residual",
    "C42_terminates",
    "C42_duplicates_refuted"
   ],
   "note": ""
  },
  {
   "property": "C43",
   "status": "proved",
   "theorems": [
    "C43_stops_after_patience",
    "C43_drift_refuted",
    "C43_nan_refuted"
   ],
   "note": ""
  },
  {
   "property": "C44",
   "status": "proved",
   "theorems": [
    "C44_cut_off_estimate",
    "C44_cut_off_k1_refuted",
    "C44_kernel_at_cut_off",
    "C44_tolerance_refuted",
    "C44_beyond_cut_off"
   ],
   "note": ""
  },
  {
   "property": "C45",
   "status": "proved",
   "theorems": [
    "C45_edges",
    "C45_training_points",
    "C45_second_pairwise_rejected",
    "C45_k1_refuted"
   ],
   "note": ""
  },
  {
   "property": "C46",
   "status": "proved",
   "theorems": [
    "C46_kernel_matrix",
    "C46_training_samples",
    "C46_without_angle",
    "C46_cosine_of_cosine",
    "C46_documented_refuted",
    "C46_alignment_refuted",
    "C46_sample_at_rest"
   ],
   "note": ""
  },
  {
   "property": "C47",
   "status": "proved",
   "theorems": [
    "C47_cut_off",
    "C47_epsilon",
    "C47_separate_objects",
    "C47_constructor_refuted",
    "C47_view_refuted"
   ],
   "note": ""
  },
  {
   "property": "C48",
   "status": "proved",
   "theorems": [
    "C48_solver",
    "C48_eigenpairs",
    "C48_all_eigenpairs_refuted",
    "C48_dmap_refuted"
   ],
   "note": ""
  },
  {
   "property": "C49",
   "status": "proved",
   "theorems": [
    "C49_dim",
    "C49_dim_first",
    "C49_threshold",
    "C49_nan_refuted"
   ],
   "note": ""
  },
  {
   "property": "C50",
   "status": "proved",
   "theorems": [
    "C50_residual",
    "C50_residual_reduced",
    "C50_zero",
    "C50_symmetric_keeps_all",
    "C50_exact_pair_refuted",
    "C50_reduced_conjugate_refuted",
    "C50_reduced_normal",
    "C50_threshold",
    "C50_keep_n"
   ],
   "note": ""
  },
  {
   "property": "C51",
   "status": "proved",
   "theorems": [
    "C51_control_matched_by_id",
    "C51_unsorted_control_refuted"
   ],
   "note": ""
  },
  {
   "property": "C52",
   "status": "proved",
   "theorems": [
    "C52_flow_on_equispaced_times",
    "C52_controlled_prediction",
    "C52_other_spacing_refuted"
   ],
   "note": ""
  },
  {
   "property": "C53",
   "status": "proved",
   "theorems": [
    "C53_array_control_times",
    "C53_edmd_accepts",
    "C53_float_reference_refuted",
    "C53_dmd_refuted"
   ],
   "note": ""
  },
  {
   "property": "C54",
   "status": "proved",
   "theorems": [
    "C54_predictions_compose"
   ],
   "note": ""
  },
  {
   "property": "C55",
   "status": "proved",
   "theorems": [
    "C55_preimage_of_embedding",
    "C55_time_exponent_refuted"
   ],
   "note": ""
  },
  {
   "property": "C56",
   "status": "proved",
   "theorems": [
    "C56_exact_prediction",
    "C56_modes_equal_inverse_map"
   ],
   "note": ""
  },
  {
   "property": "C57",
   "status": "proved",
   "theorems": [
    "C57_timeseries",
    "C57_timestep",
    "C57_feature",
    "C57_uniform",
    "C57_defined",
    "C57_exact",
    "C57_score"
   ],
   "note": ""
  },
  {
   "property": "C58",
   "status": "proved",
   "theorems": [
    "C58_min_max",
    "C58_standard",
    "C58_l2_normalize_refuted",
    "C58_rrmse_refuted",
    "C58_user_weights_refuted",
    "C58_max_refuted"
   ],
   "note": ""
  },
  {
   "property": "C59",
   "status": "proved",
   "theorems": [
    "C59_recovers_generator",
    "C59_generator_least_squares",
    "C59_recovers_affine_system",
    "C59_affine_least_squares"
   ],
   "note": ""
  },
  {
   "property": "C60",
   "status": "proved",
   "theorems": [
    "C60_values",
    "C60_defined",
    "C60_datetime_refuted",
    "C60_exact_for_polynomials"
   ],
   "note": ""
  },
  {
   "property": "C61",
   "status": "proved",
   "theorems": [
    "C61_pieces",
    "C61_drop_total",
    "C61_keep_total",
    "C61_errors",
    "C61_float_refuted"
   ],
   "note": ""
  },
  {
   "property": "C62",
   "status": "proved",
   "theorems": [
    "C62_normalize",
    "C62_sound",
    "C62_rejects",
    "C62_float_refuted"
   ],
   "note": ""
  },
  {
   "property": "C63",
   "status": "proved",
   "theorems": [
    "C63_fill",
    "C63_rejects",
    "C63_fill_refuted"
   ],
   "note": ""
  },
  {
   "property": "C64",
   "status": "proved",
   "theorems": [
    "C64_augment",
    "C64_covered",
    "C64_mismatch",
    "C64_augment_refuted"
   ],
   "note": ""
  },
  {
   "property": "C65",
   "status": "proved",
   "theorems": [
    "C65_transform",
    "C65_roundtrip",
    "C65_rename_refuted",
    "C65_array_refuted",
    "C65_const_refuted"
   ],
   "note": ""
  },
  {
   "property": "C66",
   "status": "proved",
   "theorems": [
    "C66_identity",
    "C66_select",
    "C66_lambdas",
    "C66_lambdas_refuted",
    "C66_finite_difference_refuted"
   ],
   "note": ""
  },
  {
   "property": "C67",
   "status": "proved",
   "theorems": [
    "C67_lambdas"
   ],
   "note": ""
  },
  {
   "property": "C68",
   "status": "proved",
   "theorems": [
    "C68_monomials"
   ],
   "note": ""
  },
  {
   "property": "C69",
   "status": "proved",
   "theorems": [
    "C69_moving_average",
    "C69_short_series"
   ],
   "note": ""
  },
  {
   "property": "C70",
   "status": "proved",
   "theorems": [
    "C70_by_index",
    "C70_by_name_refuted"
   ],
   "note": ""
  },
  {
   "property": "C71",
   "status": "proved",
   "theorems": [
    "C71_coefficients",
    "C71_fit_transform",
    "C71_roundtrip",
    "C71_invertible",
    "C71_refit_refuted",
    "C71_refit_size_refuted"
   ],
   "note": ""
  },
  {
   "property": "C72",
   "status": "proved",
   "theorems": [
    "C72_check",
    "C72_datetime_refuted",
    "C72_float_refuted"
   ],
   "note": ""
  },
  {
   "property": "C73",
   "status": "proved",
   "theorems": [
    "C73_validate",
    "C73_validate_dt",
    "C73_validate_arguments",
    "C73_from_tsc",
    "C73_from_array"
   ],
   "note": ""
  },
  {
   "property": "C74",
   "status": "proved",
   "theorems": [
    "C74_accepted",
    "C74_aligned",
    "C74_controls",
    "C74_irregular",
    "C74_aligned_refuted"
   ],
   "note": ""
  },
  {
   "property": "C75",
   "status": "proved",
   "theorems": [
    "C75_array",
    "C75_error",
    "C75_frame",
    "C75_frame_refuted"
   ],
   "note": ""
  },
  {
   "property": "C76",
   "status": "proved",
   "theorems": [
    "C76_single",
    "C76_single_succeeds",
    "C76_many",
    "C76_error",
    "C76_refuted",
    "C76_between_refuted"
   ],
   "note": ""
  },
  {
   "property": "C77",
   "status": "proved",
   "theorems": [
    "C77_values",
    "C77_error",
    "C77_complete",
    "C77_refuted"
   ],
   "note": ""
  },
  {
   "property": "C78",
   "status": "proved",
   "theorems": [
    "C78_single",
    "C78_single_error",
    "C78_array",
    "C78_array_default",
    "C78_items",
    "C78_roundtrip"
   ],
   "note": ""
  },
  {
   "property": "C79",
   "status": "proved",
   "theorems": [
    "C79_delta",
    "C79_delta_error",
    "C79_given",
    "C79_given_error",
    "C79_given_labels",
    "C79_default",
    "C79_given_refuted",
    "C79_default_refuted"
   ],
   "note": ""
  },
  {
   "property": "C80",
   "status": "proved",
   "theorems": [
    "C80_required_ids",
    "C80_required_order",
    "C80_equal_const",
    "C80_equal_const_error",
    "C80_equal_series",
    "C80_symmetric_refuted",
    "C80_reflexive_refuted"
   ],
   "note": ""
  },
  {
   "property": "C81",
   "status": "proved",
   "theorems": [
    "C81_windows",
    "C81_score",
    "C81_errors",
    "C81_score_control_refuted"
   ],
   "note": ""
  },
  {
   "property": "C82",
   "status": "proved",
   "theorems": [
    "C82_reconstruct",
    "C82_elapsed",
    "C82_start_refuted",
    "C82_lengths_refuted"
   ],
   "note": ""
  },
  {
   "property": "C83",
   "status": "proved",
   "theorems": [
    "C83_windows",
    "C83_start_refuted",
    "C83_matching_refuted",
    "C83_times_refuted"
   ],
   "note": ""
  },
  {
   "property": "C84",
   "status": "proved",
   "theorems": [
    "C84_stepwise",
    "C84_placeholder",
    "C84_independent",
    "C84_order_refuted",
    "C84_single_time_refuted"
   ],
   "note": ""
  },
  {
   "property": "C85",
   "status": "proved",
   "theorems": [
    "C85_fit",
    "C85_attached",
    "C85_preserved",
    "C85_reordered_refuted",
    "C85_partial_fit_exclude_refuted",
    "C85_partial_fit_include_refuted"
   ],
   "note": ""
  },
  {
   "property": "C86",
   "status": "proved",
   "theorems": [
    "C86_mode",
    "C86_exclusive",
    "C86_same_kind",
    "C86_control_lost_refuted",
    "C86_failed_call_refuted",
    "C86_stepwise_refuted"
   ],
   "note": ""
  },
  {
   "property": "C87",
   "status": "proved",
   "theorems": [
    "C87_closed_loop",
    "C87_last_refuted",
    "C87_start",
    "C87_default_refuted",
    "C87_id_refuted"
   ],
   "note": ""
  },
  {
   "property": "C88",
   "status": "proved",
   "theorems": [
    "C88_optimal",
    "C88_bounded",
    "C88_control",
    "C88_inputs_refuted",
    "C88_equilibrium_refuted"
   ],
   "note": ""
  },
  {
   "property": "C89",
   "status": "proved",
   "theorems": [
    "C89_table",
    "C89_best",
    "C89_refit",
    "C89_succeeds",
    "C89_splitters",
    "C89_divided",
    "C89_no_leak",
    "C89_control_refuted"
   ],
   "note": ""
  },
  {
   "property": "C90",
   "status": "proved",
   "theorems": [
    "C90_errors",
    "C90_best",
    "C90_aligned",
    "C90_initial_refuted",
    "C90_never_refuted"
   ],
   "note": ""
  },
  {
   "property": "C91",
   "status": "proved",
   "theorems": [
    "C91_callable",
    "C91_uncontrolled",
    "C91_one_step",
    "C91_hold",
    "C91_one_step_frame_refuted",
    "C91_channels_refuted",
    "C91_ode_frame",
    "C91_ode_array",
    "C91_ode_default_refuted",
    "C91_polar_refuted",
    "C91_polar_frame_refuted"
   ],
   "note": ""
  },
  {
   "property": "C92",
   "status": "proved",
   "theorems": [
    "C92_accepts",
    "C92_regression",
    "C92_exact_modes",
    "C92_projected_modes",
    "C92_recovers",
    "C92_predicts",
    "C92_exact_span",
    "C92_exact_initial_refuted",
    "C92_matrix_mode_refuted"
   ],
   "note": ""
  },
  {
   "property": "C93",
   "status": "proved",
   "theorems": [
    "C93_eigenfunctions",
    "C93_decomposition",
    "C93_ranked",
    "C93_argsort_exists",
    "C93_filtered_left",
    "C93_filtered_refuted",
    "C93_lstsq_exists"
   ],
   "note": ""
  },
  {
   "property": "C94",
   "status": "proved",
   "theorems": [
    "C94_accepts",
    "C94_validation_refuted",
    "C94_fit",
    "C94_total",
    "C94_symmetric",
    "C94_constant",
    "C94_default",
    "C94_default_refuted"
   ],
   "note": ""
  },
  {
   "property": "C95",
   "status": "proved",
   "theorems": [
    "C95_free",
    "C95_free_only",
    "C95_control",
    "C95_control_accepts",
    "C95_array",
    "C95_array_samples",
    "C95_array_control",
    "C95_control_given",
    "C95_inverse_control_refuted",
    "C95_score"
   ],
   "note": ""
  },
  {
   "property": "C96",
   "status": "proved",
   "theorems": [
    "C96_simulated",
    "C96_single_control",
    "C96_accepted_only",
    "C96_by_id",
    "C96_by_id_refuted",
    "C96_motor_affine",
    "C96_second_order",
    "C96_third_order_error",
    "C96_order_refuted"
   ],
   "note": ""
  },
  {
   "property": "C97",
   "status": "proved",
   "theorems": [
    "C97_subsample",
    "C97_subsample_accepts",
    "C97_covers",
    "C97_small_cloud",
    "C97_apart_refuted",
    "C97_entire_refuted",
    "C97_min_distance_default",
    "C97_default_refuted",
    "C97_outlier",
    "C97_outlier_infinite",
    "C97_outlier_monotone",
    "C97_outlier_one",
    "C97_outlier_limit_refuted",
    "C97_random"
   ],
   "note": ""
  },
  {
   "property": "C98",
   "status": "proved",
   "theorems": [
    "C98_flowmap_matrix",
    "C98_differential_matrix",
    "C98_flowmap_spectral",
    "C98_differential_spectral",
    "C98_controlled",
    "C98_controlled_spectral",
    "C98_accepts_only",
    "C98_postmap_spectral",
    "C98_postmap_matrix_refuted",
    "C98_postmap_rectangular_refuted",
    "C98_default_names_refuted"
   ],
   "note": ""
  },
  {
   "property": "C99",
   "status": "proved",
   "theorems": [
    "C99_angle",
    "C99_limit_cycle",
    "C99_finite_differences",
    "C99_hopf",
    "C99_hopf_polar",
    "C99_hopf_polar_refuted",
    "C99_pendulum_position",
    "C99_pendulum_energy",
    "C99_inverted_pendulum",
    "C99_inverted_pendulum_control_refuted",
    "C99_inverted_pendulum_rest_refuted",
    "C99_inverted_pendulum2",
    "C99_inverted_pendulum2_parameters_refuted",
    "C99_trigonometric",
    "C99_trigonometric_velocity_refuted",
    "C99_burger",
    "C99_burger_seam_refuted",
    "C99_three_points"
   ],
   "note": ""
  },
  {
   "property": "C100",
   "status": "proved",
   "theorems": [
    "C100_dense",
    "C100_sparse",
    "C100_thinplate_sparse_refuted",
    "C100_monotone",
    "C100_positive",
    "C100_multiquadric",
    "C100_interpolation_unique",
    "C100_markov_eigenvalues",
    "C100_cut_off_positive_refuted",
    "C100_bandwidth_history",
    "C100_bandwidth_stale_refuted",
    "C100_metric",
    "C100_metric_retry_refuted"
   ],
   "note": ""
  },
  {
   "property": "C101",
   "status": "proved",
   "theorems": [
    "C101_minimal_residual",
    "C101_minimal_residual_reduced",
    "C101_unique",
    "C101_conjugate",
    "C101_lipschitz",
    "C101_zero_at_eigenvalues",
    "C101_positive_mass",
    "C101_available",
    "C101_two_pairs_refuted",
    "C101_eigfuncs_refuted",
    "C101_observable_overwritten_refuted"
   ],
   "note": ""
  },
  {
   "property": "C102",
   "status": "proved",
   "theorems": [
    "C102_control_signal",
    "C102_arguments_unchanged",
    "C102_construct",
    "C102_bounds",
    "C102_vector_reference_refuted",
    "C102_in_place_refuted"
   ],
   "note": ""
  },
  {
   "property": "C103",
   "status": "proved",
   "theorems": [
    "C103_cut_off",
    "C103_cut_off_and_k",
    "C103_dense",
    "C103_nearest_neighbours",
    "C103_knn_backend_refuted",
    "C103_k_ignored_refuted",
    "C103_k_not_guaranteed_refuted",
    "C103_options_dropped_refuted",
    "C103_options_kept",
    "C103_backend",
    "C103_symmetric_backends_history_refuted"
   ],
   "note": ""
  },
  {
   "property": "C104",
   "status": "proved",
   "theorems": [
    "C104_two_splits",
    "C104_two_splits_balanced",
    "C104_more_splits",
    "C104_energies_unique",
    "C104_algorithms_agree",
    "C104_energies",
    "C104_kernel_eigenvectors",
    "C104_threshold",
    "C104_threshold_not_shuffled_refuted",
    "C104_parameters"
   ],
   "note": ""
  },
  {
   "property": "C105",
   "status": "proved",
   "theorems": [
    "C105_parameters",
    "C105_defined",
    "C105_datetime_refuted",
    "C105_least_squares",
    "C105_exact_for_polynomials",
    "C105_sampled_system",
    "C105_central_generator",
    "C105_shift_index_refuted",
    "C105_affine_exact",
    "C105_affine_times_refuted",
    "C105_affine_order_refuted"
   ],
   "note": ""
  },
  {
   "property": "C106",
   "status": "proved",
   "theorems": [
    "C106_values",
    "C106_symmetric",
    "C106_range",
    "C106_identity",
    "C106_invariant",
    "C106_covariance_refuted",
    "C106_diagonal_sparse",
    "C106_zero_distance_refuted",
    "C106_defined",
    "C106_queries_refuted",
    "C106_input_overwritten_refuted",
    "C106_call_arguments"
   ],
   "note": ""
  },
  {
   "property": "C107",
   "status": "proved",
   "theorems": [
    "C107_from_name",
    "C107_roundtrip",
    "C107_rows",
    "C107_sample_order",
    "C107_increasing",
    "C107_standardized",
    "C107_min_max",
    "C107_fit_transform",
    "C107_array_inverse_refuted",
    "C107_number_labels",
    "C107_failed_fit",
    "C107_labels_refuted",
    "C107_refit_refuted"
   ],
   "note": ""
  },
  {
   "property": "C108",
   "status": "proved",
   "theorems": [
    "C108_projection",
    "C108_optimal",
    "C108_scores",
    "C108_components",
    "C108_array_refuted",
    "C108_refit",
    "C108_refit_refuted",
    "C108_labels"
   ],
   "note": ""
  },
  {
   "property": "C109",
   "status": "proved",
   "theorems": [
    "C109_fit",
    "C109_transform",
    "C109_causal",
    "C109_labels",
    "C109_number_labels_refuted",
    "C109_names_refuted",
    "C109_spacing_refuted",
    "C109_refit_refuted",
    "C109_refit",
    "C109_partial_fit"
   ],
   "note": ""
  },
  {
   "property": "C110",
   "status": "proved",
   "theorems": [
    "C110_predict",
    "C110_raw_values",
    "C110_uniform_average",
    "C110_documented_metric_refuted",
    "C110_one_point_refuted",
    "C110_weights_refuted",
    "C110_gradient_column"
   ],
   "note": ""
  },
  {
   "property": "C111",
   "status": "proved",
   "theorems": [
    "C111_dmap_history",
    "C111_dmap_values",
    "C111_training_points",
    "C111_reference_refuted",
    "C111_roseland_history",
    "C111_roseland_values",
    "C111_roseland_alpha_refuted"
   ],
   "note": ""
  },
  {
   "property": "C112",
   "status": "proved",
   "theorems": [
    "C112_rows",
    "C112_names",
    "C112_order",
    "C112_series_order_refuted",
    "C112_columns",
    "C112_missing_column",
    "C112_n_features_out",
    "C112_n_features_out_refuted"
   ],
   "note": ""
  },
  {
   "property": "C113",
   "status": "proved",
   "theorems": [
    "C113_slice",
    "C113_stride",
    "C113_compose",
    "C113_number",
    "C113_number_out_of_range",
    "C113_name"
   ],
   "note": ""
  },
  {
   "property": "C114",
   "status": "proved",
   "theorems": [
    "C114_result",
    "C114_new_columns",
    "C114_cells",
    "C114_errors",
    "C114_aligned_refuted"
   ],
   "note": ""
  }
 ]
}