{
 "claims": [
  {
   "property": "C01",
   "status": "proved",
   "theorems": [
    "C01_forget_vector"
   ],
   "note": ""
  },
  {
   "property": "C02",
   "status": "proved",
   "theorems": [
    "C02_init_gram",
    "C02_init_y_gram"
   ],
   "note": ""
  },
  {
   "property": "C03",
   "status": "proved",
   "theorems": [
    "C03_gram_history",
    "C03_y_gram_history"
   ],
   "note": ""
  },
  {
   "property": "C04",
   "status": "proved",
   "theorems": [
    "C04_gram_symmetric",
    "C04_gram_psd"
   ],
   "note": ""
  },
  {
   "property": "C05",
   "status": "proved",
   "theorems": [
    "C05_inverse_history",
    "C05_init_raises_iff"
   ],
   "note": ""
  },
  {
   "property": "C06",
   "status": "proved",
   "theorems": [
    "C06_divisor_positive"
   ],
   "note": ""
  },
  {
   "property": "C07",
   "status": "proved",
   "theorems": [
    "C07_batch_equals_rowwise",
    "C07_negative_weight_nan"
   ],
   "note": ""
  },
  {
   "property": "C08",
   "status": "proved",
   "theorems": [
    "C08_ols_online_equals_batch",
    "C08_ols_chunking"
   ],
   "note": ""
  },
  {
   "property": "C09",
   "status": "proved",
   "theorems": [
    "C09_ols_optimal"
   ],
   "note": ""
  },
  {
   "property": "C10",
   "status": "proved",
   "theorems": [
    "C10_soft_threshold_prox",
    "C10_soft_threshold_odd",
    "C10_soft_threshold_nonexpansive",
    "C10_soft_threshold_zero"
   ],
   "note": ""
  },
  {
   "property": "C11",
   "status": "proved",
   "theorems": [
    "C11_descent",
    "C11_descent_strict"
   ],
   "note": ""
  },
  {
   "property": "C12",
   "status": "proved",
   "theorems": [
    "C12_bounds",
    "C12_path_bounds"
   ],
   "note": ""
  },
  {
   "property": "C13",
   "status": "proved",
   "theorems": [
    "C13_terminates",
    "C13_stopping_rule",
    "C13_one_more_sweep"
   ],
   "note": ""
  },
  {
   "property": "C14",
   "status": "proved",
   "theorems": [
    "C14_fixed_point_optimal",
    "C14_optimal_is_kept"
   ],
   "note": ""
  },
  {
   "property": "C15",
   "status": "proved",
   "theorems": [
    "C15_zero_stays_zero",
    "C15_stop_not_optimal",
    "C15_active_set_optimal"
   ],
   "note": ""
  },
  {
   "property": "C16",
   "status": "proved",
   "theorems": [
    "C16_first_row",
    "C16_lambda_max_tight"
   ],
   "note": ""
  },
  {
   "property": "C17",
   "status": "proved",
   "theorems": [
    "C17_nonnegative_first_row_zero",
    "C17_negative_first_row_nonzero",
    "C17_negative_grid",
    "C17_single_column_doubled"
   ],
   "note": ""
  },
  {
   "property": "C18",
   "status": "proved",
   "theorems": [
    "C18_mixed_first_row_nonzero",
    "C18_mixed_first_row_nonzero_all"
   ],
   "note": ""
  },
  {
   "property": "C19",
   "status": "proved",
   "theorems": [
    "C19_grid"
   ],
   "note": ""
  },
  {
   "property": "C20",
   "status": "proved",
   "theorems": [
    "C20_average_is_previous_fit"
   ],
   "note": ""
  },
  {
   "property": "C21",
   "status": "proved",
   "theorems": [
    "C21_row_shape",
    "C21_frozen"
   ],
   "note": ""
  },
  {
   "property": "C22",
   "status": "proved",
   "theorems": [
    "C22_raises_iff",
    "C22_never_raises"
   ],
   "note": ""
  },
  {
   "property": "C23",
   "status": "proved",
   "theorems": [
    "C23_moments",
    "C23_fit_succeeds"
   ],
   "note": ""
  },
  {
   "property": "C24",
   "status": "proved",
   "theorems": [
    "C24_variance_nonnegative"
   ],
   "note": ""
  },
  {
   "property": "C25",
   "status": "proved",
   "theorems": [
    "C25_round_trip",
    "C25_unselected_columns"
   ],
   "note": ""
  },
  {
   "property": "C26",
   "status": "proved",
   "theorems": [
    "C26_standardised"
   ],
   "note": ""
  },
  {
   "property": "C27",
   "status": "proved",
   "theorems": [
    "C27_sum_of_weights",
    "C27_increasing",
    "C27_bounds",
    "C27_limit"
   ],
   "note": ""
  },
  {
   "property": "C28",
   "status": "proved",
   "theorems": [
    "C28_discounted_mean",
    "C28_arithmetic_mean"
   ],
   "note": ""
  },
  {
   "property": "C29",
   "status": "proved",
   "theorems": [
    "C29_gaussian"
   ],
   "note": ""
  },
  {
   "property": "C30",
   "status": "proved",
   "theorems": [
    "C30_scale_invariant_choice",
    "C30_choice_is_first_minimum",
    "C30_more_likelihood",
    "C30_fewer_parameters",
    "C30_max_is_likelihood",
    "C30_hqc_short_sample",
    "C30_aicc_path_raises"
   ],
   "note": ""
  },
  {
   "property": "C31",
   "status": "proved",
   "theorems": [
    "C31_round_trip",
    "C31_clipped"
   ],
   "note": ""
  },
  {
   "property": "C32",
   "status": "proved",
   "theorems": [
    "C32_round_trip",
    "C32_sqrt_abs",
    "C32_shifted"
   ],
   "note": ""
  },
  {
   "property": "C33",
   "status": "proved",
   "theorems": [
    "C33_in_range",
    "C33_cap"
   ],
   "note": ""
  },
  {
   "property": "C34",
   "status": "proved",
   "theorems": [
    "C34_link_derivative",
    "C34_link_second_derivative",
    "C34_inverse_derivative",
    "C34_above_cap",
    "C34_logident_not_implemented"
   ],
   "note": ""
  },
  {
   "property": "C35",
   "status": "proved",
   "theorems": [
    "C35_first_derivative_wrong",
    "C35_second_derivative_sign"
   ],
   "note": ""
  },
  {
   "property": "C36",
   "status": "proved",
   "theorems": [
    "C36_link_nondecreasing",
    "C36_link_strict",
    "C36_inverse_nondecreasing",
    "C36_inverse_strict",
    "C36_softplus_drop",
    "C36_logit_above_one"
   ],
   "note": ""
  },
  {
   "property": "C37",
   "status": "proved",
   "theorems": [
    "C37_warns_iff",
    "C37_construct",
    "C37_which",
    "C37_defaults_silent",
    "C37_sqrt_gap"
   ],
   "note": ""
  },
  {
   "property": "C38",
   "status": "proved",
   "theorems": [
    "C38_admissible",
    "C38_score"
   ],
   "note": ""
  },
  {
   "property": "C39",
   "status": "proved",
   "theorems": [
    "C39_score"
   ],
   "note": ""
  },
  {
   "property": "C40",
   "status": "proved",
   "theorems": [
    "C40_diagonal",
    "C40_cross",
    "C40_gumbel",
    "C40_jsu"
   ],
   "note": ""
  },
  {
   "property": "C41",
   "status": "proved",
   "theorems": [
    "C41_cross_sign"
   ],
   "note": ""
  },
  {
   "property": "C42",
   "status": "proved",
   "theorems": [
    "C42_positive",
    "C42_jsu",
    "C42_inflated"
   ],
   "note": ""
  },
  {
   "property": "C43",
   "status": "proved",
   "theorems": [
    "C43_beta_inflated",
    "C43_beta_inflated_zero",
    "C43_zero_adjusted_gamma",
    "C43_lognormal",
    "C43_logcdf",
    "C43_off_support"
   ],
   "note": ""
  },
  {
   "property": "C44",
   "status": "proved",
   "theorems": [
    "C44_beta_inflated",
    "C44_beta_inflated_zero",
    "C44_zero_adjusted_gamma",
    "C44_lognormal"
   ],
   "note": ""
  },
  {
   "property": "C45",
   "status": "proved",
   "theorems": [
    "C45_off_support",
    "C45_bad_level"
   ],
   "note": ""
  },
  {
   "property": "C46",
   "status": "proved",
   "theorems": [
    "C46_single",
    "C46_pair",
    "C46_inverse_gaussian",
    "C46_negative"
   ],
   "note": ""
  },
  {
   "property": "C47",
   "status": "proved",
   "theorems": [
    "C47_chunking",
    "C47_least_squares"
   ],
   "note": ""
  },
  {
   "property": "C48",
   "status": "proved",
   "theorems": [
    "C48_units_of_arrival",
    "C48_scaling_breaks_equality"
   ],
   "note": ""
  },
  {
   "property": "C49",
   "status": "proved",
   "theorems": [
    "C49_discount_per_call",
    "C49_plain_sum",
    "C49_depends_on_chunking",
    "C49_weights"
   ],
   "note": ""
  },
  {
   "property": "C50",
   "status": "proved",
   "theorems": [
    "C50_fit_selects",
    "C50_update_selects"
   ],
   "note": ""
  },
  {
   "property": "C51",
   "status": "proved",
   "theorems": [
    "C51_poisoned",
    "C51_when",
    "C51_single_row",
    "C51_never_refits",
    "C51_fit_forgets"
   ],
   "note": ""
  },
  {
   "property": "C52",
   "status": "proved",
   "theorems": [
    "C52_counts_failed_calls",
    "C52_accounting"
   ],
   "note": ""
  },
  {
   "property": "C53",
   "status": "proved",
   "theorems": [
    "C53_at_most_one",
    "C53_mean_predictor",
    "C53_undefined_iff_constant",
    "C53_score_of_predictions",
    "C53_ignores_weights"
   ],
   "note": ""
  },
  {
   "property": "C71",
   "status": "proved",
   "theorems": [
    "C71_failed_refit"
   ],
   "note": ""
  },
  {
   "property": "C72",
   "status": "proved",
   "theorems": [
    "C72_rejected_batch"
   ],
   "note": ""
  },
  {
   "property": "C54",
   "status": "proved",
   "theorems": [
    "C54_every_parameter_has_a_value",
    "C54_user_entries_are_kept",
    "C54_user_dict_is_extended_in_place",
    "C54_handle_param_dict",
    "C54_equation_completed"
   ],
   "note": ""
  },
  {
   "property": "C55",
   "status": "proved",
   "theorems": [
    "C55_step_is_right_for_dicts_in_parameter_order",
    "C55_step_goes_by_position",
    "C55_wrong_parameter"
   ],
   "note": ""
  },
  {
   "property": "C56",
   "status": "proved",
   "theorems": [
    "C56_model_matrix",
    "C56_bookkeeping_agrees",
    "C56_other_selections_raise"
   ],
   "note": ""
  },
  {
   "property": "C57",
   "status": "proved",
   "theorems": [
    "C57_rejected_without_effect",
    "C57_rejected_only_then",
    "C57_methods_never"
   ],
   "note": ""
  },
  {
   "property": "C58",
   "status": "proved",
   "theorems": [
    "C58_fit_cycles",
    "C58_update_cycles",
    "C58_contradictory_limits",
    "C58_fuel_is_enough",
    "C58_returns"
   ],
   "note": ""
  },
  {
   "property": "C59",
   "status": "proved",
   "theorems": [
    "C59_inner_fit",
    "C59_prefit",
    "C59_prefit_update"
   ],
   "note": ""
  },
  {
   "property": "C60",
   "status": "proved",
   "theorems": [
    "C60_inner_fit_never_worse",
    "C60_fit_never_worse_than_first_cycle",
    "C60_first_cycle_stores_last"
   ],
   "note": ""
  },
  {
   "property": "C61",
   "status": "proved",
   "theorems": [
    "C61_update_ignores_steps",
    "C61_predictions_ignore_steps",
    "C61_fit_has_steps"
   ],
   "note": ""
  },
  {
   "property": "C62",
   "status": "proved",
   "theorems": [
    "C62_fit_weights",
    "C62_update_weights",
    "C62_point_masses_break_update"
   ],
   "note": ""
  },
  {
   "property": "C63",
   "status": "proved",
   "theorems": [
    "C63_after_fit",
    "C63_one_discount_per_call",
    "C63_stream",
    "C63_chunking"
   ],
   "note": ""
  },
  {
   "property": "C64",
   "status": "proved",
   "theorems": [
    "C64_prediction_formula",
    "C64_prediction_in_link_range",
    "C64_prediction_is_valid"
   ],
   "note": ""
  },
  {
   "property": "C65",
   "status": "proved",
   "theorems": [
    "C65_fit_selection",
    "C65_update_selection"
   ],
   "note": ""
  },
  {
   "property": "C66",
   "status": "proved",
   "theorems": [
    "C66_user_objects_unchanged",
    "C66_refit_is_first_fit",
    "C66_estimators_independent",
    "C66_objects_remember"
   ],
   "note": ""
  },
  {
   "property": "C67",
   "status": "proved",
   "theorems": [
    "C67_fixed_point_solves",
    "C67_solution_is_kept",
    "C67_unique_minimiser",
    "C67_fit_start",
    "C67_zero_penalty_is_least_squares"
   ],
   "note": ""
  },
  {
   "property": "C68",
   "status": "proved",
   "theorems": [
    "C68_reads_the_next_record",
    "C68_records_of_inner_fit",
    "C68_deviance_of_the_next_iteration"
   ],
   "note": ""
  },
  {
   "property": "C69",
   "status": "proved",
   "theorems": [
    "C69_initial_values",
    "C69_constant_sample",
    "C69_reverse_gumbel",
    "C69_logistic",
    "C69_location",
    "C69_scale"
   ],
   "note": ""
  },
  {
   "property": "C70",
   "status": "proved",
   "theorems": [
    "C70_add_intercept"
   ],
   "note": ""
  },
  {
   "property": "C73",
   "status": "proved",
   "theorems": [
    "C73_failed_first_fit",
    "C73_one_row_first"
   ],
   "note": ""
  },
  {
   "property": "C74",
   "status": "proved",
   "theorems": [
    "C74_failed_refit"
   ],
   "note": ""
  },
  {
   "property": "C75",
   "status": "proved",
   "theorems": [
    "C75_names_always_raise"
   ],
   "note": ""
  },
  {
   "property": "C76",
   "status": "proved",
   "theorems": [
    "C76_cautious_updates"
   ],
   "note": ""
  },
  {
   "property": "C77",
   "status": "proved",
   "theorems": [
    "C77_minimum_carries_over",
    "C77_minimum_of_an_update"
   ],
   "note": ""
  },
  {
   "property": "C78",
   "status": "proved",
   "theorems": [
    "C78_failed_update_keeps_the_accumulated",
    "C78_every_update_is_counted"
   ],
   "note": ""
  },
  {
   "property": "C79",
   "status": "proved",
   "theorems": [
    "C79_normal_location"
   ],
   "note": ""
  },
  {
   "property": "C80",
   "status": "proved",
   "theorems": [
    "C80_stationary_points"
   ],
   "note": ""
  },
  {
   "property": "C81",
   "status": "proved",
   "theorems": [
    "C81_zeros_accepted_but_never_fitted"
   ],
   "note": ""
  },
  {
   "property": "C82",
   "status": "proved",
   "theorems": [
    "C82_worse_candidate_is_stored"
   ],
   "note": ""
  },
  {
   "property": "C83",
   "status": "proved",
   "theorems": [
    "C83_fit_selection_ignores_weights"
   ],
   "note": ""
  },
  {
   "property": "C84",
   "status": "proved",
   "theorems": [
    "C84_after_fit",
    "C84_after_update",
    "C84_after_a_stream"
   ],
   "note": ""
  },
  {
   "property": "C85",
   "status": "proved",
   "theorems": [
    "C85_lasso_never_fits",
    "C85_lasso_never_predicts"
   ],
   "note": ""
  },
  {
   "property": "C86",
   "status": "proved",
   "theorems": [
    "C86_dict_options_are_rejected",
    "C86_step_size_may_be_a_dict",
    "C86_all_parameters_have_the_same_options"
   ],
   "note": ""
  },
  {
   "property": "C87",
   "status": "proved",
   "theorems": [
    "C87_scaler",
    "C87_linear_model",
    "C87_distributional_regression"
   ],
   "note": ""
  },
  {
   "property": "C88",
   "status": "proved",
   "theorems": [
    "C88_predict",
    "C88_mean_of_the_family",
    "C88_mean_and_score",
    "C88_symmetric"
   ],
   "note": ""
  },
  {
   "property": "C89",
   "status": "proved",
   "theorems": [
    "C89_predict_median",
    "C89_predict_of_mixed_families"
   ],
   "note": ""
  },
  {
   "property": "C90",
   "status": "proved",
   "theorems": [
    "C90_array_of_quantiles",
    "C90_one_quantile",
    "C90_list_of_quantiles",
    "C90_quantile_function",
    "C90_never_cross"
   ],
   "note": ""
  },
  {
   "property": "C91",
   "status": "proved",
   "theorems": [
    "C91_scipy_families",
    "C91_mixed_families",
    "C91_mixed_shape"
   ],
   "note": ""
  },
  {
   "property": "C92",
   "status": "proved",
   "theorems": [
    "C92_available",
    "C92_earlier_columns_stay",
    "C92_maximum_likelihood",
    "C92_other_parameters",
    "C92_variance_is_standard_deviation"
   ],
   "note": ""
  },
  {
   "property": "C93",
   "status": "proved",
   "theorems": [
    "C93_fit_never_completes_a_cycle",
    "C93_start_values_raise"
   ],
   "note": ""
  },
  {
   "property": "C94",
   "status": "proved",
   "theorems": [
    "C94_contributions",
    "C94_other_values_of_what"
   ],
   "note": ""
  },
  {
   "property": "C95",
   "status": "proved",
   "theorems": [
    "C95_linear_model",
    "C95_distributional"
   ],
   "note": ""
  },
  {
   "property": "C96",
   "status": "proved",
   "theorems": [
    "C96_distributional",
    "C96_same_outcome"
   ],
   "note": ""
  },
  {
   "property": "C97",
   "status": "proved",
   "theorems": [
    "C97_linear_model",
    "C97_distributional",
    "C97_exceptions"
   ],
   "note": ""
  },
  {
   "property": "C98",
   "status": "proved",
   "theorems": [
    "C98_accuracy_at_tolerance"
   ],
   "note": ""
  },
  {
   "property": "C99",
   "status": "proved",
   "theorems": [
    "C99_every_sweep_gains",
    "C99_number_of_sweeps"
   ],
   "note": ""
  },
  {
   "property": "C100",
   "status": "proved",
   "theorems": [
    "C100_float_terminates",
    "C100_float_within_bounds",
    "C100_float_no_nan_at_tolerance",
    "C100_float_zero_stays_zero",
    "C100_float_raises_iff"
   ],
   "note": ""
  },
  {
   "property": "C101",
   "status": "proved",
   "theorems": [
    "C101_float_soft_threshold",
    "C101_float_soft_threshold_monotone"
   ],
   "note": ""
  },
  {
   "property": "C102",
   "status": "proved",
   "theorems": [
    "C102_float_fit_variance",
    "C102_float_update_negative_variance",
    "C102_float_constant_column"
   ],
   "note": ""
  },
  {
   "property": "C103",
   "status": "proved",
   "theorems": [
    "C103_float_logit_inside"
   ],
   "note": ""
  },
  {
   "property": "C104",
   "status": "proved",
   "theorems": [
    "C104_float_softplus_positive",
    "C104_float_softplus_reaches_zero",
    "C104_float_shift_reaches_value",
    "C104_float_shift_support"
   ],
   "note": ""
  },
  {
   "property": "C105",
   "status": "proved",
   "theorems": [
    "C105_float_log_positive",
    "C105_float_logident_positive"
   ],
   "note": ""
  },
  {
   "property": "C106",
   "status": "proved",
   "theorems": [
    "C106_ols",
    "C106_ridge"
   ],
   "note": ""
  },
  {
   "property": "C107",
   "status": "proved",
   "theorems": [
    "C107_lasso",
    "C107_small_units",
    "C107_units_change_model",
    "C107_elastic_net",
    "C107_one_column"
   ],
   "note": ""
  },
  {
   "property": "C108",
   "status": "proved",
   "theorems": [
    "C108_affine_target"
   ],
   "note": ""
  },
  {
   "property": "C109",
   "status": "proved",
   "theorems": [
    "C109_counts",
    "C109_ols",
    "C109_ridge",
    "C109_path",
    "C109_choice_differs"
   ],
   "note": ""
  },
  {
   "property": "C110",
   "status": "proved",
   "theorems": [
    "C110_ols",
    "C110_ridge",
    "C110_path",
    "C110_forgetting_differs"
   ],
   "note": ""
  },
  {
   "property": "C111",
   "status": "proved",
   "theorems": [
    "C111_update",
    "C111_fit",
    "C111_fit_deviance",
    "C111_shipped",
    "C111_damped"
   ],
   "note": ""
  },
  {
   "property": "C112",
   "status": "proved",
   "theorems": [
    "C112_history",
    "C112_ols_fit",
    "C112_methods",
    "C112_shipped",
    "C112_default_forget",
    "C112_denominator",
    "C112_small_weights"
   ],
   "note": ""
  },
  {
   "property": "C113",
   "status": "proved",
   "theorems": [
    "C113_first_row"
   ],
   "note": ""
  },
  {
   "property": "C114",
   "status": "proved",
   "theorems": [
    "C114_ridge",
    "C114_path_update",
    "C114_path_rows"
   ],
   "note": ""
  },
  {
   "property": "C115",
   "status": "proved",
   "theorems": [
    "C115_direction",
    "C115_small_steps",
    "C115_weights",
    "C115_weights_jsu"
   ],
   "note": ""
  },
  {
   "property": "C116",
   "status": "proved",
   "theorems": [
    "C116_float_step_minimises",
    "C116_float_run_near_optimal",
    "C116_serial_dot_accurate"
   ],
   "note": ""
  },
  {
   "property": "C117",
   "status": "proved",
   "theorems": [
    "C117_float_moments",
    "C117_float_transform",
    "C117_float_round_trip"
   ],
   "note": ""
  },
  {
   "property": "C118",
   "status": "proved",
   "theorems": [
    "C118_fit_residuals",
    "C118_fit_likelihoods",
    "C118_update",
    "C118_stream"
   ],
   "note": ""
  },
  {
   "property": "C119",
   "status": "proved",
   "theorems": [
    "C119_exact_rows",
    "C119_one_row",
    "C119_batch"
   ],
   "note": ""
  },
  {
   "property": "C120",
   "status": "proved",
   "theorems": [
    "C120_forgets"
   ],
   "note": ""
  },
  {
   "property": "C121",
   "status": "proved",
   "theorems": [
    "C121_recode"
   ],
   "note": ""
  },
  {
   "property": "C122",
   "status": "proved",
   "theorems": [
    "C122_residuals",
    "C122_training_score",
    "C122_nested",
    "C122_weights_break_it"
   ],
   "note": ""
  },
  {
   "property": "C123",
   "status": "proved",
   "theorems": [
    "C123_first_candidate",
    "C123_intercept_only",
    "C123_doubles"
   ],
   "note": ""
  },
  {
   "property": "C124",
   "status": "proved",
   "theorems": [
    "C124_ols",
    "C124_ridge",
    "C124_path",
    "C124_selection",
    "C124_rejected"
   ],
   "note": ""
  },
  {
   "property": "C125",
   "status": "proved",
   "theorems": [
    "C125_shift",
    "C125_families",
    "C125_concave",
    "C125_recode"
   ],
   "note": ""
  },
  {
   "property": "C126",
   "status": "proved",
   "theorems": [
    "C126_only_chooses",
    "C126_heavier",
    "C126_order"
   ],
   "note": ""
  },
  {
   "property": "C127",
   "status": "proved",
   "theorems": [
    "C127_fit",
    "C127_update",
    "C127_descent",
    "C127_all_cycles"
   ],
   "note": ""
  },
  {
   "property": "C128",
   "status": "proved",
   "theorems": [
    "C128_accuracy",
    "C128_diagonal",
    "C128_positive",
    "C128_assumptions"
   ],
   "note": ""
  },
  {
   "property": "C129",
   "status": "proved",
   "theorems": [
    "C129_stream_optimal",
    "C129_stream_distance",
    "C129_any_dot_accurate"
   ],
   "note": ""
  },
  {
   "property": "C130",
   "status": "proved",
   "theorems": [
    "C130_superposition",
    "C130_any_response",
    "C130_recovery",
    "C130_scaling_breaks_recovery"
   ],
   "note": ""
  },
  {
   "property": "C131",
   "status": "proved",
   "theorems": [
    "C131_one_row",
    "C131_windup",
    "C131_next_row_decides",
    "C131_category_mean",
    "C131_frozen"
   ],
   "note": ""
  },
  {
   "property": "C132",
   "status": "proved",
   "theorems": [
    "C132_coordinate",
    "C132_never_fails",
    "C132_category",
    "C132_absence",
    "C132_fades",
    "C132_first_call_sets_penalty"
   ],
   "note": ""
  },
  {
   "property": "C133",
   "status": "proved",
   "theorems": [
    "C133_unchanged",
    "C133_ages",
    "C133_long_mask",
    "C133_not_dropped",
    "C133_ridge",
    "C133_counters"
   ],
   "note": ""
  }
 ]
}