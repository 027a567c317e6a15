{
 "claims": [
  {
   "property": "C01",
   "status": "proved",
   "theorems": [
    "C01_connection_carries_exactly_its_samples"
   ],
   "note": ""
  },
  {
   "property": "C02",
   "status": "proved",
   "theorems": [
    "C02_two_filters_compose",
    "C02_pipeline_is_composition",
    "C02_filter_stream_in_network",
    "C02_pipeline_is_composition"
   ],
   "note": ""
  },
  {
   "property": "C03",
   "status": "proved",
   "theorems": [
    "C03_consumers_do_not_influence_each_other"
   ],
   "note": ""
  },
  {
   "property": "C04",
   "status": "proved",
   "theorems": [
    "C04_connects_exactly_the_neighbours",
    "C04_parentheses_are_irrelevant",
    "C04_same_samples_flow",
    "C04_only_variables_stay_connected",
    "C04_chain_lifetime_is_safe"
   ],
   "note": ""
  },
  {
   "property": "C05",
   "status": "proved",
   "theorems": [
    "C05_destruction_in_any_order_is_safe",
    "C05_needs_first_equal_key_refuted"
   ],
   "note": ""
  },
  {
   "property": "C06",
   "status": "proved",
   "theorems": [
    "C06_flush_reaches_exactly_downstream",
    "C06_range_flushes",
    "C06_mh_flushes",
    "C06_dr_flushes",
    "C06_de_flushes"
   ],
   "note": ""
  },
  {
   "property": "C07",
   "status": "proved",
   "theorems": [
    "C07_take_every_nth",
    "C07_take_every_nth_count",
    "C07_take_every_nth_no_overflow",
    "C07_take_every_0th_is_undefined"
   ],
   "note": ""
  },
  {
   "property": "C08",
   "status": "proved",
   "theorems": [
    "C08_discard_first_n",
    "C08_discard_first_n_exact",
    "C08_discard_first_n_wraps",
    "C08_discard_first_n_unbounded_refuted"
   ],
   "note": ""
  },
  {
   "property": "C09",
   "status": "proved",
   "theorems": [
    "C09_condition",
    "C09_condition_without_aux",
    "C09_conversion",
    "C09_pass_through",
    "C09_component_splitter",
    "C09_component_splitter_only",
    "C09_component_splitter_out_of_range"
   ],
   "note": ""
  },
  {
   "property": "C10",
   "status": "proved",
   "theorems": [
    "C10_count_samples"
   ],
   "note": ""
  },
  {
   "property": "C11",
   "status": "proved",
   "theorems": [
    "C11_last_sample",
    "C11_no_sample_yet_refuted"
   ],
   "note": ""
  },
  {
   "property": "C12",
   "status": "proved",
   "theorems": [
    "C12_mean_value",
    "C12_no_sample_yet_refuted"
   ],
   "note": ""
  },
  {
   "property": "C13",
   "status": "proved",
   "theorems": [
    "C13_int_mean_nondecreasing",
    "C13_int_mean_dice_refuted"
   ],
   "note": ""
  },
  {
   "property": "C14",
   "status": "proved",
   "theorems": [
    "C14_covariance",
    "C14_no_sample_yet",
    "C14_one_sample_refuted",
    "C14_covariance_ieee_refuted"
   ],
   "note": ""
  },
  {
   "property": "C15",
   "status": "proved",
   "theorems": [
    "C15_autocovariance_trace",
    "C15_lag_zero_is_variance",
    "C15_no_sample_yet_refuted"
   ],
   "note": ""
  },
  {
   "property": "C16",
   "status": "proved",
   "theorems": [
    "C16_autocovariance_matrix",
    "C16_right_iff_memory_zero",
    "C16_nan_stays",
    "C16_diagonal_sum_is_trace"
   ],
   "note": ""
  },
  {
   "property": "C17",
   "status": "proved",
   "theorems": [
    "C17_average_cosine",
    "C17_zero_history_refuted",
    "C17_long_streams_refuted"
   ],
   "note": ""
  },
  {
   "property": "C18",
   "status": "proved",
   "theorems": [
    "C18_acceptance_ratio",
    "C18_no_samples",
    "C18_valarray_comparison",
    "C18_counter_wraps"
   ],
   "note": ""
  },
  {
   "property": "C19",
   "status": "proved",
   "theorems": [
    "C19_first_maximiser",
    "C19_first_maximiser_is_unique",
    "C19_lowest_is_forgotten_refuted",
    "C19_nan_first_is_kept_refuted"
   ],
   "note": ""
  },
  {
   "property": "C20",
   "status": "proved",
   "theorems": [
    "C20_histogram_counts",
    "C20_exactly_one_bin",
    "C20_constructor",
    "C20_break_points_in_double_arithmetic",
    "C20_tiny_ranges_refuted",
    "C20_constructor_with_function",
    "C20_right_end_point_refuted",
    "C20_nan"
   ],
   "note": ""
  },
  {
   "property": "C21",
   "status": "proved",
   "theorems": [
    "C21_get",
    "C21_write_gnuplot",
    "C21_copy"
   ],
   "note": ""
  },
  {
   "property": "C22",
   "status": "proved",
   "theorems": [
    "C22_pair_histogram_counts",
    "C22_constructor",
    "C22_constructor_with_functions",
    "C22_copy",
    "C22_uninitialised_counts_refuted",
    "C22_nan",
    "C22_counts_add_up"
   ],
   "note": ""
  },
  {
   "property": "C23",
   "status": "proved",
   "theorems": [
    "C23_stream_output"
   ],
   "note": ""
  },
  {
   "property": "C24",
   "status": "proved",
   "theorems": [
    "C24_called_once",
    "C24_one_at_a_time",
    "C24_concurrent_actions"
   ],
   "note": ""
  },
  {
   "property": "C25",
   "status": "proved",
   "theorems": [
    "C25_mh_chain",
    "C25_mh_returns"
   ],
   "note": ""
  },
  {
   "property": "C26",
   "status": "proved",
   "theorems": [
    "C26_mh_is_textbook",
    "C26_mh_acceptance_probability",
    "C26_mh_detailed_balance",
    "C26_mh_stationary",
    "C26_mh_transition_probabilities",
    "C26_zero_probability_proposal",
    "C26_leave_zero_probability",
    "C26_leave_zero_probability_max"
   ],
   "note": ""
  },
  {
   "property": "C27",
   "status": "proved",
   "theorems": [
    "C27_zero_to_zero_refuted",
    "C27_zero_to_zero_inf",
    "C27_mixed_zeros_refuted"
   ],
   "note": ""
  },
  {
   "property": "C28",
   "status": "proved",
   "theorems": [
    "C28_dr_chain",
    "C28_dr_returns",
    "C28_second_stage_undefined_refuted",
    "C28_no_repetition_without_undefined_behaviour"
   ],
   "note": ""
  },
  {
   "property": "C29",
   "status": "proved",
   "theorems": [
    "C29_no_delays_is_mh",
    "C29_zero_probability_refuted",
    "C29_asymmetric_proposals_refuted"
   ],
   "note": ""
  },
  {
   "property": "C30",
   "status": "proved",
   "theorems": [
    "C30_de_chains",
    "C30_de_returns",
    "C30_too_few_chains_debug",
    "C30_no_chains_release"
   ],
   "note": ""
  },
  {
   "property": "C31",
   "status": "proved",
   "theorems": [
    "C31_first_partner",
    "C31_second_partner_last_chain",
    "C31_second_partner_refuted",
    "C31_run_refuted"
   ],
   "note": ""
  },
  {
   "property": "C32",
   "status": "proved",
   "theorems": [
    "C32_schedule_independent",
    "C32_no_data_race",
    "C32_no_task_left",
    "C32_progress",
    "C32_terminates"
   ],
   "note": ""
  },
  {
   "property": "C33",
   "status": "proved",
   "theorems": [
    "C33_silent_after_disconnect"
   ],
   "note": ""
  },
  {
   "property": "C34",
   "status": "proved",
   "theorems": [
    "C34_flush_waits",
    "C34_flush_waits_lock",
    "C34_flush_consumers_waits"
   ],
   "note": ""
  },
  {
   "property": "C35",
   "status": "proved",
   "theorems": [
    "C35_at_most_once",
    "C35_own_sample",
    "C35_connected_drops_nothing",
    "C35_every_connection",
    "C35_exactly_once_at_the_end",
    "C35_exactly_once_when_flushed",
    "C35_synchronous"
   ],
   "note": ""
  },
  {
   "property": "C36",
   "status": "proved",
   "theorems": [
    "C36_no_deadlock",
    "C36_bounded",
    "C36_can_be_completed",
    "C36_disconnect_waits_for_consume",
    "C36_callback_deadlock_synchronous",
    "C36_callback_deadlock_asynchronous"
   ],
   "note": ""
  },
  {
   "property": "C37",
   "status": "proved",
   "theorems": [
    "C37_queue_size_irrelevant",
    "C37_bounded_queue_refuted"
   ],
   "note": ""
  },
  {
   "property": "C38",
   "status": "proved",
   "theorems": [
    "C38_linearizable",
    "C38_linearizable_always",
    "C38_no_lost_updates",
    "C38_mutual_exclusion",
    "C38_accesses_inside",
    "C38_lines_not_mixed",
    "C38_member_functions"
   ],
   "note": ""
  },
  {
   "property": "C39",
   "status": "proved",
   "theorems": [
    "C39_histogram_order_independent",
    "C39_pair_histogram_order_independent",
    "C39_count_order_independent",
    "C39_count_async",
    "C39_mean_async",
    "C39_covariance_async",
    "C39_histogram_async",
    "C39_pair_histogram_async",
    "C39_consumed_are_delivered",
    "C39_asynchronous_equals_synchronous",
    "C39_last_sample_async_refuted",
    "C39_maximum_probability_async_refuted",
    "C39_mean_order_independent",
    "C39_covariance_order_independent"
   ],
   "note": ""
  },
  {
   "property": "C40",
   "status": "proved",
   "theorems": [
    "C40_mode_check",
    "C40_order_sensitive_classes_refuse_async",
    "C40_other_classes_accept_async",
    "C40_release_build_checks_nothing_refuted",
    "C40_not_while_connected",
    "C40_slots_exist_for_single_modes_only",
    "C40_combined_mask_refuted"
   ],
   "note": ""
  },
  {
   "property": "C41",
   "status": "proved",
   "theorems": [
    "C41_take_every_nth",
    "C41_discard_first_n",
    "C41_any_filter",
    "C41_member_functions"
   ],
   "note": ""
  },
  {
   "property": "C42",
   "status": "proved",
   "theorems": [
    "C42_range"
   ],
   "note": ""
  },
  {
   "property": "C43",
   "status": "proved",
   "theorems": [
    "C43_size",
    "C43_element_access_in_range",
    "C43_element_access_out_of_range",
    "C43_element_access_out_of_range_release",
    "C43_sized_without_subscript_refuted",
    "C43_conj"
   ],
   "note": ""
  },
  {
   "property": "C44",
   "status": "proved",
   "theorems": [
    "C44_usable_after_connect",
    "C44_dropped_while_connecting_refuted"
   ],
   "note": ""
  },
  {
   "property": "C45",
   "status": "proved",
   "theorems": [
    "C45_nan_proposal_rejected",
    "C45_nan_start_never_moves"
   ],
   "note": ""
  },
  {
   "property": "C46",
   "status": "proved",
   "theorems": [
    "C46_second_stage",
    "C46_two_stage_balance",
    "C46_whole_run",
    "C46_every_stage",
    "C46_third_stage_refuted"
   ],
   "note": ""
  },
  {
   "property": "C47",
   "status": "proved",
   "theorems": [
    "C47_de_accepts",
    "C47_de_acceptance_probability",
    "C47_de_run",
    "C47_zero_to_zero"
   ],
   "note": ""
  },
  {
   "property": "C48",
   "status": "proved",
   "theorems": [
    "C48_six_patches_per_cell",
    "C48_five_faces",
    "C48_bottom_face_refuted"
   ],
   "note": ""
  },
  {
   "property": "C49",
   "status": "proved",
   "theorems": [
    "C49_destroying_producers_safe",
    "C49_no_crash",
    "C49_producer_destructor_against_disconnect_refuted"
   ],
   "note": ""
  },
  {
   "property": "C50",
   "status": "proved",
   "theorems": [
    "C50_destructor_waits_for_tasks",
    "C50_late_sample_refuted",
    "C50_two_destructors_refuted"
   ],
   "note": ""
  },
  {
   "property": "C51",
   "status": "proved",
   "theorems": [
    "C51_no_data_race",
    "C51_only_unprotected_accesses",
    "C51_connecting_races_refuted",
    "C51_assertion_races_refuted"
   ],
   "note": ""
  },
  {
   "property": "C52",
   "status": "proved",
   "theorems": [
    "C52_exact_log"
   ],
   "note": ""
  },
  {
   "property": "C53",
   "status": "proved",
   "theorems": [
    "C53_completely_consumed",
    "C53_own_samples",
    "C53_delivered_over_every_connection",
    "C53_filters_respond",
    "C53_at_most_once",
    "C53_every_trail_once",
    "C53_mode_irrelevant"
   ],
   "note": ""
  },
  {
   "property": "C54",
   "status": "proved",
   "theorems": [
    "C54_no_deadlock",
    "C54_bounded",
    "C54_can_be_completed"
   ],
   "note": ""
  },
  {
   "property": "C55",
   "status": "proved",
   "theorems": [
    "C55_one_chain_balance",
    "C55_without_crossover",
    "C55_last_chain_with_crossover",
    "C55_middle_chain_refuted",
    "C55_independence_refuted"
   ],
   "note": ""
  },
  {
   "property": "C56",
   "status": "proved",
   "theorems": [
    "C56_within_range",
    "C56_error_bound",
    "C56_order",
    "C56_constant_stream_exact",
    "C56_overflow_refuted",
    "C56_order_matters_refuted"
   ],
   "note": ""
  },
  {
   "property": "C57",
   "status": "proved",
   "theorems": [
    "C57_covariance_double",
    "C57_symmetric",
    "C57_uninitialised_refuted"
   ],
   "note": ""
  },
  {
   "property": "C58",
   "status": "proved",
   "theorems": [
    "C58_law_of_a_run",
    "C58_converges_to_the_target",
    "C58_converges_if_reachable",
    "C58_converges_if_connected_refuted",
    "C58_averages",
    "C58_averages_rate",
    "C58_averages_in_probability"
   ],
   "note": ""
  },
  {
   "property": "C59",
   "status": "proved",
   "theorems": [
    "C59_law_of_a_run",
    "C59_law_one_delay",
    "C59_target_preserved",
    "C59_converges_to_the_target",
    "C59_converges_if_reachable",
    "C59_averages",
    "C59_averages_in_probability",
    "C59_proposals_from_the_rejected_sample",
    "C59_symmetric_random_walk_refuted",
    "C59_two_delays_refuted"
   ],
   "note": ""
  },
  {
   "property": "C60",
   "status": "proved",
   "theorems": [
    "C60_mean_value",
    "C60_covariance",
    "C60_autocovariance_trace",
    "C60_autocovariance_matrix",
    "C60_average_cosine",
    "C60_acceptance_ratio",
    "C60_histogram",
    "C60_maximum_probability_sample",
    "C60_in_probability",
    "C60_burn_in",
    "C60_thinning",
    "C60_thinning_refuted"
   ],
   "note": ""
  },
  {
   "property": "C61",
   "status": "proved",
   "theorems": [
    "C61_law_of_a_run",
    "C61_distribution",
    "C61_averages",
    "C61_acceptance_in_double",
    "C61_library_and_generator",
    "C61_averages_in_double",
    "C61_unlikely_states_refuted"
   ],
   "note": ""
  },
  {
   "property": "C62",
   "status": "proved",
   "theorems": [
    "C62_issue_sample_throws",
    "C62_consume_throws",
    "C62_exceptions_hinder_later_connections_only"
   ],
   "note": ""
  },
  {
   "property": "C63",
   "status": "proved",
   "theorems": [
    "C63_mean_of_transformed_samples",
    "C63_covariance_of_transformed_samples",
    "C63_autocovariance_of_transformed_samples",
    "C63_autocovariance_trace_of_transformed_samples",
    "C63_mean_of_selected_components",
    "C63_covariance_of_selected_components",
    "C63_covariance_is_hermitian",
    "C63_covariance_is_positive",
    "C63_correlations"
   ],
   "note": ""
  },
  {
   "property": "C64",
   "status": "proved",
   "theorems": [
    "C64_mean_of_combined_streams",
    "C64_covariance_of_combined_streams"
   ],
   "note": ""
  },
  {
   "property": "C65",
   "status": "proved",
   "theorems": [
    "C65_runs_are_adaptive_chains",
    "C65_distribution",
    "C65_limit",
    "C65_averages",
    "C65_documented_proposals",
    "C65_documented_limit",
    "C65_documented_averages",
    "C65_adapting_forever_refuted"
   ],
   "note": ""
  },
  {
   "property": "C66",
   "status": "proved",
   "theorems": [
    "C66_mean_value",
    "C66_covariance",
    "C66_auto_covariance_trace",
    "C66_auto_covariance_matrix",
    "C66_window",
    "C66_histogram"
   ],
   "note": ""
  },
  {
   "property": "C67",
   "status": "proved",
   "theorems": [
    "C67_mh",
    "C67_dr",
    "C67_noisy_likelihood_refuted",
    "C67_new_objects_refuted",
    "C67_de_short_calls_never_cross"
   ],
   "note": ""
  },
  {
   "property": "C68",
   "status": "proved",
   "theorems": [
    "C68_error_of_the_mean",
    "C68_estimated_from_the_autocovariances",
    "C68_truncated_after_an_odd_lag",
    "C68_periodic_chain_refuted"
   ],
   "note": ""
  },
  {
   "property": "C69",
   "status": "proved",
   "theorems": [
    "C69_without_exceptions",
    "C69_strong_guarantee",
    "C69_mean_value",
    "C69_mean_value_refuted",
    "C69_mean_value_first_call_refuted",
    "C69_acceptance_ratio",
    "C69_acceptance_ratio_refuted",
    "C69_covariance_refuted",
    "C69_auto_covariance_first_call",
    "C69_auto_covariance_refuted"
   ],
   "note": ""
  },
  {
   "property": "C70",
   "status": "proved",
   "theorems": [
    "C70_mean_value",
    "C70_covariance",
    "C70_auto_covariance",
    "C70_average_cosine",
    "C70_acceptance_ratio",
    "C70_histogram",
    "C70_disconnected_refuted"
   ],
   "note": ""
  },
  {
   "property": "C71",
   "status": "proved",
   "theorems": [
    "C71_calls_on_a_chain",
    "C71_moving_a_chain",
    "C71_moving_an_object",
    "C71_disconnecting_a_chain_refuted",
    "C71_moving_a_referenced_chain_refuted",
    "C71_dangling_refuted"
   ],
   "note": ""
  },
  {
   "property": "C72",
   "status": "proved",
   "theorems": [
    "C72_same_model",
    "C72_accuracy",
    "C72_zero_sample",
    "C72_short_samples_refuted",
    "C72_long_samples_refuted",
    "C72_above_one_refuted"
   ],
   "note": ""
  },
  {
   "property": "C73",
   "status": "proved",
   "theorems": [
    "C73_acceptance_ratio_double",
    "C73_one_refuted"
   ],
   "note": ""
  },
  {
   "property": "C74",
   "status": "proved",
   "theorems": [
    "C74_accuracy",
    "C74_lag_zero_and_covariance",
    "C74_lag_zero_refuted",
    "C74_constant_stream_refuted",
    "C74_overflow_refuted"
   ],
   "note": ""
  },
  {
   "property": "C75",
   "status": "proved",
   "theorems": [
    "C75_accuracy",
    "C75_lag_zero_and_covariance",
    "C75_not_symmetric_refuted",
    "C75_negative_variance_refuted"
   ],
   "note": ""
  },
  {
   "property": "C76",
   "status": "proved",
   "theorems": [
    "C76_metropolis_hastings",
    "C76_delayed_rejection",
    "C76_range",
    "C76_differential_evaluation",
    "C76_differential_evaluation_issues_what_was_evaluated",
    "C76_samples_are_a_prefix"
   ],
   "note": ""
  },
  {
   "property": "C77",
   "status": "proved",
   "theorems": [
    "C77_never_outside",
    "C77_law_of_a_run",
    "C77_converges_to_the_target",
    "C77_averages",
    "C77_averages_in_probability",
    "C77_reachable_through_the_outside_refuted"
   ],
   "note": ""
  },
  {
   "property": "C78",
   "status": "proved",
   "theorems": [
    "C78_never_outside",
    "C78_never_outside_refuted",
    "C78_law_of_a_run",
    "C78_stays_inside",
    "C78_first_trial",
    "C78_second_trial",
    "C78_third_trial_refuted",
    "C78_converges_to_the_target",
    "C78_averages",
    "C78_averages_in_probability"
   ],
   "note": ""
  },
  {
   "property": "C79",
   "status": "proved",
   "theorems": [
    "C79_counts",
    "C79_exact_bins_refuted",
    "C79_overflow_refuted"
   ],
   "note": ""
  },
  {
   "property": "C80",
   "status": "proved",
   "theorems": [
    "C80_counts",
    "C80_overflow_refuted",
    "C80_counts_add_up"
   ],
   "note": ""
  },
  {
   "property": "C81",
   "status": "proved",
   "theorems": [
    "C81_run",
    "C81_never_outside",
    "C81_never_outside_refuted",
    "C81_one_chain_balance",
    "C81_without_crossover",
    "C81_last_chain_with_crossover"
   ],
   "note": ""
  }
 ]
}