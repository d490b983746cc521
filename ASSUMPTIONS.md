# Print Assumptions of every claimed theorem

Generated by tools/assumptions.py and tools/gen_design.py. Axioms: F = FunctionalExtensionality.functional_extensionality_dep, D = ClassicalDedekindReals.sig_forall_dec, N = ClassicalDedekindReals.sig_not_dec, C = Classical_Prop.classic; "-" = closed under the global context.

| theorem | axioms |
|---|---|
| C01_bin_array | C D F N |
| C01_bin_unique | C D F N |
| C02_labels | C D F N |
| C03_equal_width | C D F N |
| C03_offset | C D F N |
| C03_uniform_edges | C D F N |
| C04_automatic_bins_cover_the_data_refuted | C D F N |
| C04_uniform_binning | C D F N |
| C05_bin_edges_quantile | C D F N |
| C05_quantile_binning | C D F N |
| C05_quantile_bins_cover_the_data_refuted | C D F N |
| C05_quantile_edges | D F |
| C06_bin_data | C D F N |
| C06_bin_data_succeeds | C D F N |
| C06_same_records | C D F N |
| C07_missing_key | C D F N |
| C07_own_spec_or_fail_refuted | C D F N |
| C07_unsupported_first | C D F N |
| C07_unsupported_reuses_previous_edges | C D F N |
| C08_hist2d | C D F N |
| C08_hist2d_from_rebinned_df | C D F N |
| C08_spec_is_functional | C D F N |
| C09_nan_merged | - |
| C09_no_missing_means_counted_refuted | - |
| C09_only_nan_merged | - |
| C100_any_edges | C D F N |
| C100_bin_data | C D F N |
| C100_example | C D F N |
| C100_explicit | C D F N |
| C100_histogram_changes | C D F N |
| C100_order_matters | C D F N |
| C100_sorted | C D F N |
| C100_uniform | C D F N |
| C101_bins | C D F N |
| C101_edges | C D F N |
| C101_example | C D F N |
| C101_matrix | C D F N |
| C101_one_bin | C D F N |
| C101_outside | C D F N |
| C101_table | C D F N |
| C102_g_rounding | C D F N |
| C102_independent | C D F N |
| C102_log_exists | C D F N |
| C102_negative | C D F N |
| C102_negative_cell | C D F N |
| C102_no_records | C D F N |
| C102_order | C D F N |
| C102_swapped | C D F N |
| C103_accuracy | C D F N |
| C103_below_true_value | C D F N |
| C103_exp_exists | C D F N |
| C103_flip | C D F N |
| C103_monotone | C D F N |
| C103_overflow | C D F N |
| C103_real_formula | C D F N |
| C103_zero_p | C D F N |
| C104_accuracy | C D F N |
| C104_infinite | C D F N |
| C104_monotone | C D F N |
| C104_only_value_error | C D F N |
| C104_raises | C D F N |
| C104_real_formula | C D F N |
| C104_significance | C D F N |
| C105_limit | C D F N |
| C105_more_data | C D F N |
| C105_noise_lowers | C D F N |
| C105_p_value | C D F N |
| C105_records | C D F N |
| C106_all_records_lost | C D F N |
| C106_cols | C D F N |
| C106_counts | C D F N |
| C106_hypergeometric | C D F N |
| C106_multinominal | C D F N |
| C106_never_empty | C D F N |
| C106_one_record_lost | C D F N |
| C106_only_value_error | C D F N |
| C106_product | C D F N |
| C106_rows | C D F N |
| C106_unknown_axis | C D F N |
| C106_zero_total | C D F N |
| C107_no_records | C D F N |
| C107_order | C D F N |
| C107_p_value | C D F N |
| C107_ties_refuted | C D F N |
| C107_without_ties | C D F N |
| C108_all_bins_left | C D F N |
| C108_markers_mislabelled | C D F N |
| C108_raises | C D F N |
| C109_matrix | C D F N |
| C109_numbers_not_harmless | C D F N |
| C109_rebinned | C D F N |
| C109_repeated | C D F N |
| C109_repeated_matrix | C D F N |
| C109_strings | C D F N |
| C10_record_order | C D F N |
| C10_transpose | C D F N |
| C110_bin_data | C D F N |
| C110_default_labels | C D F N |
| C110_matrices | C D F N |
| C110_matrices_rebinned | C D F N |
| C110_matrix | C D F N |
| C110_numbers_never | C D F N |
| C110_pair | C D F N |
| C110_strings | C D F N |
| C111_degenerate | C D F N |
| C111_endof | C D F N |
| C111_errors | C D F N |
| C111_hybrid | C D F N |
| C111_order | C D F N |
| C111_order_refuted | C D F N |
| C111_switch | C D F N |
| C112_asymptotic | C D F N |
| C112_column_order | C D F N |
| C112_column_order_bits | C D F N |
| C112_matrix | C D F N |
| C112_rebinned | C D F N |
| C112_record_order | C D F N |
| C112_two_records | C D F N |
| C113_beta_cell | C D F N |
| C113_cells | C D F N |
| C113_column_order | C D F N |
| C113_contfract | C D F N |
| C113_contfract_errors | C D F N |
| C113_contfract_nan | C D F N |
| C113_contfract_stable | C D F N |
| C113_empty_rest | C D F N |
| C113_errors | C D F N |
| C113_extreme_cell | C D F N |
| C113_incompbeta | C D F N |
| C113_isolated_is_nan | C D F N |
| C113_log_p | C D F N |
| C113_matrix | C D F N |
| C113_matrix_record_order | C D F N |
| C113_permute | C D F N |
| C113_permute_error | C D F N |
| C113_plain_cell | C D F N |
| C113_rebinned | C D F N |
| C113_rebinned_errors | C D F N |
| C113_record_order | C D F N |
| C113_tolerance | C D F N |
| C113_transpose | C D F N |
| C113_x_is_one_nan | C D F N |
| C113_z | C D F N |
| C113_z_is_nan_refuted | C D F N |
| C114_contrast | C D F N |
| C114_edges | C D F N |
| C114_example | C D F N |
| C114_explicit_edges | C D F N |
| C114_infinite | C D F N |
| C114_matrix | C D F N |
| C114_table | C D F N |
| C114_too_far_apart | C D F N |
| C114_underflow | C D F N |
| C115_example | C D F N |
| C115_minus_infinity | C D F N |
| C115_minus_infinity_records | C D F N |
| C115_plus_infinity | C D F N |
| C115_plus_infinity_binning | C D F N |
| C11_dropna_false_refuted | C D F N |
| C11_exact | C D F N |
| C11_history | C D F N |
| C11_mixed_refuted | C D F N |
| C11_same_flags | C D F N |
| C12_only_markers_change | C D F N |
| C12_result_on_original | C D F N |
| C12_user_frame_unchanged | C D F N |
| C13_hist2d_two_columns | C D F N |
| C13_outlier_two_columns | C D F N |
| C14_chi2_defined_nonneg | C D F N |
| C14_chi2_error_is_ValueError | C D F N |
| C14_chi2_raises_iff | C D F N |
| C14_chi2_value | C D F N |
| C14_chi2_value_2x2 | C D F N |
| C14_loglikelihood_2x2 | C D F N |
| C15_rearrange | C D F N |
| C15_transpose | C D F N |
| C16_chi2_max | C D F N |
| C16_chi2_max_old_scipy | C D F N |
| C16_g_max | C D F N |
| C16_g_max_attained | C D F N |
| C17_independent_zero | C D F N |
| C17_two_by_two_counterexample | C D F N |
| C17_two_by_two_zero | C D F N |
| C17_zero_independent | C D F N |
| C18_expected_product | D F |
| C18_expected_totals | D F |
| C19_bounds | D F |
| C19_empty_row_lowers | D F |
| C19_simple | D F |
| C19_theoretical | - |
| C19_transpose | D F |
| C20_default_counts_fail | - |
| C20_default_edges | D F |
| C20_half_table | D |
| C20_sums | D F |
| C21_cases | D F |
| C21_equation | D F |
| C21_errors | D F |
| C21_pedestal_above_max | D F |
| C21_solution | D F |
| C21_unit_interval | D F |
| C21_unit_interval_edges | D F |
| C21_zero_only | D F |
| C22_endpoints | D F |
| C22_precomputed | D F |
| C22_roundtrip | D F |
| C22_value | D F |
| C22_value_edges | D F |
| C23_monotone | D F |
| C24_negative_scale | D F |
| C24_refuted | D F |
| C25_edges_mismatch | D F |
| C25_edges_need_counts | D F |
| C25_rejects | D F |
| C25_table | D F |
| C25_table_edges | D F |
| C26_never_fails | C D F N |
| C26_unit_interval | C D F N |
| C26_value | C D F N |
| C27_permutation | C D F N |
| C27_transpose | C D F N |
| C28_binary_chi2_too_small | C D F N |
| C28_binary_refuted | C D F N |
| C28_functional_dependence | C D F N |
| C28_perfect_association | C D F N |
| C29_independence | C D F N |
| C30_sample_size | C D F N |
| C31_guessed_columns | C D F N |
| C31_phik_from_rebinned_df | C D F N |
| C31_phik_matrix | C D F N |
| C32_order_of_results | D F |
| C33_overview | D F |
| C34_category_names | C D F N |
| C34_record_order | C D F N |
| C35_array_frame | C D F N |
| C35_array_numbers | C D F N |
| C35_arrays_agree_with_matrix | C D F N |
| C35_counted_records | C D F N |
| C35_hist2d_from_array | C D F N |
| C35_missing_values_are_counted | C D F N |
| C35_phik_from_array | C D F N |
| C35_value | C D F N |
| C36_key_without_colon | C D F N |
| C36_misattributed | C D F N |
| C36_named_histograms | C D F N |
| C36_other_values_rejected | C D F N |
| C37_not_a_fraction | C D F N |
| C37_positive_definite | C D F N |
| C37_value | C D F N |
| C38_nunique_counts_distinct_values | C D F N |
| C38_surviving_columns | - |
| C39_accepts | - |
| C39_too_few | - |
| C39_x_warning | - |
| C39_y_warning_reports_x | - |
| C40_MC | D F |
| C40_asymptotic | C D F N |
| C40_hist2d | C D F N |
| C40_hybrid | C D F N |
| C40_sign | C D F N |
| C40_value | C D F N |
| C41_exact | D F |
| C41_extremes | D F |
| C41_monotone | D F |
| C41_order_free | D F |
| C42_agrees_only_one_column | D F |
| C42_depends_on_orientation | C D F N |
| C42_documented_rule_refuted | C D F N |
| C42_switch | C D F N |
| C43_asymptotic_inverse | C D F N |
| C43_chernoff_bound | C D F N |
| C43_conservative | C D F N |
| C43_fallback | C D F N |
| C43_hybrid_fallback | C D F N |
| C43_monotone | C D F N |
| C44_no_extension | - |
| C44_unknown_significance_method | C D F N |
| C44_unknown_simulation_method | C D F N |
| C44_unknown_simulation_method_in_significance | C D F N |
| C45_layout | C D F N |
| C45_returns | C D F N |
| C45_significance_matrix | C D F N |
| C46_every_int_seed | C D F N |
| C46_full_period | C D F N |
| C46_generator | C D F N |
| C46_reaches_every_seed | C D F N |
| C46_variate | C D F N |
| C46_zero_is_fixed | C D F N |
| C47_patefield_totals | C D F N |
| C48_error_codes | C D F N |
| C48_patefield_memory_safe | C D F N |
| C48_patefield_terminates | C D F N |
| C48_which_code | C D F N |
| C49_always_fits_refuted | C D F N |
| C49_no_overflow | C D F N |
| C49_overflow | C D F N |
| C50_succeeds | C D F N |
| C50_transposed | C D F N |
| C50_wrong_shape | C D F N |
| C51_no_uninitialised_reads | C D F N |
| C51_seed_determines | C D F N |
| C51_seed_range | C D F N |
| C51_zero_is_no_seed | C D F N |
| C51_zero_seed_not_reproducible | C D F N |
| C52_empty_table | D F |
| C52_probabilities | D F |
| C52_total_kept | D F |
| C53_col_product_draws | C D F N |
| C53_col_product_fixes_rows | C D F N |
| C53_documented_claim_refuted | C D F N |
| C53_empty_line_fails | C D F N |
| C53_row_product_draws | C D F N |
| C53_row_product_fixes_columns | C D F N |
| C54_distribution | C D F N |
| C54_estimates_keep_totals | C D F N |
| C54_hypotheses | C D F N |
| C54_sequential | C D F N |
| C54_workers | C D F N |
| C55_blind_to_own_count | D F N |
| C55_prediction | D F N |
| C55_uncertainty | C D F N |
| C56_exact_under_independence | D F N |
| C56_transposition | D F N |
| C56_transposition_total | D F N |
| C57_mid_p | D F N |
| C57_monotone | D F N |
| C57_poisson_tail | D F N |
| C57_predictive_mean | C D F N |
| C57_predictive_mid_p | C D F N |
| C57_predictive_tail | C D F N |
| C58_logs_agree | C D F N |
| C58_logs_of_mid_p | C D F N |
| C58_mid_precision | C D F N |
| C58_no_uncertainty | C D F N |
| C58_nothing_observed | C D F N |
| C58_which_function | C D F N |
| C59_extreme | C D F N |
| C59_extreme_plain | C D F N |
| C59_flip | C D F N |
| C59_from_logp | C D F N |
| C59_isolated_cell | C D F N |
| C59_matrix_entry | C D F N |
| C59_monotone | C D F N |
| C59_regular | C D F N |
| C59_saturated | C D F N |
| C59_undefined | C D F N |
| C60_labels | C D F N |
| C60_markers_last | C D F N |
| C61_all_pairs | C D F N |
| C61_collision | C D F N |
| C61_collision_general | C D F N |
| C61_last_pair_wins | C D F N |
| C61_no_collision | C D F N |
| C62_degenerate_pair | C D F N |
| C62_dropped_column | C D F N |
| C62_unknown_column | C D F N |
| C63_at_least_one | D F |
| C63_continued_fraction | D F |
| C63_defaults | D F |
| C63_example_b1 | D F |
| C63_no_other_failure | D F |
| C64_example_b1 | C D F N |
| C64_logarithms | C D F N |
| C64_reflection | C D F N |
| C65_exact_uncertainty | D F |
| C65_exact_value | C D F N |
| C65_poisson_uncertainty | D F N |
| C65_unknown_method | D F N |
| C65_unknown_method_table | D F N |
| C65_zero_uncertainty | D F N |
| C66_attribute_error | C D F N |
| C66_both_thresholds | D F |
| C66_degenerate_is_undefined | C D F N |
| C66_keys_collide | - |
| C66_last_pair_wins | C D F N |
| C66_report_is | C D F N |
| C66_selection | C D F N |
| C66_undefined_pair_fails | C D F N |
| C66_undefined_selected | D F |
| C67_accepts | D F |
| C67_cell_text | - |
| C67_edge_labels | D F |
| C67_edges_and_numbers | D F |
| C67_layout | D F |
| C67_rejects_labels | D F |
| C67_rejects_numbers | D F |
| C67_report_matrices | D F |
| C67_single_number | D F |
| C67_text_colour | D F |
| C68_collision | - |
| C68_length | - |
| C68_longer_than_top | - |
| C68_short | - |
| C68_top_20 | - |
| C69_cores | - |
| C70_not_found | - |
| C70_resource | - |
| C71_fit_rejects | C D F N |
| C71_fit_result | C D F N |
| C71_histogram | D F |
| C71_objective | C D F N |
| C71_residuals | C D F N |
| C72_empty_row_counts | C D F N |
| C72_permutation | C D F N |
| C72_transpose | C D F N |
| C73_binned_array | C D F N |
| C73_from_array | C D F N |
| C74_below_asymptotic_value | C D F N |
| C74_below_true_value | C D F N |
| C74_chi2_fallback | C D F N |
| C74_monotone | C D F N |
| C75_default | C D F N |
| C75_edges | C D F N |
| C75_integer_bins | C D F N |
| C75_limits | C D F N |
| C75_limits_only | - |
| C75_no_records | C D F N |
| C76_duplicated_column | C D F N |
| C77_determined_column | C D F N |
| C78_probability | C D F N |
| C78_same_program | C D F N |
| C78_total | C D F N |
| C79_from_logp | C D F N |
| C79_hist2d | C D F N |
| C79_libraries | C D F N |
| C79_mid_z | C D F N |
| C79_normal_exists | C D F N |
| C79_normal_facts | C D F N |
| C79_normal_unique | C D F N |
| C79_obs_z | C D F N |
| C79_quantile_exists | C D F N |
| C80_documented_refuted | C D F N |
| C80_from_array | C D F N |
| C80_not_numeric | C D F N |
| C80_numbers_are_binned | C D F N |
| C81_contract | C D F N |
| C81_full_correlation | C D F N |
| C81_margins | C D F N |
| C81_monotone | C D F N |
| C81_probability | C D F N |
| C81_roundtrip | C D F N |
| C81_solution | C D F N |
| C81_table | C D F N |
| C82_accuracy | C D F N |
| C82_beta_law | C D F N |
| C82_incompbeta | C D F N |
| C82_limit | C D F N |
| C82_log_p | C D F N |
| C82_negative_binomial | C D F N |
| C82_returns | D F N |
| C83_distinct | D F |
| C83_ties | D F |
| C83_ties_reached | D F |
| C83_zero | D F |
| C84_record_order | C D F N |
| C84_report | C D F N |
| C85_category_names | C D F N |
| C85_global_phik | C D F N |
| C85_phik_matrix | C D F N |
| C85_significance_matrix | C D F N |
| C85_unsupported_bins | C D F N |
| C86_above_maximum | C D F N |
| C86_brentq | C D F N |
| C86_phik_in_unit_interval | C D F N |
| C86_value_error | C D F N |
| C87_added_later_refuted | - |
| C87_asking_is_pure | - |
| C87_fixture | - |
| C87_no_traversal | - |
| C87_notebook | - |
| C87_other_kind | - |
| C87_reimport | - |
| C88_chi2_rounding | C D F N |
| C88_independent | C D F N |
| C88_independent_noise | C D F N |
| C88_independent_small | C D F N |
| C88_no_records | C D F N |
| C88_order | C D F N |
| C88_swapped | C D F N |
| C89_independent | C D F N |
| C89_phik_hist2d | C D F N |
| C90_old_accuracy | C D F N |
| C90_old_numpy_refuted | C D F N |
| C90_quantile_accuracy | C D F N |
| C90_quantile_binning | C D F N |
| C90_quantiles_ascend | C D F N |
| C91_mc_p_new | C D F N |
| C91_mc_p_new_refuted | C D F N |
| C91_mc_p_old | C D F N |
| C91_mixture | C D F N |
| C92_global_phik_float | C D F N |
| C92_one_ulp_refuted | C D F N |
| C93_exact_model | D F N |
| C93_expectations | C D F N |
| C93_linnemann | C D F N |
| C93_mid_p | C D F N |
| C93_square_ok | C D F N |
| C93_x_is_one_refuted | C D F N |
| C94_all_used | C D F N |
| C94_dropna | C D F N |
| C94_hist2d | C D F N |
| C94_hist2d_ok | C D F N |
| C94_nan | C D F N |
| C94_nan_example | C D F N |
| C94_ndof | C D F N |
| C94_never_one | C D F N |
| C94_plain | - |
| C94_same_chi2 | C D F N |
| C94_table | C D F N |
| C94_unused_refuted | C D F N |
| C95_merge | C D F N |
| C95_old_scipy_refuted | C D F N |
| C95_phik_can_rise | C D F N |
| C95_recode | C D F N |
| C95_recode_fails | C D F N |
| C96_change_of_units | C D F N |
| C96_quantile_binary64_refuted | C D F N |
| C96_quantile_monotone | D F |
| C96_reflection_refuted | D F |
| C96_small_units_collapse | C D F N |
| C96_units_refuted | C D F N |
| C97_accurate | C D F N |
| C97_always_fits_refuted | C D F N |
| C97_float_table | C D F N |
| C97_negative_prediction | C D F N |
| C97_no_overflow | C D F N |
| C98_check | - |
| C98_numbers_not_harmless | C D F N |
| C98_rename | C D F N |
| C98_repeated | C D F N |
| C98_repeated_rebinned | C D F N |
| C98_same_label | C D F N |
| C98_strings | C D F N |
| C98_warning_example | - |
| C98_warning_order | - |
| C99_column_order_bits | C D F N |
| C99_matrix | C D F N |
| C99_rebinned | C D F N |
| C99_record_order | C D F N |
| converging_root_finder_exists | D F N |
| library_instance | D F N |
| mvn_instance | D F |
| olib_instance | C D F N |
| scipy_brentq_is_root_finder | D F N |
| slib_instance | C D F N |
| table_determined | C D F N |
| true_library | C D F N |
