claim('C01','proved','C01_bin_array C01_bin_unique')
claim('C02','proved','C02_labels')
claim('C03','proved','C03_uniform_edges C03_offset C04_uniform_binning C03_equal_width','binary64, 1..2^50 bins, |values| <= 2^1022')
claim('C04','proved','C04_uniform_binning C04_automatic_bins_cover_the_data_refuted','exact boundary plus refutation of full coverage')
claim('C05','proved','C05_quantile_edges C05_bin_edges_quantile C05_quantile_binning C05_quantile_bins_cover_the_data_refuted','exact real arithmetic, as the property says')
claim('C06','proved','C06_bin_data C06_bin_data_succeeds C06_same_records')
claim('C07','proved','C07_missing_key C07_unsupported_first C07_unsupported_reuses_previous_edges C07_own_spec_or_fail_refuted')
claim('C46','proved','C46_generator C46_zero_is_fixed C46_every_int_seed C46_full_period C46_reaches_every_seed C46_variate')
claim('C47','proved','C47_patefield_totals')
claim('C48','proved','C48_patefield_memory_safe C48_patefield_terminates C48_error_codes C48_which_code')
claim('C49','proved','C49_no_overflow C49_overflow C49_always_fits_refuted')
claim('C08','proved','C08_hist2d_from_rebinned_df C08_hist2d C08_spec_is_functional')
claim('C09','proved','C08_hist2d_from_rebinned_df C09_no_missing_means_counted_refuted C09_nan_merged C09_only_nan_merged')
claim('C10','proved','C10_record_order C10_transpose')
claim('C38','proved','C38_surviving_columns C38_nunique_counts_distinct_values')
claim('C39','proved','C39_accepts C39_y_warning_reports_x C39_x_warning C39_too_few')
claim('C14','proved','C14_chi2_defined_nonneg C14_chi2_raises_iff C14_chi2_error_is_ValueError C14_chi2_value C14_chi2_value_2x2 C14_loglikelihood_2x2','exact real arithmetic; both scipy variants of the continuity correction; without the clamp of scipy>=1.7 the log-likelihood statistic is shown non-negative for whole-number tables')
claim('C15','proved','C15_transpose C15_rearrange','rearrangement covers permutations and adding/removing empty rows and columns; holds also for the error outcomes')
claim('C16','proved','C16_chi2_max C16_chi2_max_old_scipy C16_g_max C16_g_max_attained','')
claim('C17','proved','C17_independent_zero C17_zero_independent C17_two_by_two_zero C17_two_by_two_counterexample','converse shown for both statistics; fails for 2x2')
claim('C18','proved','C18_expected_totals C18_expected_product','')
claim('C19','proved','C19_theoretical C19_simple C19_bounds C19_transpose C19_empty_row_lowers','')
claim('C20','proved','C20_half_table C20_sums C20_default_edges C20_default_counts_fail','')
claim('C21','proved','C21_unit_interval C21_unit_interval_edges C21_cases C21_pedestal_above_max C21_zero_only C21_errors scipy_brentq_is_root_finder converging_root_finder_exists C21_equation C21_solution','exact real arithmetic; bivariate normal integral and root finder are parameters with stated contracts, both shown satisfiable; the root finder contract is proved for a model of scipy brentq')
claim('C22','proved','C22_endpoints C22_roundtrip mvn_instance C22_value C22_value_edges C22_precomputed','')
claim('C23','proved','C23_monotone','')
claim('C24','proved','C24_negative_scale C24_refuted','')
claim('C25','proved','C25_table C25_rejects C25_edges_need_counts C25_table_edges C25_edges_mismatch','')

claim('C26','proved','C26_unit_interval C26_never_fails library_instance C26_value','bivariate normal integral and root finder are parameters with stated contracts')
claim('C27','proved','C27_transpose C27_permutation','')
claim('C28','proved','C28_perfect_association C28_functional_dependence C28_binary_chi2_too_small C28_binary_refuted','')
claim('C29','proved','C29_independence','')
claim('C30','proved','C30_sample_size','')
claim('C31','proved','C31_phik_from_rebinned_df C31_phik_matrix C31_guessed_columns','')
claim('C32','proved','C32_order_of_results','')
claim('C33','proved','C33_overview','')
claim('C34','proved','C34_record_order C34_category_names','')
claim('C35','proved','C35_arrays_agree_with_matrix C35_missing_values_are_counted C35_counted_records C35_value C35_array_frame C35_array_numbers C35_phik_from_array C35_hist2d_from_array','')
claim('C36','proved','C36_named_histograms C36_misattributed C36_key_without_colon C36_other_values_rejected','')
claim('C37','proved','C37_positive_definite C37_not_a_fraction C37_value','numpy.linalg.inv is a parameter: returns the inverse or raises LinAlgError')

claim('C50','proved','C50_transposed C50_succeeds C50_wrong_shape','')
claim('C51','proved','C51_seed_determines C51_zero_is_no_seed C51_seed_range C51_zero_seed_not_reproducible C51_no_uninitialised_reads','')
claim('C52','proved','C52_total_kept C52_empty_table C52_probabilities','numpy multinomial is a parameter with its documented contract')
claim('C53','proved','C53_row_product_fixes_columns C53_col_product_fixes_rows C53_empty_line_fails C53_documented_claim_refuted C53_col_product_draws C53_row_product_draws','')
claim('C54','proved','C54_distribution C54_estimates_keep_totals C54_hypotheses C44_no_extension C54_workers C54_sequential','')

claim('C40','proved','C40_asymptotic C40_MC C40_hybrid C40_hist2d C40_sign slib_instance C40_value','scipy distribution functions and optimiser are parameters with stated contracts, shown satisfiable')
claim('C41','proved','C41_exact C41_extremes C41_monotone C41_order_free','')
claim('C42','proved','C42_switch C42_agrees_only_one_column C42_documented_rule_refuted C42_depends_on_orientation','')
claim('C43','proved','C43_fallback C43_monotone C43_hybrid_fallback C43_asymptotic_inverse C43_chernoff_bound C43_conservative','')
claim('C44','proved','C44_unknown_significance_method C44_unknown_simulation_method C44_unknown_simulation_method_in_significance','')
claim('C45','proved','C45_layout C45_significance_matrix C45_returns','')
claim('C71','proved','C71_fit_result C71_histogram C71_residuals C71_fit_rejects C71_objective','')
claim('C72','proved','C72_transpose C72_permutation C72_empty_row_counts','')
claim('C73','proved','C73_binned_array C73_from_array','')

claim('C13','proved','C13_hist2d_two_columns C13_outlier_two_columns','')
claim('C55','proved','C55_prediction C55_blind_to_own_count C55_uncertainty','')
claim('C56','proved','C56_exact_under_independence C56_transposition C56_transposition_total','')
claim('C57','proved','C57_mid_p C57_monotone olib_instance C57_predictive_tail C57_predictive_mid_p C57_predictive_mean C57_poisson_tail true_library','scipy tail functions are parameters with stated contracts, shown satisfiable')
claim('C58','proved','C58_which_function C58_logs_of_mid_p C58_logs_agree C58_no_uncertainty C58_nothing_observed C58_mid_precision','')
claim('C59','proved','C59_flip C59_regular C59_monotone C59_undefined C59_saturated C59_from_logp C59_extreme C59_extreme_plain C59_isolated_cell C59_matrix_entry','')
claim('C60','proved','C60_labels C60_markers_last','')
claim('C61','proved','C61_no_collision C61_all_pairs C61_last_pair_wins C61_collision C61_collision_general','')
claim('C62','proved','C62_dropped_column C62_degenerate_pair C62_unknown_column','')
claim('C63','proved','C63_continued_fraction C63_at_least_one C63_no_other_failure C63_example_b1 C63_defaults','exact real arithmetic')
claim('C64','proved','C64_logarithms C64_reflection C64_example_b1','exact real arithmetic')
claim('C65','proved','C65_poisson_uncertainty C65_unknown_method C65_unknown_method_table C65_zero_uncertainty C65_exact_uncertainty C65_exact_value','')
claim('C74','proved','C74_below_asymptotic_value C74_chi2_fallback C74_monotone C74_below_true_value','')

claim('C11','proved','C11_history C11_same_flags C11_exact C11_dropna_false_refuted C11_mixed_refuted','')
claim('C12','proved','C12_user_frame_unchanged C12_result_on_original C12_only_markers_change','')

claim('C66','proved','C66_report_is C66_selection C66_both_thresholds C66_undefined_selected C66_last_pair_wins C66_keys_collide C66_degenerate_is_undefined C66_undefined_pair_fails C66_attribute_error','drawing is assumed to succeed (see C67)')
claim('C67','proved','C67_layout C67_edge_labels C67_rejects_labels C67_rejects_numbers C67_edges_and_numbers C67_accepts C67_single_number C67_report_matrices C67_text_colour C67_cell_text','matplotlib is not modelled')
claim('C68','proved','C68_length C68_top_20 C68_longer_than_top C68_short C68_collision','')
claim('C69','proved','C69_cores','')
claim('C70','proved','C70_resource C70_not_found','')
claim('C75','proved','C75_default C75_integer_bins C75_limits C75_edges C75_limits_only C75_no_records','')
claim('C76','proved','C76_duplicated_column','numpy.linalg.inv is a parameter: an inverse if there is one, else LinAlgError')
claim('C77','proved','C77_determined_column table_determined','')
claim('C78','proved','C78_probability C78_total C78_same_program','exact real arithmetic and unbounded ints for the probabilities; C78_same_program ties that run to the bit-exact model used by C44-C51; rounding changes each interval slightly and is not bounded')
claim('C79','proved','C79_normal_exists C79_normal_unique C79_normal_facts C79_quantile_exists C79_hist2d C79_mid_z C79_obs_z C79_from_logp C79_libraries','scipy.stats.norm.ppf is a parameter: the inverse of the normal distribution function (C79_quantile_exists: such a function exists)')
claim('C80','proved','C80_from_array C80_not_numeric C80_numbers_are_binned C80_documented_refuted','')
claim('C81','proved','C81_probability C81_margins C81_contract C81_solution C81_roundtrip C81_monotone C81_full_correlation C81_table','exact arithmetic; strict monotonicity (hence uniqueness) is proved for square grids and for grids with two bins on one axis; for other grids existence of a solution within the tolerance')
claim('C82','proved','C82_limit C82_returns C82_accuracy C82_incompbeta C82_negative_binomial C82_log_p C82_beta_law','exact real arithmetic; gammaln is a parameter')
claim('C83','proved','C83_ties C83_ties_reached C83_distinct C83_zero','')
claim('C84','proved','C84_record_order C84_report','np.quantile is a parameter assumed to ignore the order of its argument')
claim('C85','proved','C85_phik_matrix C85_significance_matrix C85_global_phik C85_category_names C85_unsupported_bins','category names for phik: C34')
claim('C86','proved','C86_phik_in_unit_interval C86_brentq C86_value_error C86_above_maximum','brentq.c modelled in binary64 (scipy >= 1.7)')
claim('C87','proved','C87_fixture C87_notebook C87_no_traversal C87_other_kind C87_asking_is_pure C87_reimport C87_added_later_refuted','POSIX paths; directory entries resolve or not (broken link); removing a directory is removing its entries')
claim('C88','proved','C88_chi2_rounding C88_no_records C88_order C88_swapped C88_independent C88_independent_small C88_independent_noise','scipy >= 1.7; counts held as float64 (int64 tables are converted by scipy without change below 2^53)')
claim('C89','proved','C89_phik_hist2d C89_independent','the bivariate normal cell probabilities (mvnun) enter as a function with the stated bounds')
claim('C90','proved','C90_quantiles_ascend C90_quantile_binning C90_quantile_accuracy C90_old_accuracy C90_old_numpy_refuted','np.quantile modelled operation by operation in binary64; discharges the hypothesis quantiles_ok of C05.')
claim('C91','proved','C91_mc_p_old C91_mc_p_new C91_mc_p_new_refuted C91_mixture',"scipy's percentileofscore(kind='rank') written out in both versions; the simulated values are given.")
claim('C92','proved','C92_global_phik_float C92_one_ulp_refuted','np.linalg.inv is an arbitrary matrix of floats; sqrt, /, *, - are IEEE binary64 operations (Flocq).')
claim('C93','proved','C93_expectations C93_linnemann C93_exact_model C93_mid_p C93_square_ok C93_x_is_one_refuted','pow(x,2) enters under a one-ulp contract (C93_square_ok: x*x meets it); betainc itself is not modelled in floats.')
claim('C94','proved','C94_table C94_plain C94_same_chi2 C94_ndof C94_all_used C94_never_one C94_nan C94_nan_example C94_dropna C94_hist2d C94_hist2d_ok C94_unused_refuted',"pandas' documented default observed=False of groupby (until pandas 3); 'unused categories do not matter' is refuted by a four-record example.")
claim('C95','proved','C95_merge C95_recode C95_recode_fails C95_phik_can_rise C95_old_scipy_refuted',"Exact real arithmetic of the statistic (binary64 rounding is C88's subject).")
claim('C96','proved','C96_quantile_monotone C96_reflection_refuted C96_change_of_units C96_small_units_collapse C96_units_refuted C96_quantile_binary64_refuted','The records that stay in their bins are in the same cells of the contingency table, hence same chi2 and phik when no record is near an edge.')
claim('C97','proved','C97_no_overflow C97_float_table C97_accurate C97_negative_prediction C97_always_fits_refuted',"method 'poisson'; the chi2 statistic is not concerned, scipy's expected_freq converts to float64 first")
claim('C98','proved','C98_check C98_warning_order C98_warning_example C98_rename C98_strings C98_repeated C98_same_label C98_repeated_rebinned C98_numbers_not_harmless','Exact characterisation, including the refutation that numeric labels behave like strings.')
claim('C99','proved','C99_rebinned C99_matrix C99_record_order C99_column_order_bits','scope limits (2^43 records, 1024 values per column) come from the rounding analysis of C89')
claim('C100','proved','C100_sorted C100_any_edges C100_order_matters C100_bin_data C100_uniform C100_explicit C100_histogram_changes C100_example',"models the C loop of numpy's binsearch; justifies the per-value search of BinModel.v for ascending edges")
claim('C101','proved','C101_bins C101_edges C101_table C101_matrix C101_one_bin C101_outside C101_example','')
claim('C102','proved','C102_g_rounding C102_no_records C102_order C102_swapped C102_independent C102_negative C102_negative_cell C102_log_exists',"the accuracy of the C library's log is a hypothesis (good_log), shown satisfiable by C102_log_exists")
claim('C103','proved','C103_accuracy C103_monotone C103_below_true_value C103_flip C103_zero_p C103_overflow C103_real_formula C103_exp_exists','log, exp and norm.ppf are parameters; the hypotheses on log and exp are met by the correctly rounded functions (C102_log_exists, C103_exp_exists).')
claim('C104','proved','C104_accuracy C104_raises C104_only_value_error C104_monotone C104_significance C104_infinite C104_real_formula','log, chi2.sf and norm.ppf are parameters.')
claim('C105','proved','C105_noise_lowers C105_more_data C105_limit C105_p_value C105_records','exact arithmetic; the true bivariate normal integral in place of mvnun; other grids: monotonicity of the binned chi2 is not known (see C81)')
claim('C106','proved','C106_multinominal C106_rows C106_cols C106_product C106_hypergeometric C106_counts C106_one_record_lost C106_all_records_lost C106_never_empty C106_only_value_error C106_unknown_axis C106_zero_total',"numpy's float-to-integer conversion of the number of trials truncates (numpy built with Cython < 3); left-to-right addition is what numpy does for fewer than 8 numbers")
claim('C107','proved','C107_p_value C107_without_ties C107_order C107_no_records C107_ties_refuted','')
claim('C108','proved','C108_all_bins_left C108_raises C108_markers_mislabelled','')
claim('C109','proved','C109_rebinned C109_matrix C109_strings C109_repeated C109_repeated_matrix C109_numbers_not_harmless','C109_numbers_not_harmless is the concrete case: one interval column in one bin.')
claim('C110','proved','C110_bin_data C110_pair C110_matrix C110_matrices_rebinned C110_matrices C110_numbers_never C110_default_labels C110_strings','')
claim('C111','proved','C111_switch C111_endof C111_hybrid C111_errors C111_order C111_order_refuted C111_degenerate','')
claim('C112','proved','C112_rebinned C112_matrix C112_asymptotic C112_record_order C112_column_order C112_column_order_bits C112_two_records','The simulated tables are an argument (their distribution is C32-C35, C106); p-values of the MC and hybrid methods are characterised by C107 and C111.')
claim('C113','proved','C113_contfract C113_contfract_stable C113_contfract_errors C113_contfract_nan C113_incompbeta C113_tolerance C113_log_p C113_z C113_extreme_cell C113_cells C113_errors C113_plain_cell C113_empty_rest C113_beta_cell C113_isolated_is_nan C113_x_is_one_nan C113_z_is_nan_refuted C113_transpose C113_permute C113_permute_error C113_rebinned C113_rebinned_errors C113_record_order C113_column_order C113_matrix_record_order C113_matrix',"betainc, gammaln, poisson.sf/logsf, norm.ppf, log, exp and pow(x,2) are parameters; nan_lib says that they pass NaN on. CI_method='poisson' only; accuracy is claimed for the arguments of betainc, not for betainc itself.")
claim('C114','proved','C114_edges C114_underflow C114_infinite C114_too_far_apart C114_explicit_edges C114_table C114_matrix C114_example C114_contrast','binary64 edges (bit-exact model of numpy.linspace), both models of numpy.searchsorted; the rest of phik over the reals as in C31. C114_infinite and C114_too_far_apart give the two ways to have such a column; C114_contrast shows that the same column without the infinite value is binned properly.')
claim('C115','proved','C115_plus_infinity C115_plus_infinity_binning C115_minus_infinity C115_minus_infinity_records C115_example','bit-exact binary64 model of np.quantile (numpy >= 1.20) and of both searches. C115_example: [1,2,3,4] against the same with +infinity / -infinity in place of one value, cell by cell. Compare C114: with uniform bins any infinite value makes the whole column useless.')
claim('C116','proved','C116_same_as_two_columns C116_keys C116_errors C116_unknown_column C116_record_order C116_exchange C116_both_orders C116_arrays C116_binned_arrays C116_array_is_matrix C116_binned_array_is_array',"CI_method='poisson'; the library functions are parameters. Arrays without names are exchanged only up to their default names, which is not claimed.")
claim('C117','proved','C117_phik C117_significance C117_frames C117_unsupported_refuted','C117_hypotheses_met gives a concrete frame (four columns, one of them dropped) satisfying the hypotheses. The unsupported-entry behaviour is the defect of C07.')
claim('C118','proved','C118_bin_data C118_phik C118_significance C118_outliers C118_refuted','C118_hypotheses_met: a concrete frame with None against a permuted list with a repetition and an unknown name. The refutation is the defect of C07.')
claim('C119','proved','C119_bin_data C119_phik C119_significance C119_outliers C119_number_is_dictionary C119_edges_quantile C119_missing_entry','C119_hypotheses_met: a concrete frame with bins = 2 against a dictionary in another order with a foreign, unsupported entry.')
