# Print Assumptions, per theorem

Generated by `tools/gen_assumptions.py`. All axioms are the standard library's.

## Closed under the global context (54 theorems)

* `Props_Benchmark.v`: C83_classification, C83_classification_rejected, C83_regression, C83_regression_rejected, C84_cells, C84_independent, C85_binary_only, C85_multiclass_always_raises, C87_cells, C87_independent
* `Props_Classification.v`: C63_decision_any_arithmetic
* `Props_Export.v`: C81_latex_columns
* `Props_MLPaper.v`: C60_cells, C60_local, C60_pairwise_only_changes_error
* `Props_Regression.v`: C72_validation, C74_min_std
* `Props_Rejects.v`: C106_nan, C106_limits, C106_confidence, C106_unknown_method, C106_significance, C106_boot_weights, C106_table, C107_curves, C107_area, C107_interp, C107_check, C107_boot, C107_loss_table, C108_formatting, C107_area_notnan
* `Props_Sciprint.v`: C04_create_decimal_special, C12_padding_aligns, C12_padding_errors, C13_micro_sign, C14_tex_times_refuted, C15_pvalue_precision
* `Props_Splitter.v`: C27_build_lag_df_never_returns, C27_build_lag_df_returns_refuted, C27_lag_blocks
* `Props_Tables.v`: C75_no_refit, C75_progress, C75_completed, C75_classification, C75_regression, C76_classification, C76_classification_accepts, C76_regression, C77_entries, C77_independent, C77_rejected
* `Props_Util.v`: C28_one_hot, C28_one_hot_raises_iff

## `ClassicalDedekindReals.sig_forall_dec`, `FunctionalExtensionality.functional_extensionality_dep` (63 theorems)

* `Props_Boot.v`: C36_weights_resample, C39_smallest_symmetric, C41_outside_is_significant_exact, C42_significant_is_at_the_edge_exact, C43_inverted_p_value_exact
* `Props_Compare.v`: C88_curves_exact, C89_curves_exact
* `Props_Curves.v`: C45_curve_counts, C45_two_class_counts, C46_roc_path, C46_roc_points, C47_auc_mann_whitney, C48_negated_scores, C48_swapped_classes, C48_separated_is_one, C48_constant_is_half, C48_reorder_weighted, C49_single_class_auc, C49_single_class_recall_precision, C49_single_class_prg, C50_recall_precision, C50_recall_precision_shape, C51_prg, C51_prg_shape, C52_integer_weights, C53_curves_usable, C54_curve_boot_roc_rp, C54_curve_boot_prg
* `Props_Export.v`: C79_export_truthful, C82_nonfinite_means_rejected, C82_formats_for_estimates_unused
* `Props_MLPaper.v`: C55_exact, C59_means_in_range, C59_shift_and_scale, C78_clip_chk_exact
* `Props_Regression.v`: C72_square_and_abs
* `Props_Sciprint.v`: C01_print_estimate_roundtrip, C02_print_estimate_rejects_unprintable, C02_print_estimate_outcome, C03_above_limit, C03_below_limit, C03_no_marker, C04_create_decimal_ceiling, C04_create_decimal_half_up, C05_error_never_understated, C06_mean_rounded_to_error_digit, C06_decimalize_succeeds_iff, C07_pvalue_conservative, C07_pvalue_accepted, C08_less_than_truthful, C09_get_shift_range, C10_all_small_refuted, C10_all_small_nonzero, C11_find_shift_optimal, C13_header_undoes_shift, C13_header_determines_shift, C15_format_never_fails, C16_end_to_end_truthful, C17_no_rank_reversal, C18_no_shift_mode
* `Props_Tables.v`: C77_exact
* `Props_Util.v`: C30_epsilon_noise, C35_interp1d_total

## `ClassicalDedekindReals.sig_forall_dec`, `Classical_Prop.classic`, `FunctionalExtensionality.functional_extensionality_dep` (2 theorems)

* `Props_Export.v`: C80_default_fails_iff, C80_default_truthful

## `ClassicalDedekindReals.sig_forall_dec`, `ClassicalDedekindReals.sig_not_dec`, `Classical_Prop.classic`, `FunctionalExtensionality.functional_extensionality_dep` (202 theorems)

* `Props_Accuracy.v`: C102_deviation, C102_t_error_bar, C102_bernstein_error_bar, C102_estimators_t, C102_estimators_bernstein, C102_table, C102_unit_losses
* `Props_AreaAccuracy.v`: C103_points, C103_auc, C103_average_precision, C103_order, C103_curve_boot, C103_tie_refuted
* `Props_Benchmark.v`: C86_standard_losses, C86_benchmark_succeeds, C87_succeeds_iff
* `Props_Boot.v`: C36_epsilon_is_floor, C37_percentile, C37_order_irrelevant, C37_raises_iff, C38_interval_grows, C38_error_bar_grows, C39_error_bar_total, C40_p_value, C40_tail_fractions, C40_equal_to_reference, C40_order_irrelevant, C40_negation, C41_outside_is_significant, C42_significant_is_outside_refuted, C42_significant_is_at_the_edge, C43_inverted_p_value, C44_paired_is_difference
* `Props_BootAccuracy.v`: C105_percentile, C105_replicates, C105_error_bar, C105_p_value, C105_estimators, C105_table, C105_pairwise_table
* `Props_Classification.v`: C63_bayes_decision, C63_zero_one_mode, C63_mode_in_doubles_refuted, C64_hard_loss_cells, C64_zero_one, C64_optimal_in_expectation, C64_bad_matrix, C65_log_loss_values, C65_log_loss_strictly_proper, C65_validation, C66_brier_values, C66_brier_uniform_is_one, C66_brier_strictly_proper, C67_spherical_values, C67_spherical_strictly_proper, C67_spherical_ignores_normalisation
* `Props_Compare.v`: C88_losses_exact, C88_losses_doubles, C88_curves_doubles, C89_losses_exact, C89_losses_doubles, C89_curves_doubles, C89_curves_doubles_error_refuted
* `Props_Curves.v`: C45_counts_doubles, C46_roc_doubles, C48_increasing_transform, C48_reorder, C50_recall_precision_doubles, C50_weighted_doubles_refuted, C51_prg_doubles, C51_weighted_doubles_refuted, C52_integer_weights_doubles, C53_curves_usable_doubles, C54_pairwise_prg_refuted
* `Props_Doubles.v`: C92_accepted_iff, C92_pairwise_accepted, C92_short_limits_accepted, C93_sane_numbers, C92_top_confidence_refuted
* `Props_DoublesBench.v`: C94_regression_succeeds
* `Props_DoublesClass.v`: C95_normalize, C95_accurate, C96_log_loss, C96_brier_loss, C96_spherical_loss, C96_hard_loss, C96_zero_one_loss, C97_loss_table, C97_predictions
* `Props_DoublesCurves.v`: C98_curve_boot_roc, C98_curve_boot_rp, C98_curve_boot_prg
* `Props_DoublesExport.v`: C101_boot_resolution, C101_loss_resolution, C101_loss_table, C101_regression, C101_classification, C101_pairwise_refuted
* `Props_DoublesFull.v`: C100_curve_table, C100_benchmark
* `Props_DoublesLarge.v`: C99_large_samples_refuted
* `Props_LossAccuracy.v`: C104_brier_loss, C104_spherical_loss, C104_log_loss, C104_log_loss_no_exclusion, C104_decision, C104_table_means, C104_square_and_abs, C104_gaussian_log_loss
* `Props_MLPaper.v`: C55_between, C55_unchanged_inside, C55_covers_what_it_covered, C55_nan_passes, C55_raises_iff, C56_error_bar, C56_coherent, C56_unbounded, C56_point_mass, C57_textbook, C57_coherent, C57_degenerate, C56_degenerate, C59_degenerate, C58_grows_with_confidence, C58_equivariant, C58_pvalues_scale_free, C59_clipping_never_bites, C59_means_in_range_doubles_refuted, C61_accepted_iff, C61_infinite_against_finite, C62_within_limits_accepted, C61_infinite_losses_refuted, C62_within_limits_doubles_refuted, C78_clip_chk_doubles
* `Props_Mean.v`: C90_mean_within_limits, C90_estimators, C90_no_limits, C90_overflow_refuted, C90_cancelling_refuted, C91_mean_accuracy, C91_reported_mean, C91_table_means
* `Props_Predict.v`: C68_offset_invariant, C68_log_loss_nonneg, C68_nan_check_bypassed, C69_floor, C69_no_floor, C70_floor_exact, C70_min_log_prob_floor_refuted, C71_noise_frequencies, C71_noise_best_constant, C71_noise_bool_raises
* `Props_Regression.v`: C72_log_loss, C72_doubles, C72_square_zero_doubles_refuted, C73_noise_fit, C73_constant_data, C73_too_few, C74_finite_log_loss
* `Props_Rejects.v`: C107_overflow_refuted, C108_linear, C108_split_df, C108_helpers, C108_noise_width, C106_returned, C78_isclose_infinite
* `Props_Splitter.v`: C21_rand_subset_total, C21_rand_mask_total, C21_rand_subset_rejects, C20_random_split_groups, C20_random_split_null, C22_assume_unique_hint, C23_ordered_threshold, C24_ordered_raises_iff, C24_exact_fraction_rejected, C24_endpoints_accepted, C24_ordered_accepts_all_refuted, C25_ordered_hints, C25_linear_hints, C26_linear_total, C19_split_df_partition, C19_split_df_total
* `Props_Tables.v`: C76_log_loss_of_scores, C77_dump_bounds
* `Props_Util.v`: C29_normalize, C29_offset, C29_idempotent, C29_all_zero_row_is_nan, C30_order_in_doubles_refuted, C31_unique_take_last, C31_accepts_iff_sorted, C32_cummax_strict, C32_returns_iff, C32_increasing_unchanged, C33_step_with_ival, C33_step_without_ival, C33_raises_iff, C33_order_irrelevant, C33_assume_sorted_hint, C34_previous, C34_before_first_raises, C35_area_is_integral
