{
 "claims": [
  {
   "property": "C01",
   "status": "proved",
   "theorems": [
    "C01_print_estimate_roundtrip"
   ],
   "note": ""
  },
  {
   "property": "C02",
   "status": "proved",
   "theorems": [
    "C02_print_estimate_rejects_unprintable",
    "C02_print_estimate_outcome"
   ],
   "note": ""
  },
  {
   "property": "C03",
   "status": "proved",
   "theorems": [
    "C03_above_limit",
    "C03_below_limit",
    "C03_no_marker"
   ],
   "note": ""
  },
  {
   "property": "C04",
   "status": "proved",
   "theorems": [
    "C04_create_decimal_ceiling",
    "C04_create_decimal_half_up",
    "C04_create_decimal_special"
   ],
   "note": ""
  },
  {
   "property": "C05",
   "status": "proved",
   "theorems": [
    "C05_error_never_understated"
   ],
   "note": ""
  },
  {
   "property": "C06",
   "status": "proved",
   "theorems": [
    "C06_mean_rounded_to_error_digit",
    "C06_decimalize_succeeds_iff"
   ],
   "note": ""
  },
  {
   "property": "C07",
   "status": "proved",
   "theorems": [
    "C07_pvalue_conservative",
    "C07_pvalue_accepted"
   ],
   "note": ""
  },
  {
   "property": "C08",
   "status": "proved",
   "theorems": [
    "C08_less_than_truthful"
   ],
   "note": ""
  },
  {
   "property": "C09",
   "status": "proved",
   "theorems": [
    "C09_get_shift_range"
   ],
   "note": ""
  },
  {
   "property": "C10",
   "status": "proved",
   "theorems": [
    "C10_all_small_refuted",
    "C10_all_small_nonzero"
   ],
   "note": "The promise as documented is refuted by a list containing a zero; it is proved for lists without zeros."
  },
  {
   "property": "C11",
   "status": "proved",
   "theorems": [
    "C11_find_shift_optimal"
   ],
   "note": ""
  },
  {
   "property": "C12",
   "status": "proved",
   "theorems": [
    "C12_padding_aligns",
    "C12_padding_errors"
   ],
   "note": ""
  },
  {
   "property": "C13",
   "status": "proved",
   "theorems": [
    "C13_header_undoes_shift",
    "C13_header_determines_shift",
    "C13_micro_sign"
   ],
   "note": ""
  },
  {
   "property": "C14",
   "status": "proved",
   "theorems": [
    "C14_tex_times_refuted"
   ],
   "note": "The intended use of \\times is refuted for every metric and shift: the header has a TAB instead."
  },
  {
   "property": "C15",
   "status": "proved",
   "theorems": [
    "C15_format_never_fails",
    "C15_pvalue_precision"
   ],
   "note": ""
  },
  {
   "property": "C16",
   "status": "proved",
   "theorems": [
    "C16_end_to_end_truthful"
   ],
   "note": ""
  },
  {
   "property": "C17",
   "status": "proved",
   "theorems": [
    "C17_no_rank_reversal"
   ],
   "note": ""
  },
  {
   "property": "C18",
   "status": "proved",
   "theorems": [
    "C18_no_shift_mode"
   ],
   "note": ""
  },
  {
   "property": "C19",
   "status": "proved",
   "theorems": [
    "C19_split_df_partition",
    "C19_split_df_total"
   ],
   "note": ""
  },
  {
   "property": "C20",
   "status": "proved",
   "theorems": [
    "C20_random_split_groups",
    "C20_random_split_null"
   ],
   "note": ""
  },
  {
   "property": "C21",
   "status": "proved",
   "theorems": [
    "C21_rand_subset_total",
    "C21_rand_mask_total",
    "C21_rand_subset_rejects"
   ],
   "note": ""
  },
  {
   "property": "C22",
   "status": "proved",
   "theorems": [
    "C22_assume_unique_hint"
   ],
   "note": ""
  },
  {
   "property": "C23",
   "status": "proved",
   "theorems": [
    "C23_ordered_threshold"
   ],
   "note": ""
  },
  {
   "property": "C24",
   "status": "proved",
   "theorems": [
    "C24_ordered_raises_iff",
    "C24_exact_fraction_rejected",
    "C24_endpoints_accepted",
    "C24_ordered_accepts_all_refuted"
   ],
   "note": "The promise that every frac in [0,1] works is refuted (C24_ordered_accepts_all_refuted); the exact condition is proved."
  },
  {
   "property": "C25",
   "status": "proved",
   "theorems": [
    "C25_ordered_hints",
    "C25_linear_hints"
   ],
   "note": ""
  },
  {
   "property": "C26",
   "status": "proved",
   "theorems": [
    "C26_linear_total"
   ],
   "note": ""
  },
  {
   "property": "C27",
   "status": "proved",
   "theorems": [
    "C27_build_lag_df_never_returns",
    "C27_build_lag_df_returns_refuted",
    "C27_lag_blocks"
   ],
   "note": "The documented return value is refuted: every call raises; the lag blocks themselves are proved right."
  },
  {
   "property": "C28",
   "status": "proved",
   "theorems": [
    "C28_one_hot",
    "C28_one_hot_raises_iff"
   ],
   "note": ""
  },
  {
   "property": "C29",
   "status": "proved",
   "theorems": [
    "C29_normalize",
    "C29_offset",
    "C29_idempotent",
    "C29_all_zero_row_is_nan"
   ],
   "note": "Exact arithmetic (reals extended with infinities and NaN)."
  },
  {
   "property": "C30",
   "status": "proved",
   "theorems": [
    "C30_epsilon_noise",
    "C30_order_in_doubles_refuted"
   ],
   "note": "Proved in exact arithmetic; for doubles strict order preservation is refuted (C30_order_in_doubles_refuted)."
  },
  {
   "property": "C31",
   "status": "proved",
   "theorems": [
    "C31_unique_take_last",
    "C31_accepts_iff_sorted"
   ],
   "note": "Proved for IEEE doubles."
  },
  {
   "property": "C32",
   "status": "proved",
   "theorems": [
    "C32_cummax_strict",
    "C32_returns_iff",
    "C32_increasing_unchanged"
   ],
   "note": ""
  },
  {
   "property": "C33",
   "status": "proved",
   "theorems": [
    "C33_step_with_ival",
    "C33_step_without_ival",
    "C33_raises_iff",
    "C33_order_irrelevant",
    "C33_assume_sorted_hint"
   ],
   "note": "Proved for IEEE doubles, for every sorting permutation np.argsort may return."
  },
  {
   "property": "C34",
   "status": "proved",
   "theorems": [
    "C34_previous",
    "C34_before_first_raises"
   ],
   "note": ""
  },
  {
   "property": "C35",
   "status": "proved",
   "theorems": [
    "C35_area_is_integral",
    "C35_interp1d_total"
   ],
   "note": "Exact arithmetic; Riemann integral of Coquelicot."
  },
  {
   "property": "C36",
   "status": "proved",
   "theorems": [
    "C36_weights_resample",
    "C36_epsilon_is_floor"
   ],
   "note": "Resampling identity in exact arithmetic; the epsilon floor in IEEE doubles."
  },
  {
   "property": "C37",
   "status": "proved",
   "theorems": [
    "C37_percentile",
    "C37_order_irrelevant",
    "C37_raises_iff"
   ],
   "note": "IEEE doubles, vectors of up to 2^53 replicates."
  },
  {
   "property": "C38",
   "status": "proved",
   "theorems": [
    "C38_interval_grows",
    "C38_error_bar_grows"
   ],
   "note": "IEEE doubles, vectors of up to 2^53 replicates."
  },
  {
   "property": "C39",
   "status": "proved",
   "theorems": [
    "C39_error_bar_total",
    "C39_smallest_symmetric"
   ],
   "note": "Totality and sign in IEEE doubles; minimality in exact arithmetic."
  },
  {
   "property": "C40",
   "status": "proved",
   "theorems": [
    "C40_p_value",
    "C40_tail_fractions",
    "C40_equal_to_reference",
    "C40_order_irrelevant",
    "C40_negation"
   ],
   "note": "IEEE doubles."
  },
  {
   "property": "C41",
   "status": "proved",
   "theorems": [
    "C41_outside_is_significant",
    "C41_outside_is_significant_exact"
   ],
   "note": "Proved exactly for every size, and with IEEE rounding for up to 2^24 replicates."
  },
  {
   "property": "C42",
   "status": "proved",
   "theorems": [
    "C42_significant_is_outside_refuted",
    "C42_significant_is_at_the_edge",
    "C42_significant_is_at_the_edge_exact"
   ],
   "note": "Full coherence is refuted; the true statement is proved exactly and with IEEE rounding (up to 2^48 replicates)."
  },
  {
   "property": "C43",
   "status": "proved",
   "theorems": [
    "C43_inverted_p_value",
    "C43_inverted_p_value_exact"
   ],
   "note": "Proved exactly for every size, and with IEEE rounding for up to 2^24 replicates."
  },
  {
   "property": "C44",
   "status": "proved",
   "theorems": [
    "C44_paired_is_difference"
   ],
   "note": "IEEE doubles, finite data."
  },
  {
   "property": "C45",
   "status": "proved",
   "theorems": [
    "C45_curve_counts",
    "C45_two_class_counts",
    "C45_counts_doubles"
   ],
   "note": "Exact arithmetic with weights; IEEE doubles without weights (counts are exact)."
  },
  {
   "property": "C46",
   "status": "proved",
   "theorems": [
    "C46_roc_path",
    "C46_roc_points",
    "C46_roc_doubles"
   ],
   "note": "Exact arithmetic with weights; IEEE doubles without weights."
  },
  {
   "property": "C47",
   "status": "proved",
   "theorems": [
    "C47_auc_mann_whitney"
   ],
   "note": "Exact arithmetic."
  },
  {
   "property": "C48",
   "status": "proved",
   "theorems": [
    "C48_increasing_transform",
    "C48_reorder",
    "C48_negated_scores",
    "C48_swapped_classes",
    "C48_separated_is_one",
    "C48_constant_is_half",
    "C48_reorder_weighted"
   ],
   "note": "Order-preserving transformations and reordering in IEEE doubles; values of the area in exact arithmetic."
  },
  {
   "property": "C49",
   "status": "proved",
   "theorems": [
    "C49_single_class_auc",
    "C49_single_class_recall_precision",
    "C49_single_class_prg"
   ],
   "note": "Exact arithmetic."
  },
  {
   "property": "C50",
   "status": "proved",
   "theorems": [
    "C50_recall_precision",
    "C50_recall_precision_shape",
    "C50_recall_precision_doubles",
    "C50_weighted_doubles_refuted"
   ],
   "note": "Exact arithmetic with weights; IEEE doubles without weights; for doubles with extreme weights refuted (C50_weighted_doubles_refuted)."
  },
  {
   "property": "C51",
   "status": "proved",
   "theorems": [
    "C51_prg",
    "C51_prg_shape",
    "C51_prg_doubles",
    "C51_weighted_doubles_refuted"
   ],
   "note": "Exact arithmetic with weights; IEEE doubles without weights; for doubles with extreme weights refuted (C51_weighted_doubles_refuted)."
  },
  {
   "property": "C52",
   "status": "proved",
   "theorems": [
    "C52_integer_weights",
    "C52_integer_weights_doubles"
   ],
   "note": "Exact arithmetic, and IEEE doubles up to a total weight of 2^53."
  },
  {
   "property": "C53",
   "status": "proved",
   "theorems": [
    "C53_curves_usable",
    "C53_curves_usable_doubles"
   ],
   "note": "Exact arithmetic with weights; IEEE doubles without weights."
  },
  {
   "property": "C54",
   "status": "proved",
   "theorems": [
    "C54_curve_boot_roc_rp",
    "C54_curve_boot_prg",
    "C54_pairwise_prg_refuted"
   ],
   "note": "Exact arithmetic. Pairwise comparison of precision-recall-gain areas is refuted (C54_pairwise_prg_refuted)."
  },
  {
   "property": "C55",
   "status": "proved",
   "theorems": [
    "C55_between",
    "C55_unchanged_inside",
    "C55_covers_what_it_covered",
    "C55_nan_passes",
    "C55_raises_iff",
    "C55_exact"
   ],
   "note": "IEEE doubles; also exact arithmetic."
  },
  {
   "property": "C56",
   "status": "proved",
   "theorems": [
    "C56_error_bar",
    "C56_coherent",
    "C56_unbounded",
    "C56_point_mass",
    "C56_degenerate"
   ],
   "note": "Exact arithmetic; C56_degenerate (fewer than two points or infinite ones) for doubles."
  },
  {
   "property": "C57",
   "status": "proved",
   "theorems": [
    "C57_textbook",
    "C57_coherent",
    "C57_degenerate"
   ],
   "note": "Exact arithmetic with any t-like distribution functions; degenerate inputs for IEEE doubles."
  },
  {
   "property": "C58",
   "status": "proved",
   "theorems": [
    "C58_grows_with_confidence",
    "C58_equivariant",
    "C58_pvalues_scale_free"
   ],
   "note": "Exact arithmetic."
  },
  {
   "property": "C59",
   "status": "proved",
   "theorems": [
    "C59_degenerate",
    "C59_means_in_range",
    "C59_clipping_never_bites",
    "C59_shift_and_scale",
    "C59_means_in_range_doubles_refuted"
   ],
   "note": "Exact arithmetic; for doubles refuted (C59_means_in_range_doubles_refuted)."
  },
  {
   "property": "C60",
   "status": "proved",
   "theorems": [
    "C60_cells",
    "C60_local",
    "C60_pairwise_only_changes_error"
   ],
   "note": "Any arithmetic (IEEE doubles included)."
  },
  {
   "property": "C61",
   "status": "proved",
   "theorems": [
    "C61_accepted_iff",
    "C61_infinite_against_finite",
    "C61_infinite_losses_refuted"
   ],
   "note": "Exact arithmetic; the unrestricted claim is refuted for doubles (C61_infinite_losses_refuted)."
  },
  {
   "property": "C62",
   "status": "proved",
   "theorems": [
    "C62_within_limits_accepted",
    "C62_within_limits_doubles_refuted"
   ],
   "note": "Exact arithmetic; for doubles refuted (C62_within_limits_doubles_refuted)."
  },
  {
   "property": "C63",
   "status": "proved",
   "theorems": [
    "C63_bayes_decision",
    "C63_zero_one_mode",
    "C63_decision_any_arithmetic",
    "C63_mode_in_doubles_refuted"
   ],
   "note": "Exact arithmetic, and first minimiser of the computed expected losses in any arithmetic; the 0-1 claim is refuted for doubles (C63_mode_in_doubles_refuted)."
  },
  {
   "property": "C64",
   "status": "proved",
   "theorems": [
    "C64_hard_loss_cells",
    "C64_zero_one",
    "C64_optimal_in_expectation",
    "C64_bad_matrix"
   ],
   "note": "Exact arithmetic."
  },
  {
   "property": "C65",
   "status": "proved",
   "theorems": [
    "C65_log_loss_values",
    "C65_log_loss_strictly_proper",
    "C65_validation"
   ],
   "note": "Exact arithmetic; -inf log probabilities included."
  },
  {
   "property": "C66",
   "status": "proved",
   "theorems": [
    "C66_brier_values",
    "C66_brier_uniform_is_one",
    "C66_brier_strictly_proper"
   ],
   "note": "Exact arithmetic."
  },
  {
   "property": "C67",
   "status": "proved",
   "theorems": [
    "C67_spherical_values",
    "C67_spherical_strictly_proper",
    "C67_spherical_ignores_normalisation"
   ],
   "note": "Exact arithmetic."
  },
  {
   "property": "C68",
   "status": "proved",
   "theorems": [
    "C68_offset_invariant",
    "C68_log_loss_nonneg",
    "C68_nan_check_bypassed"
   ],
   "note": "Exact arithmetic; rows without a real entry bypass the NaN check (C68_nan_check_bypassed)."
  },
  {
   "property": "C69",
   "status": "proved",
   "theorems": [
    "C69_floor",
    "C69_no_floor"
   ],
   "note": "Exact arithmetic, through get_pred_log_prob with arbitrary estimators."
  },
  {
   "property": "C70",
   "status": "proved",
   "theorems": [
    "C70_floor_exact",
    "C70_min_log_prob_floor_refuted"
   ],
   "note": "Exact arithmetic; that min_log_prob itself is a floor is refuted (C70_min_log_prob_floor_refuted)."
  },
  {
   "property": "C71",
   "status": "proved",
   "theorems": [
    "C71_noise_frequencies",
    "C71_noise_best_constant",
    "C71_noise_bool_raises"
   ],
   "note": "Exact arithmetic."
  },
  {
   "property": "C72",
   "status": "proved",
   "theorems": [
    "C72_square_and_abs",
    "C72_log_loss",
    "C72_validation",
    "C72_doubles",
    "C72_square_zero_doubles_refuted"
   ],
   "note": "Exact arithmetic and doubles; zero square loss only at y = mu is refuted in doubles by underflow (C72_square_zero_doubles_refuted), the property is stated accordingly."
  },
  {
   "property": "C73",
   "status": "proved",
   "theorems": [
    "C73_noise_fit",
    "C73_constant_data",
    "C73_too_few"
   ],
   "note": "Exact arithmetic."
  },
  {
   "property": "C74",
   "status": "proved",
   "theorems": [
    "C74_min_std",
    "C74_finite_log_loss"
   ],
   "note": "C74_min_std holds in any arithmetic, doubles included; finiteness of the log loss in exact arithmetic."
  },
  {
   "property": "C75",
   "status": "proved",
   "theorems": [
    "C75_no_refit",
    "C75_progress",
    "C75_completed",
    "C75_classification",
    "C75_regression"
   ],
   "note": "joblib.Memory is modelled by its contract (Checkpoint.v); train/predict is a deterministic function of estimator state and data. Any arithmetic."
  },
  {
   "property": "C76",
   "status": "proved",
   "theorems": [
    "C76_classification",
    "C76_classification_accepts",
    "C76_regression",
    "C76_log_loss_of_scores"
   ],
   "note": "Any arithmetic; C76_log_loss_of_scores exact."
  },
  {
   "property": "C77",
   "status": "proved",
   "theorems": [
    "C77_entries",
    "C77_independent",
    "C77_rejected",
    "C77_dump_bounds",
    "C77_exact"
   ],
   "note": "Entries and independence in any arithmetic, bounds in doubles, totality in exact arithmetic."
  },
  {
   "property": "C78",
   "status": "proved",
   "theorems": [
    "C78_clip_chk_exact",
    "C78_clip_chk_doubles",
    "C78_isclose_infinite"
   ],
   "note": "Exact arithmetic and IEEE doubles."
  },
  {
   "property": "C79",
   "status": "proved",
   "theorems": [
    "C79_export_truthful"
   ],
   "note": "pandas' to_string and to_latex are arbitrary functions of the assembled frame."
  },
  {
   "property": "C80",
   "status": "proved",
   "theorems": [
    "C80_default_fails_iff",
    "C80_default_truthful"
   ],
   "note": "Thresholds are exact over all doubles; the failure condition is an equivalence."
  },
  {
   "property": "C81",
   "status": "proved",
   "theorems": [
    "C81_latex_columns"
   ],
   "note": ""
  },
  {
   "property": "C82",
   "status": "proved",
   "theorems": [
    "C82_nonfinite_means_rejected",
    "C82_formats_for_estimates_unused"
   ],
   "note": "For the pinned pandas 0.24, where ordering a Decimal NaN raises InvalidOperation."
  },
  {
   "property": "C83",
   "status": "proved",
   "theorems": [
    "C83_classification",
    "C83_classification_rejected",
    "C83_regression",
    "C83_regression_rejected"
   ],
   "note": "Any arithmetic; the *_rejected theorems say how other inputs are rejected."
  },
  {
   "property": "C84",
   "status": "proved",
   "theorems": [
    "C84_cells",
    "C84_independent"
   ],
   "note": "Any arithmetic."
  },
  {
   "property": "C85",
   "status": "proved",
   "theorems": [
    "C85_binary_only",
    "C85_multiclass_always_raises"
   ],
   "note": "Any arithmetic. The documentation only asks for n_labels >= 1."
  },
  {
   "property": "C86",
   "status": "proved",
   "theorems": [
    "C86_standard_losses",
    "C86_benchmark_succeeds"
   ],
   "note": "Exact arithmetic, t distribution functions as in C57; C86_standard_losses shows that the losses of classification.py meet the hypothesis on losses."
  },
  {
   "property": "C87",
   "status": "proved",
   "theorems": [
    "C87_cells",
    "C87_independent",
    "C87_succeeds_iff"
   ],
   "note": "C87_cells and C87_independent in any arithmetic, C87_succeeds_iff exact."
  },
  {
   "property": "C88",
   "status": "proved",
   "theorems": [
    "C88_losses_exact",
    "C88_losses_doubles",
    "C88_curves_exact",
    "C88_curves_doubles"
   ],
   "note": "Loss tables and curve tables, each exact and in doubles. The math library is arbitrary up to exp(0) = 1 and NaN in, NaN out for the t survival function; columns up to 2^53 rows. Bernstein's pairwise error is not 0 (its range term remains)."
  },
  {
   "property": "C89",
   "status": "proved",
   "theorems": [
    "C89_losses_exact",
    "C89_losses_doubles",
    "C89_curves_exact",
    "C89_curves_doubles",
    "C89_curves_doubles_error_refuted"
   ],
   "note": "Exact: p-values and all pairwise errors. Doubles: p-values bit for bit, pairwise errors for t and Bernstein; C89_curves_doubles_error_refuted shows that the bootstrap error of curves is not symmetric in doubles."
  },
  {
   "property": "C90",
   "status": "proved",
   "theorems": [
    "C90_mean_within_limits",
    "C90_estimators",
    "C90_no_limits",
    "C90_overflow_refuted",
    "C90_cancelling_refuted"
   ],
   "note": "Doubles, every order of addition that numpy may use. The two refutations show that the size conditions cannot be dropped."
  },
  {
   "property": "C91",
   "status": "proved",
   "theorems": [
    "C91_mean_accuracy",
    "C91_reported_mean",
    "C91_table_means"
   ],
   "note": "Doubles. The bound holds for every order of addition; numpy's pairwise order is more accurate for long vectors."
  },
  {
   "property": "C92",
   "status": "proved",
   "theorems": [
    "C92_accepted_iff",
    "C92_pairwise_accepted",
    "C92_short_limits_accepted",
    "C92_top_confidence_refuted"
   ],
   "note": "Doubles. What is assumed of numpy and scipy is the record good_library (shown to be satisfiable): ranges and monotonicity of the t functions, log and exp, signs of the eigenvalues."
  },
  {
   "property": "C93",
   "status": "proved",
   "theorems": [
    "C93_sane_numbers"
   ],
   "note": "Doubles, same assumptions as C92."
  },
  {
   "property": "C94",
   "status": "proved",
   "theorems": [
    "C94_regression_succeeds"
   ],
   "note": "Doubles, assumptions of C92 plus a bound on log for standard deviations in [2^-90, 2^90]."
  },
  {
   "property": "C95",
   "status": "proved",
   "theorems": [
    "C95_normalize",
    "C95_accurate"
   ],
   "note": "Doubles, any order of addition. What is assumed of exp and log are the records exp_log and accurate_exp_log, shown to hold for the correctly rounded functions."
  },
  {
   "property": "C96",
   "status": "proved",
   "theorems": [
    "C96_log_loss",
    "C96_brier_loss",
    "C96_spherical_loss",
    "C96_hard_loss",
    "C96_zero_one_loss"
   ],
   "note": "Doubles, assumptions exp_log. The Brier bound grows with the number of labels because exp_log alone allows an exp that is 1 everywhere."
  },
  {
   "property": "C97",
   "status": "proved",
   "theorems": [
    "C97_loss_table",
    "C97_predictions"
   ],
   "note": "Doubles, assumptions of C92 and C96. The curves of the benchmark are not part of this theorem."
  },
  {
   "property": "C98",
   "status": "proved",
   "theorems": [
    "C98_curve_boot_roc",
    "C98_curve_boot_rp",
    "C98_curve_boot_prg"
   ],
   "note": "Doubles, every rounding step. The condition on drawn negatives is needed for the proof of the allclose checks and the monotone counts with up to 100000 samples."
  },
  {
   "property": "C99",
   "status": "proved",
   "theorems": [
    "C99_large_samples_refuted"
   ],
   "note": "Refutation (the property states what happens). The running sum of 1e-10 and k ones is computed exactly for every k between 2^20 and 2^40 by induction on the residue."
  },
  {
   "property": "C100",
   "status": "proved",
   "theorems": [
    "C100_curve_table",
    "C100_benchmark"
   ],
   "note": "Doubles, every rounding step. The pairwise precision-recall-gain curve is left out because it fails (C54)."
  },
  {
   "property": "C101",
   "status": "proved",
   "theorems": [
    "C101_boot_resolution",
    "C101_loss_resolution",
    "C101_loss_table",
    "C101_regression",
    "C101_classification",
    "C101_pairwise_refuted"
   ],
   "note": "Without pairwise_CI; the pairwise case is refuted for every library with the stated properties. Entries with mean -inf (gain curves) are left out."
  },
  {
   "property": "C102",
   "status": "proved",
   "theorems": [
    "C102_deviation",
    "C102_t_error_bar",
    "C102_bernstein_error_bar",
    "C102_estimators_t",
    "C102_estimators_bernstein",
    "C102_table",
    "C102_unit_losses"
   ],
   "note": "Forward error analysis of every step; relative to the quantiles and the logarithm the library returns. Without pairwise intervals for tables; the estimators themselves are covered for any losses, so also for differences. Bootstrap error bars are order statistics and not part of this."
  },
  {
   "property": "C103",
   "status": "proved",
   "theorems": [
    "C103_points",
    "C103_auc",
    "C103_average_precision",
    "C103_order",
    "C103_curve_boot",
    "C103_tie_refuted"
   ],
   "note": "Forward error analysis of every step over the exact counts of C45. Unweighted curves with both classes; weighted (bootstrapped) curves and precision-recall-gain curves are not part of this."
  },
  {
   "property": "C104",
   "status": "proved",
   "theorems": [
    "C104_brier_loss",
    "C104_spherical_loss",
    "C104_log_loss",
    "C104_log_loss_no_exclusion",
    "C104_decision",
    "C104_table_means",
    "C104_square_and_abs",
    "C104_gaussian_log_loss"
   ],
   "note": "Forward error analysis. exp and log are only assumed accurate to the relative error of accurate_exp_log / accurate_log; a rounded exponential and logarithm meet this (C104_library). Zero-one and hard losses are covered by the decision theorem."
  },
  {
   "property": "C105",
   "status": "proved",
   "theorems": [
    "C105_percentile",
    "C105_replicates",
    "C105_error_bar",
    "C105_p_value",
    "C105_estimators",
    "C105_table",
    "C105_pairwise_table"
   ],
   "note": "Forward error analysis; order statistics are monotone and 1-Lipschitz (kth_perturb). A confidence whose rank is an integer up to rounding is excluded: there the interval may start one replicate off."
  },
  {
   "property": "C106",
   "status": "proved",
   "theorems": [
    "C106_nan",
    "C106_limits",
    "C106_confidence",
    "C106_unknown_method",
    "C106_significance",
    "C106_boot_weights",
    "C106_table",
    "C106_returned"
   ],
   "note": "Case analysis, generic in the arithmetic. A degenerate sample (one value, or not all finite) is answered by boot_EB without looking at the confidence, so that case is left out there."
  },
  {
   "property": "C107",
   "status": "proved",
   "theorems": [
    "C107_curves",
    "C107_area",
    "C107_interp",
    "C107_check",
    "C107_boot",
    "C107_loss_table",
    "C107_overflow_refuted",
    "C107_area_notnan"
   ],
   "note": "Case analysis, generic in the arithmetic. Assertions about computed values (pseudo points, precision, gain) are the subject of C45-C51."
  },
  {
   "property": "C108",
   "status": "proved",
   "theorems": [
    "C108_linear",
    "C108_split_df",
    "C108_formatting",
    "C108_helpers",
    "C108_noise_width"
   ],
   "note": "Case analysis. ordered_split_series and random_split_series alone are C20, C21 and C24; here as parts of split_df."
  }
 ]
}