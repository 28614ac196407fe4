{"id": "C01", "title": "Printed estimate can be read back exactly", "statement": "When print_estimate returns the normal (unclipped, finite) form, reading the text back - the signed fixed-point number before '(' with the thousands commas dropped, and the integer in parentheses counted in units of the last printed place - recovers exactly mu*10^shift (same number of decimals) and EB*10^shift. If EB is not finite there is no parenthesis and the number alone is recovered.", "quantifier": "every finite Decimal mu of at most 28 digits, every EB (finite with the same exponent, zero, infinite or NaN), every integer shift that leaves mu defined to the dot", "why_tests_cant": "unbounded coefficients, exponents and shifts; comma grouping and zero padding have a different shape for every digit count", "anchors": ["mlpaper/sciprint.py:print_estimate", "mlpaper/sciprint.py:digit_str", "mlpaper/constants.py:GEN_FMT"]}
{"id": "C02", "title": "print_estimate rejects exactly the unprintable shifts", "statement": "For finite, unclipped mu with EB zero/non-finite or of equal exponent and non-negative, print_estimate raises ValueError if and only if the shifted mu has a positive exponent (it would be displayed with more digits than are known); otherwise it returns a string, and that string never contains scientific notation 'E'.", "quantifier": "every finite mu, EB and shift", "why_tests_cant": "an iff over all exponents and shifts", "anchors": ["mlpaper/sciprint.py:print_estimate", "mlpaper/sciprint.py:decimal_to_dot"]}
{"id": "C03", "title": "Clipped estimates are flagged on the right side with the right limit", "statement": "If mu > max_clip the output is '>' followed by max_clip*10^shift, if mu < min_clip it is '<' followed by min_clip*10^shift (both exactly readable as numbers), and otherwise the output carries no clip marker.", "quantifier": "every mu including infinities, every pair of limits, every shift", "why_tests_cant": "all magnitudes of mu relative to the limits and infinities", "anchors": ["mlpaper/sciprint.py:print_estimate"]}
{"id": "C04", "title": "create_decimal is correct rounding to significant digits", "statement": "create_decimal(x, digits, rounding) of a finite double returns a Decimal with at most `digits` digits that is the correctly rounded value of the exact binary value of x: for ROUND_CEILING the result is >= x and less than one unit in its last place above it; for ROUND_HALF_UP it is within half a unit in its last place. Infinities and NaN pass through.", "quantifier": "every IEEE double and every digits >= 1", "why_tests_cant": "2^64 inputs times all digit counts; carries like 9.99 -> 10", "anchors": ["mlpaper/sciprint.py:create_decimal"]}
{"id": "C05", "title": "Displayed error bars never understate the uncertainty", "statement": "In the table returned by decimalize, a finite error entry is at least the float error, and exceeds it by less than one unit in its last place; it has at most err_digits digits; it is infinite exactly when the rounded error exceeds 10**EB_limit (or was infinite).", "quantifier": "every double error bar >= 0, inf or NaN; every err_digits >= 1; every EB_limit", "why_tests_cant": "must hold for every double", "anchors": ["mlpaper/sciprint.py:decimalize"]}
{"id": "C06", "title": "Means are rounded to the last digit of their error bar", "statement": "When the decimalized error is finite and non-zero, the mean entry has the same exponent as the error entry and differs from the float mean by at most half a unit of that place, with exact ties going away from zero; decimalize fails only when this needs more than 28 digits.", "quantifier": "every finite double mean and every positive finite error", "why_tests_cant": "must hold for every pair of doubles incl. ties and carries", "anchors": ["mlpaper/sciprint.py:decimalize"]}
{"id": "C07", "title": "Rounded p-values are conservative and stay in [0,1]", "statement": "decimalize maps a p-value in [0,1] to a Decimal with exactly pval_digits decimals that is >= the float p-value, exceeds it by less than 10**-pval_digits, and is still in [0,1]; NaN stays NaN.", "quantifier": "every double in [0,1] and every pval_digits in 1..27", "why_tests_cant": "must hold for every double", "anchors": ["mlpaper/sciprint.py:decimalize"]}
{"id": "C08", "title": "'<0.0001' is truthful", "statement": "If the p-value printed by print_pval after decimalize starts with '<', the original float p-value is strictly smaller than the printed bound (10**-pval_digits); otherwise the printed number read back is the decimalized p-value and the float p-value is larger than the bound.", "quantifier": "every double p-value in [0,1], every pval_digits in 1..27", "why_tests_cant": "the code comment says this 'sounds shaky'; it rests on no double being equal to 10**-k", "anchors": ["mlpaper/sciprint.py:print_pval", "mlpaper/sciprint.py:decimalize"]}
{"id": "C09", "title": "get_shift_range returns exactly the admissible shifts", "statement": "The returned bounds are multiples of shift_mod with min_shift <= max_shift; every shift <= max_shift keeps all numbers defined to the dot and max_shift + shift_mod does not; if all_small is False every shift in range makes some number's leading digit reach the units place and min_shift - shift_mod does not; if all_small is True no multiple of shift_mod satisfies both requirements and min_shift = max_shift.", "quantifier": "every non-empty list of finite Decimals, every shift_mod >= 1", "why_tests_cant": "all list lengths, exponents and moduli", "anchors": ["mlpaper/sciprint.py:get_shift_range", "mlpaper/sciprint.py:floor_mod", "mlpaper/sciprint.py:ceil_mod"]}
{"id": "C10", "title": "all_small=False promises a number >= 1, except when there are zeros", "statement": "If get_shift_range reports all_small=False and no number is zero then at every returned shift at least one number is >= 1 in absolute value. (The documentation promises this without the exception; with a zero in the list it is false.)", "quantifier": "every non-empty list of finite Decimals", "why_tests_cant": "zero entries have an 'adjusted' exponent but no magnitude", "anchors": ["mlpaper/sciprint.py:get_shift_range"]}
{"id": "C11", "title": "find_shift is optimal with the documented tie-break", "statement": "find_shift returns a multiple of shift_mod inside the admissible range whose longest printed estimate is as short as that of every other admissible shift, and among equally short ones has the smallest absolute value - whatever order the unstable argsort puts equal |shift| in.", "quantifier": "every list of (mean, error) pairs valid for printing, every shift_mod >= 1, every argsort result", "why_tests_cant": "global optimality over an unbounded range; sort tie order is unspecified", "anchors": ["mlpaper/sciprint.py:find_shift", "mlpaper/sciprint.py:str_print_len"]}
{"id": "C12", "title": "Padding aligns the decimal points", "statement": "pad_num_str returns one string per input, each the input followed only by pad characters, such that counted from the right end all digits-before-the-decimal-point line up; the padding is minimal (some string gets none).", "quantifier": "every non-empty list of strings accepted by find_last_dig, any pad character", "why_tests_cant": "all strings and list lengths", "anchors": ["mlpaper/sciprint.py:pad_num_str", "mlpaper/sciprint.py:find_last_dig"]}
{"id": "C13", "title": "Header unit prefix undoes the display shift", "statement": "For an estimate column with a unit, if a SI prefix is used its power of ten p satisfies displayed_value * 10^p = original value; if the factor form 'x 1eK' is used then displayed_value = original * 10^K; if neither appears the shift is 0. Micro is written u, in LaTeX output $\\mu$.", "quantifier": "every metric, unit, shift, use_prefix and use_tex", "why_tests_cant": "all integer shifts, all names", "anchors": ["mlpaper/sciprint.py:adjust_headers", "mlpaper/constants.py:_PREFIX"]}
{"id": "C14", "title": "TeX headers never contain the \\times command", "statement": "With use_tex=True, the header of a shifted unit-less column contains a TAB character and no LaTeX command at all (the \\t of \\times is read as an escape), so the factor is typeset as 'imes'; the exponent shown is still the right one.", "quantifier": "every metric name without a backslash and every non-zero shift", "why_tests_cant": "every shift and metric; a test would have to know the intended TeX", "anchors": ["mlpaper/sciprint.py:adjust_headers"]}
{"id": "C15", "title": "format_table never fails on decimalized finite tables", "statement": "For every float table with finite means, non-negative (or inf/NaN) errors and p-values in [0,1] (or NaN) whose means fit 28 digits, format_table(decimalize(table), shift_mod=k) with k >= 1 succeeds: no assertion, ValueError or decimal exception. A table with two p-values of one metric given to different numbers of digits is refused.", "quantifier": "every such table, every number of rows and metrics, every k >= 1, every limit dictionary", "why_tests_cant": "any combination of magnitudes across rows", "anchors": ["mlpaper/sciprint.py:decimalize", "mlpaper/sciprint.py:format_table", "mlpaper/sciprint.py:find_shift"]}
{"id": "C16", "title": "End-to-end truthfulness of a formatted cell", "statement": "In format_table(decimalize(table)) with padding, each unclipped cell 'm(e)' read back and unshifted by 10^-shift gives a number within half a printed unit of the float mean and an error at least the float error and less than one printed unit above it.", "quantifier": "every float table as above, every cell", "why_tests_cant": "composition of float->Decimal->shift->string->pad over all inputs", "anchors": ["mlpaper/sciprint.py:just_format_it", "mlpaper/sciprint.py:format_table", "mlpaper/sciprint.py:decimalize"]}
{"id": "C17", "title": "Rounding never reverses a ranking at equal precision", "statement": "If two methods' decimalized errors have the same exponent then mean1 <= mean2 implies displayed mean1 <= displayed mean2.", "quantifier": "every pair of cells", "why_tests_cant": "all pairs of doubles", "anchors": ["mlpaper/sciprint.py:decimalize"]}
{"id": "C18", "title": "The no-shift mode reports insufficient precision", "statement": "With shift_mod=None, format_table uses shift 0 for every metric, and raises ValueError if and only if some unclipped finite mean is not defined to the dot.", "quantifier": "every decimal table accepted otherwise", "why_tests_cant": "the explicit check in the code lacks `raise`, so only the later print step can fail", "anchors": ["mlpaper/sciprint.py:format_table"]}
{"id": "C19", "title": "split_df partitions the rows", "statement": "df_train, df_test, df_unused are sub-tables of df in the original row order, every row goes to exactly one of them, a row is in train iff every split column puts it in train and in test iff every split column puts it in test; with one split column df_unused is empty.", "quantifier": "every data frame with >= 1 row, every non-empty splits dict, every random draw", "why_tests_cant": "all sizes, columns and RNG outcomes", "anchors": ["mlpaper/data_splitter.py:split_df"]}
{"id": "C20", "title": "Random splits keep equal values together", "statement": "random_split_series puts rows with equal values on the same side, and the number of distinct values placed in train is exactly ceil(frac * n_distinct) (float product).", "quantifier": "every series, every frac in [0,1], every RNG outcome", "why_tests_cant": "RNG outcomes cannot be enumerated", "anchors": ["mlpaper/data_splitter.py:random_split_series", "mlpaper/data_splitter.py:rand_subset"]}
{"id": "C21", "title": "rand_subset/rand_mask rounding assertions can never fail", "statement": "For every double frac in [0,1] and every length 1 <= n < 2^53, N = ceil(frac*n) computed in floating point satisfies 0 <= N <= n, N >= n*frac and N-1 < n*frac as evaluated by the code, so rand_subset and rand_mask return exactly N elements / True entries and never raise.", "quantifier": "every IEEE double frac in [0,1], every 1 <= n < 2^53 (an empty population raises ValueError in numpy 1.15)", "why_tests_cant": "depends on IEEE rounding of the product for every double", "anchors": ["mlpaper/data_splitter.py:rand_subset", "mlpaper/data_splitter.py:rand_mask"]}
{"id": "C22", "title": "assume_unique is only a speed hint (random split)", "statement": "If all values are unique, random_split_series with assume_unique=True and False give the same mask for the same RNG state.", "quantifier": "every series of unique values, frac, RNG outcome", "why_tests_cant": "code comment claims it; needs an argument over permutations", "anchors": ["mlpaper/data_splitter.py:random_split_series", "mlpaper/data_splitter.py:rand_mask", "mlpaper/data_splitter.py:rand_subset"]}
{"id": "C23", "title": "Ordered split is a threshold split containing at least frac", "statement": "When ordered_split_series returns, train is exactly the rows with value <= some value that occurs in the series (so equal values stay together and no test value is below a train value), and the number of distinct values in train is exactly max(1, ceil(frac * n_distinct)) in exact arithmetic, hence at least frac of them.", "quantifier": "every series over a totally ordered type, every double frac in [0,1], every flag combination that is truthful", "why_tests_cant": "all series", "anchors": ["mlpaper/data_splitter.py:ordered_split_series"]}
{"id": "C24", "title": "Which fractions the ordered split accepts", "statement": "On a non-empty series without nulls with n distinct values, ordered_split_series raises AssertionError exactly when k = min(floor(fl(frac*n)), n-1) >= 1 and frac <= fl(k/n); in particular it rejects every frac with frac*n an integer in [1, n-1] (e.g. 0.5 with an even n), it accepts frac = 0 and frac = 1, and no other exception occurs. (The documented 'frac must be in [0,1]' as only requirement is refuted: 10 values with frac=0.8 raise.)", "quantifier": "every series and frac", "why_tests_cant": "fails only when frac*n_distinct is (rounds to) an integer strictly between 0 and n", "anchors": ["mlpaper/data_splitter.py:ordered_split_series"]}
{"id": "C25", "title": "Ordered/linear speed hints do not change the split", "statement": "If the series really is sorted/unique, every combination of truthful assume_sorted / assume_unique gives the same mask as the default.", "quantifier": "every series and frac", "why_tests_cant": "all series", "anchors": ["mlpaper/data_splitter.py:ordered_split_series", "mlpaper/data_splitter.py:linear_split_series"]}
{"id": "C26", "title": "Linear split pivot stays inside the data range in IEEE arithmetic", "statement": "For finite doubles, linear_split_series' pivot satisfies min <= pivot <= max and is not NaN whatever rounding or overflow occurs in the interpolation, so it never raises, the minimum always lands in train, equal values stay together, and frac=1 puts everything in train.", "quantifier": "every finite double series and every double frac in [0,1]", "why_tests_cant": "rounding and overflow for every pair of doubles", "anchors": ["mlpaper/data_splitter.py:linear_split_series"]}
{"id": "C27", "title": "build_lag_df builds the right lag blocks but never returns them", "statement": "Row i of the lag-k block that build_lag_df assembles is row i - stride*k of df, or null when there is no such row; but every call ends in TypeError (KeyError for unknown features), so the documented return value is refuted.", "quantifier": "every df, n_lags >= 1", "why_tests_cant": "the result expression adds a range to a list, which Python 3 rejects", "anchors": ["mlpaper/data_splitter.py:build_lag_df"]}
{"id": "C28", "title": "one_hot is a one-hot encoding", "statement": "one_hot(y, L) has one row per label with exactly one True, at column y[i]; it raises iff L < 1 or some y[i] is outside [0, L).", "quantifier": "every integer vector and L", "why_tests_cant": "all lengths and labels", "anchors": ["mlpaper/util.py:one_hot"]}
{"id": "C29", "title": "normalize produces probability rows and is blind to offsets", "statement": "For a row with at least one finite entry, exp(normalize(row)) is non-negative and sums to 1, differences between entries (hence ranking) are preserved, adding a constant to the row changes nothing, and normalize is idempotent; a row of -inf becomes NaN.", "quantifier": "every row of finite/-inf log probabilities with >= 1 finite entry", "why_tests_cant": "real-valued inputs of any length", "anchors": ["mlpaper/util.py:normalize"]}
{"id": "C30", "title": "epsilon_noise preserves order and separates ties", "statement": "In exact arithmetic, for any random draws in [0,1): x_i < x_j implies out_i < out_j, |out_i - x_i| <= max_epsilon/2, and out_i = out_j for i != j only if x_i = x_j and the two draws are equal. (In doubles the strict order can be lost: neighbouring doubles can collide.)", "quantifier": "every finite vector, every draw", "why_tests_cant": "all vectors and all RNG outcomes", "anchors": ["mlpaper/util.py:epsilon_noise"]}
{"id": "C31", "title": "unique_take_last keeps each x once with its last y", "statement": "On sorted input the result x is strictly increasing, contains exactly the distinct input x, and each x is paired with the y of its last occurrence; on unsorted input it raises.", "quantifier": "every pair of equal-length lists", "why_tests_cant": "all lengths and tie patterns", "anchors": ["mlpaper/util.py:unique_take_last"]}
{"id": "C32", "title": "cummax_strict returns the least strictly increasing majorant in doubles", "statement": "If cummax_strict returns, the result is strictly increasing, pointwise >= the input, and pointwise <= every strictly increasing vector of doubles that is >= the input; an already strictly increasing input is returned unchanged.", "quantifier": "every vector of finite doubles", "why_tests_cant": "minimality quantifies over all other vectors of doubles", "anchors": ["mlpaper/util.py:cummax_strict"]}
{"id": "C33", "title": "Step evaluation is the right-continuous step function", "statement": "eval_step_func at g equals yp at the largest xp <= g, or ival if there is none; the result does not depend on the order in which the (xp, yp) pairs are given; without ival it raises iff some grid point lies before the first step (or steps are not distinct).", "quantifier": "every finite set of steps with distinct x, every grid", "why_tests_cant": "all lengths, grids and orderings", "anchors": ["mlpaper/util.py:eval_step_func"]}
{"id": "C34", "title": "'previous' interpolation of a curve with repeated x", "statement": "_interp1d(kind='previous') at g returns the y of the last curve point whose x is <= g.", "quantifier": "every sorted curve with >= 2 points, every grid point >= first x", "why_tests_cant": "all tie patterns", "anchors": ["mlpaper/util.py:_interp1d"]}
{"id": "C35", "title": "area is the integral of the interpolated curve", "statement": "For finite curves, area(kind='linear') and area(kind='previous') equal the Riemann integral over [x_first, x_last] of the function drawn by interp1d of the same kind.", "quantifier": "every sorted finite curve with >= 2 points, duplicates allowed", "why_tests_cant": "an identity between a sum and an integral for every curve", "anchors": ["mlpaper/util.py:area", "mlpaper/util.py:_interp1d"]}
{"id": "C36", "title": "Bootstrap weights are equivalent to resampling", "statement": "For any multinomial outcome, the weighted mean computed from boot_weights equals the plain mean of the data set in which point i is repeated weight_i times; every weight is >= epsilon and with epsilon=0 they sum to N.", "quantifier": "every data vector and every multinomial outcome", "why_tests_cant": "all RNG outcomes", "anchors": ["mlpaper/boot_util.py:boot_weights", "mlpaper/mlpaper.py:_boot_EB_and_test"]}
{"id": "C37", "title": "Percentile interval is ordered and made of sample values", "statement": "percentile returns LB <= UB, both of which are bootstrap values, inside [min, max], and independent of the order of the replicates - with the indices computed in IEEE arithmetic.", "quantifier": "every non-empty bootstrap vector, every double confidence in (0,1)", "why_tests_cant": "float index arithmetic for every confidence and n", "anchors": ["mlpaper/boot_util.py:percentile", "mlpaper/boot_util.py:confidence_to_percentiles"]}
{"id": "C38", "title": "Higher confidence gives a wider interval", "statement": "If c1 <= c2 then percentile(b, c2) contains percentile(b, c1) and error_bar grows with confidence.", "quantifier": "every bootstrap vector, every pair of double confidences", "why_tests_cant": "monotonicity over all pairs of doubles", "anchors": ["mlpaper/boot_util.py:percentile", "mlpaper/boot_util.py:error_bar"]}
{"id": "C39", "title": "error_bar is non-negative and covers both bootstrap intervals", "statement": "error_bar never trips its assertions; EB >= 0 (or NaN, only when the original estimate is not finite) and, in exact arithmetic, [est-EB, est+EB] is the smallest symmetric interval around the estimate containing the percentile interval, and it also contains the basic interval.", "quantifier": "every bootstrap vector, estimate and confidence", "why_tests_cant": "all vectors incl. infinities", "anchors": ["mlpaper/boot_util.py:error_bar", "mlpaper/boot_util.py:basic"]}
{"id": "C40", "title": "significance is a p-value", "statement": "significance returns a value in [0,1], equal to 1 when all replicates equal the reference, unchanged if replicates are permuted, and symmetric under negating replicates and reference.", "quantifier": "every replicate vector, scalar or paired reference", "why_tests_cant": "all vectors", "anchors": ["mlpaper/boot_util.py:significance"]}
{"id": "C41", "title": "Reference outside the interval means significant", "statement": "If ref is outside percentile(b, c) then significance(b, ref) < 1 - c.", "quantifier": "every bootstrap vector, ref and confidence (every vector size in exact arithmetic; up to 2^24 replicates with IEEE rounding)", "why_tests_cant": "all vectors and confidences", "anchors": ["mlpaper/boot_util.py:percentile", "mlpaper/boot_util.py:significance"]}
{"id": "C42", "title": "A significant reference is outside the interval or in its outermost step", "statement": "If significance(b, ref) < 1 - c then all replicates up to ref are <= LB or all replicates from ref on are >= UB, where (LB, UB) = percentile(b, c). The stronger expectation that ref is outside [LB, UB] (full coherence of test and interval) is false: b = 1,2,3,4, ref = 1, c = 0.4 gives p = 0.5 < 0.6 although LB = 1.", "quantifier": "every bootstrap vector, ref and confidence (every size in exact arithmetic; up to 2^48 replicates with IEEE rounding)", "why_tests_cant": "quantile/ECDF off-by-one only shows for some (n, c)", "anchors": ["mlpaper/boot_util.py:percentile", "mlpaper/boot_util.py:significance"]}
{"id": "C43", "title": "Inverting the p-value reaches the reference", "statement": "If 0 < significance(b, ref) = p < 1 then percentile(b, 1 - p) contains ref.", "quantifier": "every bootstrap vector and ref (every size in exact arithmetic; up to 2^24 replicates with IEEE rounding)", "why_tests_cant": "all vectors", "anchors": ["mlpaper/boot_util.py:percentile", "mlpaper/boot_util.py:significance"]}
{"id": "C44", "title": "Paired test equals one-sample test on differences", "statement": "significance(x, ref=y) = significance(x - y, ref=0).", "quantifier": "every pair of equal-length vectors of finite doubles (inf - inf is NaN and is rejected)", "why_tests_cant": "all vectors", "anchors": ["mlpaper/boot_util.py:significance"]}
{"id": "C45", "title": "Curve counts mean what the docstring says", "statement": "thresholds is inf followed by the distinct scores in strictly decreasing order, and tps[i] / fps[i] is the total weight of positive / negative samples with score >= thresholds[i] (before single-class pseudo-points), whatever the input order or ties.", "quantifier": "every label/score vector with >= 1 sample, every positive weight matrix or None", "why_tests_cant": "all lengths, tie patterns, weights", "anchors": ["mlpaper/perf_curves.py:_binary_clf_curve"]}
{"id": "C46", "title": "ROC curve is a monotone path from (0,0) to (1,1)", "statement": "roc_curve's fpr and tpr are non-decreasing, start at (0,0), end at (1,1), for every input incl. single-class data, and no assertion in the curve code fires (exact arithmetic with any positive weights; IEEE doubles without weights).", "quantifier": "every input as above", "why_tests_cant": "all inputs incl. corner cases", "anchors": ["mlpaper/perf_curves.py:roc_curve", "mlpaper/perf_curves.py:_add_pseudo_points"]}
{"id": "C47", "title": "AUC is the Mann-Whitney probability", "statement": "area(roc_curve) equals the (weighted) probability that a random positive outscores a random negative, ties counting one half; it is in [0,1].", "quantifier": "every two-class input and positive weights", "why_tests_cant": "an identity for all inputs", "anchors": ["mlpaper/perf_curves.py:roc_curve", "mlpaper/util.py:area"]}
{"id": "C48", "title": "AUC depends only on the ranking", "statement": "AUC is unchanged by any strictly increasing transformation of scores and by reordering samples; negating the scores or swapping the classes gives 1 - AUC; perfect separation gives 1 and constant scores give 1/2.", "quantifier": "every two-class input", "why_tests_cant": "all inputs and transformations", "anchors": ["mlpaper/perf_curves.py:roc_curve", "mlpaper/classification.py:curve_boot"]}
{"id": "C49", "title": "Single-class data give AUC 1/2", "statement": "If all samples are positive or all negative, roc_curve is the diagonal and its area is exactly 1/2; recall_precision's area is the (pseudo) base rate and prg's is 0.", "quantifier": "every single-class input and weights", "why_tests_cant": "all inputs", "anchors": ["mlpaper/perf_curves.py:_add_pseudo_points"]}
{"id": "C50", "title": "Recall-precision curve is well formed", "statement": "In exact arithmetic, for every positive weights: recall is non-decreasing from 0 to 1, precision is in [0,1] and equals tps/(tps+fps) at each threshold, the final precision is the base rate, and the area is in [0,1]. In doubles this shape holds without weights; with weights that differ by more than 2^53 the promise is refuted: a weight lost in the running sum makes an assertion fire.", "quantifier": "every input", "why_tests_cant": "all inputs; the failing weights need a ratio near 1e16", "anchors": ["mlpaper/perf_curves.py:recall_precision_curve", "mlpaper/util.py:area"]}
{"id": "C51", "title": "Precision-recall-gain curve is well formed", "statement": "In exact arithmetic, for every positive weights: recall gain is non-decreasing, in [0,1], ends at 1; precision gain is never NaN or +inf, is <= 1 and ends at 0; no assertion fires; the area is <= 1 and never NaN (it may be -inf). In doubles the shape holds without weights; with extreme weights the precision gain can be NaN and check_curve fails (refuted).", "quantifier": "every input", "why_tests_cant": "division by zero / -inf handling for all inputs", "anchors": ["mlpaper/perf_curves.py:prg_curve", "mlpaper/util.py:area"]}
{"id": "C52", "title": "Integer weights equal replicated data", "statement": "With positive integer weights every curve equals the unweighted curve of the data set with sample i repeated weight_i times.", "quantifier": "every input and integer weights >= 1", "why_tests_cant": "all inputs", "anchors": ["mlpaper/perf_curves.py:_binary_clf_curve"]}
{"id": "C53", "title": "Standard curves always satisfy check_curve and can be evaluated on [0,1] grids", "statement": "For the three standard curves check_curve(result, x_grid) passes and interp1d returns a value without extrapolation for every non-empty sorted grid in [0,1].", "quantifier": "every input, every grid", "why_tests_cant": "all inputs", "anchors": ["mlpaper/classification.py:check_curve", "mlpaper/classification.py:curve_boot"]}
{"id": "C54", "title": "curve_boot succeeds on every valid input, except pairwise precision-recall-gain", "statement": "For every valid binary input and every bootstrap outcome curve_boot succeeds in exact arithmetic and returns an area in range, a p-value in [0,1] and grid bounds LB <= UB in range: for ROC and recall-precision with or without pairwise_CI, for precision-recall-gain without pairwise_CI or against a scalar. That pairwise comparison of precision-recall-gain areas always succeeds is refuted: comparing the reference with itself fails if its area is -inf.", "quantifier": "every input and bootstrap outcome", "why_tests_cant": "needs a bootstrap replicate where both AUPRG are -inf", "anchors": ["mlpaper/classification.py:curve_boot", "mlpaper/classification.py:curve_summary_table"]}
{"id": "C55", "title": "clip_EB stays between the minimum and the trivial error bar", "statement": "For non-NaN inputs in the documented domain, clip_EB returns a value in [min_EB, max(upper-mu, mu-lower)], leaves EB unchanged if already inside, and clipping never loses part of [lower, upper] that the unclipped interval covered; NaN error bars stay NaN; it raises ValueError iff mu is outside the limits or 2*min_EB exceeds the range, and nothing else unless the width of two finite limits overflows (in exact arithmetic never).", "quantifier": "every double incl. infinities", "why_tests_cant": "special-value arithmetic", "anchors": ["mlpaper/mlpaper.py:clip_EB"]}
{"id": "C56", "title": "Bernstein p-value and error bar are coherent", "statement": "For at least two finite data points in [lower, upper] with lower < upper, bernstein_test(x) < 1 - c iff |mean(x)| > bernstein_EB(x, c): zero is outside [mean-EB, mean+EB] exactly when the test rejects; the p-value is in [0,1] and the bar is the empirical Bernstein bound std*sqrt(2A/n) + 3A(upper-lower)/n, A = ln(3/(1-c)). Unbounded limits give p = 1 and an infinite bar; point-mass limits give p = 1 and a zero bar.", "quantifier": "every data vector in [lower, upper], every c in (0,1)", "why_tests_cant": "real-valued identity (roots of a quadratic) for all inputs", "anchors": ["mlpaper/mlpaper.py:bernstein_test", "mlpaper/mlpaper.py:bernstein_EB"]}
{"id": "C57", "title": "t p-value and error bar are coherent", "statement": "For at least two finite data points, t_test(x) < 1 - c iff |mean(x)| > t_EB(x, c), the bar is quantile((1+c)/2) times the standard error and p is twice the tail probability of |mean|/standard error, for any symmetric strictly decreasing survival function with its inverse; degenerate inputs (length <= 1 or non-finite) give p = 1 and EB = inf.", "quantifier": "every data vector and c in (0,1)", "why_tests_cant": "all real inputs", "anchors": ["mlpaper/mlpaper.py:t_test", "mlpaper/mlpaper.py:t_EB"]}
{"id": "C58", "title": "Error bars grow with confidence and scale with the data", "statement": "t_EB and bernstein_EB grow with the confidence; replacing the data (and limits) by k*x+s multiplies them by |k| and maps the mean to k*mean+s; the p-values do not change under x -> k*x, k != 0.", "quantifier": "every data vector and confidences", "why_tests_cant": "all real inputs", "anchors": ["mlpaper/mlpaper.py:t_EB", "mlpaper/mlpaper.py:bernstein_EB"]}
{"id": "C59", "title": "Bootstrap means stay within the data range, so clipping never bites", "statement": "In exact arithmetic every bootstrap mean lies in [min x, max x], hence boot_EB <= max(upper - mean, mean - lower) and get_mean_and_EB returns mean and bar unclipped; with the same draw, data k*x+s (k > 0) multiply the bar by k. For doubles the range claim is false (refuted: three times 0.1).", "quantifier": "every finite data vector, every multinomial outcome", "why_tests_cant": "all RNG outcomes", "anchors": ["mlpaper/mlpaper.py:_boot_EB_and_test", "mlpaper/mlpaper.py:boot_EB", "mlpaper/mlpaper.py:clip_EB"]}
{"id": "C60", "title": "loss_summary_table fills every cell from the right columns", "statement": "For every metric and method: mean = mean of that loss column; non-pairwise error = error bar of that column within the metric's limits; pairwise error and the p-value are computed from loss - loss_ref within (-range, range); the reference row has NaN p-value (and NaN error when pairwise). No other column influences the cell, and mean and p-value do not depend on pairwise_CI.", "quantifier": "every loss table, reference, limits and error-bar method", "why_tests_cant": "all tables", "anchors": ["mlpaper/mlpaper.py:loss_summary_table"]}
{"id": "C61", "title": "Which infinite losses are summarised and which are fatal", "statement": "For a complete NaN-free table within its limits, loss_summary_table returns iff no method shares an infinite loss of the same sign with the reference on the same row and, without pairwise_CI, no column contains both infinities (with pairwise_CI: no difference column does); in particular +inf losses against a finite reference are accepted. (The claim that every NaN-free table is accepted is refuted.)", "quantifier": "every NaN-free table", "why_tests_cant": "needs method and reference infinite at the same data point", "anchors": ["mlpaper/mlpaper.py:loss_summary_table", "mlpaper/mlpaper.py:t_test"]}
{"id": "C62", "title": "A loss table inside its limits is accepted in exact arithmetic", "statement": "If every loss is finite and within its limits, loss_summary_table does not raise, in exact arithmetic, for all three error-bar methods and every bootstrap draw. For doubles this is refuted: three losses 0.1 with limits (0, 0.1) raise AssertionError.", "quantifier": "every table within limits", "why_tests_cant": "float mean may exceed the maximum by an ulp", "anchors": ["mlpaper/mlpaper.py:loss_summary_table", "mlpaper/util.py:clip_chk"]}
{"id": "C63", "title": "Bayes-optimal decisions", "statement": "hard_loss_decision returns for every row an action whose expected loss under the predictive distribution is minimal, the first one on ties; for the 0-1 loss it is, in exact arithmetic, the first most probable label. In any arithmetic it is the first minimiser of the computed expected losses; with doubles it need not be the most probable label (refuted): the expected losses of two labels with different probabilities can round to the same number.", "quantifier": "every prediction matrix (incl. zero probabilities), every loss matrix with >= 1 action", "why_tests_cant": "all matrices", "anchors": ["mlpaper/classification.py:hard_loss_decision", "mlpaper/classification.py:hard_loss"]}
{"id": "C64", "title": "hard_loss stays in the loss matrix range and is optimal in expectation", "statement": "hard_loss(y) equals loss_mat[y, action]; the 0-1 loss is 0 or 1 and 0 iff the decision is y; averaging over y drawn from the prediction no other constant action does better.", "quantifier": "every input", "why_tests_cant": "all inputs", "anchors": ["mlpaper/classification.py:hard_loss"]}
{"id": "C65", "title": "Log loss is a strictly proper scoring rule", "statement": "With normalized predictions log_loss >= 0, is 0 iff the label has probability 1, and its expectation under distribution p is minimised over q exactly at q = p.", "quantifier": "all pairs of distributions with full-support q or p << q", "why_tests_cant": "real inequality (Gibbs) for all distributions", "anchors": ["mlpaper/classification.py:log_loss"]}
{"id": "C66", "title": "Brier loss is proper and correctly rescaled", "statement": "brier_loss is 0 for a perfect prediction, 1 (rescaled, >= 2 labels) for the uniform one, between 0 and 2*L/(L-1), and its expectation under p is minimised exactly at q = p.", "quantifier": "all distributions and label counts", "why_tests_cant": "real inequality for all distributions", "anchors": ["mlpaper/classification.py:brier_loss"]}
{"id": "C67", "title": "Spherical loss is proper and correctly rescaled", "statement": "spherical_loss is 0 for a perfect prediction, 1 (rescaled, >= 2 labels) for the uniform one, in [0, 1/(1-1/sqrt L)], insensitive to normalisation of the prediction, and its expectation under p is minimised at q = p.", "quantifier": "all distributions and label counts", "why_tests_cant": "Cauchy-Schwarz for all distributions", "anchors": ["mlpaper/classification.py:spherical_loss"]}
{"id": "C68", "title": "loss_table prevents cheating by unnormalised predictions", "statement": "With assume_normalized=False, adding any constant per row to a method's log predictions leaves every loss unchanged, and the log loss is never negative, for rows of log probabilities (real or -inf, at least one real). The NaN check is made before the renormalisation: a row of all -inf, or with +inf, passes it and gets a NaN loss.", "quantifier": "every prediction table, every metric function", "why_tests_cant": "all tables and offsets", "anchors": ["mlpaper/classification.py:loss_table", "mlpaper/util.py:normalize"]}
{"id": "C69", "title": "Probability floor keeps rows normalised and ranked", "statement": "get_pred_log_prob's flooring yields rows that sum to 1, never reverses the order of two labels, and bounds every log probability below by min_log_prob - log(1 + n_labels*exp(min_log_prob)) when the method's own rows were normalised.", "quantifier": "every prediction row and floor < 0", "why_tests_cant": "all rows", "anchors": ["mlpaper/classification.py:get_pred_log_prob"]}
{"id": "C70", "title": "Which reported log probabilities respect min_log_prob", "statement": "For a normalised row all reported log probabilities are >= min_log_prob iff all original ones were; as soon as one label is strictly below the floor, every label at or below the floor is reported strictly below min_log_prob (so min_log_prob is not a floor on what is reported: refuted).", "quantifier": "every prediction row and floor < 0", "why_tests_cant": "renormalising after flooring pushes values below the floor again", "anchors": ["mlpaper/classification.py:get_pred_log_prob"]}
{"id": "C71", "title": "Classification JustNoise predicts the smoothed label frequencies", "statement": "After fit, exp(predict_log_proba) is the same for every test row, sums to 1, and equals (count_k + pseudo)/(n + L*pseudo); with pseudo_count=0 it is the only minimiser of the mean training log loss among constant predictions. Boolean labels raise AssertionError.", "quantifier": "every non-empty training label vector, pseudo_count >= 0", "why_tests_cant": "all vectors", "anchors": ["mlpaper/classification.py:JustNoise"]}
{"id": "C72", "title": "Regression losses are non-negative and zero only on perfect prediction", "statement": "In exact arithmetic square_loss and abs_loss are >= 0 and 0 iff y = mu. In doubles both are >= 0 and abs_loss is 0 iff y = mu, but square_loss being 0 only for y = mu is refuted (the square underflows). log_loss for fixed std is minimised exactly at mu = y, and for fixed error is minimised over std at |y - mu|.", "quantifier": "every finite y, mu and std > 0", "why_tests_cant": "all reals", "anchors": ["mlpaper/regression.py:square_loss", "mlpaper/regression.py:abs_loss", "mlpaper/regression.py:log_loss"]}
{"id": "C73", "title": "Regression JustNoise is the best constant Gaussian", "statement": "JustNoise's mean minimises the training mean squared error among constants and its (mean, std) minimise the training mean log loss among constant Gaussians (non-constant data); predictions are the same for every test row. Constant training data give std 0, on which log_loss raises AssertionError; fewer than two points raise in fit.", "quantifier": "every training vector with >= 2 points", "why_tests_cant": "all reals", "anchors": ["mlpaper/regression.py:JustNoise", "mlpaper/regression.py:log_loss"]}
{"id": "C74", "title": "min_std floors the predicted standard deviation", "statement": "get_gauss_pred reports std >= min_std for every method and row whose predicted std is not NaN (NaN is reported as NaN), leaving larger values and all means unchanged; if min_std > 0 the log loss of every finite prediction is finite.", "quantifier": "every prediction table", "why_tests_cant": "all tables", "anchors": ["mlpaper/regression.py:get_gauss_pred"]}
{"id": "C75", "title": "Checkpointed benchmark survives a crash at any point", "statement": "With a checkpoint directory, after any sequence of runs interrupted between or during method fits, a completed rerun returns the same prediction table as one uninterrupted run without checkpoints, for deterministic methods, and does not refit a method whose result was stored.", "quantifier": "every set of methods, every history of crash points", "why_tests_cant": "all crash points and histories", "anchors": ["mlpaper/classification.py:get_pred_log_prob", "mlpaper/regression.py:get_gauss_pred"]}
{"id": "C76", "title": "loss_table stores each loss under its own label", "statement": "loss_tbl.loc[i, (metric, method)] is metric_f applied to y and that method's (normalised) predictions at row i; one column per metric x method, rows in input order.", "quantifier": "every table and metric dictionary", "why_tests_cant": "all tables", "anchors": ["mlpaper/classification.py:loss_table", "mlpaper/regression.py:loss_table"]}
{"id": "C77", "title": "curve_summary_table marks the reference and keeps methods independent", "statement": "Each (method, curve) cell triple comes from curve_boot of that method against the reference; the entry of a method does not depend on the other methods besides the reference. The reference row has NaN p-value always and NaN error if pairwise_CI; without pairwise_CI its error is not NaN when its area is finite. The curve dump has one entry per pair, with one row per grid point and LB <= UB on every row. For ROC and recall-precision curves (and precision-recall-gain, if not pairwise) of real scores the table is always produced and all areas and bounds are in [0, 1] (at most 1 for precision-recall-gain) and p-values in [0, 1]. A reference that is not in the table, labels of another length, an empty table, an empty dictionary of curves and a reference frame of another shape are refused with AssertionError.", "quantifier": "every prediction table, curve dictionary and bootstrap outcome", "why_tests_cant": "all tables and RNG outcomes", "anchors": ["mlpaper/classification.py:curve_summary_table", "mlpaper/classification.py:curve_boot"]}
{"id": "C78", "title": "clip_chk only absorbs rounding errors", "statement": "clip_chk(a, lo, hi) returns the point of [lo, hi] nearest to a, and it returns only if a was already inside or np.isclose to one of the limits (|a - limit| <= 1e-8 + 1e-5 |limit|; infinities only to themselves); otherwise, and for NaN, it raises AssertionError. Values inside are returned unchanged, bit for bit.", "quantifier": "every value and interval; doubles and exact arithmetic", "why_tests_cant": "every distance to the limits, every scale", "anchors": ["mlpaper/util.py:clip_chk"]}
{"id": "C79", "title": "The exported table is readable and says the truth about the input", "statement": "On a table of finite means, non-negative or non-finite errors and p-values in [0, 1] or NaN (means representable in 28 digits), just_format_it with a shift modulus never fails. The frame it renders, as plain text or as LaTeX, has the methods as rows and two columns per metric. However the header of an estimate column is read (SI prefix or power of ten), undoing the shift it announces turns each entry of the column into a correctly rounded value of the original mean, with an error that is not understated, or into a correct bound; the p column never understates.", "quantifier": "every table, unit dictionary, clip limits, modulus and renderer", "why_tests_cant": "all tables and options, any pandas renderer", "anchors": ["mlpaper/sciprint.py:just_format_it", "mlpaper/sciprint.py:table_to_string", "mlpaper/sciprint.py:table_to_latex", "mlpaper/sciprint.py:format_table", "mlpaper/sciprint.py:adjust_headers"]}
{"id": "C80", "title": "When the default table export fails", "statement": "With its default settings (no shift, no limits) just_format_it raises ValueError exactly if some error bar is above 99, or some mean without a usable error bar (infinite, NaN or 0) is at least 99999.5 in magnitude. Otherwise it succeeds and every header announces no shift.", "quantifier": "every clean table", "why_tests_cant": "the exact thresholds over all doubles", "anchors": ["mlpaper/sciprint.py:just_format_it", "mlpaper/sciprint.py:format_table", "mlpaper/sciprint.py:decimalize"]}
{"id": "C81", "title": "LaTeX column specification fits the table", "statement": "The column_format that table_to_latex passes on has one letter for the index and one for each column: l, then S for each estimate and r for each p-value column; every header is wrapped in braces as siunitx S columns require.", "quantifier": "every formatted table", "why_tests_cant": "all numbers of metrics", "anchors": ["mlpaper/sciprint.py:table_to_latex", "mlpaper/sciprint.py:adjust_headers"]}
{"id": "C82", "title": "Non-finite estimates are never displayed as such", "statement": "just_format_it never succeeds on a table with a NaN mean, nor on one with a mean of +inf (-inf) for a metric without crap_limit_max (crap_limit_min). The documented non_finite_fmt entries for estimates therefore have no effect: the output depends on non_finite_fmt only through the text for nan, used for p-values.", "quantifier": "every table and option", "why_tests_cant": "all tables, all dictionaries", "anchors": ["mlpaper/sciprint.py:just_format_it", "mlpaper/sciprint.py:format_table", "mlpaper/sciprint.py:print_estimate"]}
{"id": "C83", "title": "Predictions are fitted, floored and checked as documented", "statement": "get_pred_log_prob succeeds exactly if the inputs have the documented form (2-d features or more, as many training labels as rows, labels 0..n_labels-1, same dtype and number of features, a non-empty test set, a negative floor) and every estimator predicts one row per test point and one column per label that normalize accepts; predict_log_proba is used, or the log of predict_proba if that raises. get_gauss_pred succeeds exactly if the inputs have the documented form and every estimator predicts a mean and a std per test point, std being 1 if predict does not take return_std. The table then holds exactly these predictions, floored, under the names given.", "quantifier": "every data set, estimator and floor; any arithmetic", "why_tests_cant": "all shapes and estimators", "anchors": ["mlpaper/classification.py:get_pred_log_prob", "mlpaper/regression.py:get_gauss_pred"]}
{"id": "C84", "title": "Every cell of the classification benchmark is about its own method", "statement": "just_benchmark returns one loss cell per metric and method and one curve cell per method and curve. The loss cell of a method is computed from the losses of that method's own floored and normalised predictions and those of the reference; the curve cell is curve_boot of its predictions against the reference's. Hence adding, removing or reordering other methods, losses or curves changes no cell.", "quantifier": "every data set, estimators, dictionaries and bootstrap draws; any arithmetic", "why_tests_cant": "all sets of methods", "anchors": ["mlpaper/classification.py:just_benchmark", "mlpaper/classification.py:summary_table"]}
{"id": "C85", "title": "The classification benchmark is binary only", "statement": "classification.just_benchmark returns only if n_labels = 2, there is at least one loss and one curve, the reference is among the methods and all test labels are 0 or 1. The documented n_labels >= 1 is not enough: with any other number of labels, or without curves, it always raises.", "quantifier": "every input; any arithmetic", "why_tests_cant": "all label counts", "anchors": ["mlpaper/classification.py:just_benchmark", "mlpaper/classification.py:curve_boot"]}
{"id": "C86", "title": "The classification benchmark always succeeds with a probability floor", "statement": "In exact arithmetic, with two labels and a finite floor, just_benchmark returns for all estimators predicting log probabilities (real or -inf), all losses of classification.py (within limits at least as wide as their range), ROC and recall-precision curves (and, without pairwise_CI, precision-recall-gain), all three error bar methods and every bootstrap draw. All mean losses are finite and within their limits, errors non-negative, p-values and areas in [0, 1].", "quantifier": "every data set, estimators and draws", "why_tests_cant": "all predictions and RNG outcomes", "anchors": ["mlpaper/classification.py:just_benchmark", "mlpaper/classification.py:summary_table", "mlpaper/mlpaper.py:loss_summary_table"]}
{"id": "C87", "title": "The regression benchmark needs positive standard deviations only", "statement": "regression.just_benchmark returns one cell per loss and method, computed from the losses of that method's own predictions (std raised to min_std) and those of the reference, independent of the other methods and losses. In exact arithmetic, for finite predictions and the losses of regression.py, it succeeds exactly if min_std or the predicted std is positive at every point of every method, and otherwise raises AssertionError; all means are then finite and within limits, errors non-negative, p-values in [0, 1].", "quantifier": "every data set, estimators and draws", "why_tests_cant": "all predictions and RNG outcomes", "anchors": ["mlpaper/regression.py:just_benchmark", "mlpaper/regression.py:loss_table", "mlpaper/mlpaper.py:loss_summary_table"]}
{"id": "C88", "title": "A method identical to the reference is never called different", "statement": "If a method has exactly the losses (or predictions) of the reference, then loss_summary_table (or curve_summary_table, for any curve) gives it the reference's mean and p-value exactly 1, with the t-test, Bernstein and bootstrap methods, in doubles as in exact arithmetic. With pairwise_CI its error is 0 (t and bootstrap, two points or more; curves with a finite area); without, its error is that of the reference.", "quantifier": "every table, limits, confidence, bootstrap draw and curve function; every math library with exp(0) = 1 and a NaN-propagating t distribution", "why_tests_cant": "rounding could leave a nonzero difference or statistic for some of the doubles", "anchors": ["mlpaper/mlpaper.py:loss_summary_table", "mlpaper/mlpaper.py:get_mean_EB_test", "mlpaper/classification.py:curve_summary_table", "mlpaper/boot_util.py:significance"]}
{"id": "C89", "title": "It does not matter which of two methods is the reference", "statement": "The p-value of method b against reference a is the same double as that of a against b (bootstrap: for the same draws), in loss tables and curve tables, although all differences change sign. The pairwise error is the same too: for t and Bernstein in doubles, for all methods and curves in exact arithmetic. In doubles the pairwise bootstrap error of a curve can depend on it (refuted by an example): the two percentile indices are rounded differently.", "quantifier": "every table, limits, confidence and curve function; any math library", "why_tests_cant": "all doubles and orders of summation", "anchors": ["mlpaper/mlpaper.py:loss_summary_table", "mlpaper/mlpaper.py:get_test", "mlpaper/classification.py:curve_boot", "mlpaper/boot_util.py:significance", "mlpaper/boot_util.py:error_bar"]}
{"id": "C90", "title": "The mean loss never trips its own sanity check", "statement": "In doubles, for 1 to 2^30 losses within (lower, upper), where each limit is infinite or at most 2^900 in size and one is finite (or both are infinite and the losses are finite with a total size of at most 2^990), the assertion in clip_chk on the mean does not fire and the mean reported by get_mean_and_EB and get_mean_EB_test lies within the limits: these fail only if the error bar or the test does. Beyond these sizes it can fire: two losses of 2^1023 in (0, 2^1023), and without limits finite losses whose exact mean is 0 but whose pairwise sum is NaN.", "quantifier": "every vector of up to 2^30 doubles, every error bar method", "why_tests_cant": "overflow and rounding in every position of the sum", "anchors": ["mlpaper/util.py:clip_chk", "mlpaper/mlpaper.py:get_mean_and_EB", "mlpaper/mlpaper.py:get_mean_EB_test"]}
{"id": "C91", "title": "The reported mean is the exact mean up to rounding", "statement": "For n <= 2^30 finite losses with a total size of at most 2^990, the mean in doubles (numpy's pairwise summation), the mean returned by get_mean_and_EB and get_mean_EB_test after clipping, and the mean in every cell of loss_summary_table are finite and differ from the exact mean of the losses by at most (n + 1) 2^-52 times the mean magnitude, plus 2^-1075.", "quantifier": "every vector of up to 2^30 doubles, every method and table", "why_tests_cant": "error accumulation over all lengths and values", "anchors": ["mlpaper/mlpaper.py:get_mean_and_EB", "mlpaper/mlpaper.py:get_mean_EB_test", "mlpaper/mlpaper.py:loss_summary_table"]}
{"id": "C92", "title": "In doubles a loss table fails only if a rounded mean leaves its limits", "statement": "For 1 to 2^30 finite losses of size at most 2^400, within limits that are infinite or at most 2^400 in size and either equal or 2^-400 apart, a confidence in (0, 1 - 2^-52], any of the three error bar methods and any bootstrap draw, loss_summary_table with pairwise_CI always returns; without it, it returns exactly if the rounded mean of every column lies within the limits of its metric. With limits of few bits (infinite, 0, 1, 0.5, any m 2^e with m <= 2^22) that is always so: both modes always return. The largest double below one is a confidence for which it can raise: its quantile is infinite.", "quantifier": "every table of such doubles, every draw, any math library with the monotonicity and sign properties of good_library", "why_tests_cant": "rounding, overflow and NaN in every step of the three estimators", "anchors": ["mlpaper/mlpaper.py:loss_summary_table", "mlpaper/mlpaper.py:get_mean_and_EB", "mlpaper/mlpaper.py:get_mean_EB_test", "mlpaper/mlpaper.py:t_EB", "mlpaper/mlpaper.py:bernstein_EB", "mlpaper/mlpaper.py:bernstein_test", "mlpaper/mlpaper.py:boot_EB"]}
{"id": "C93", "title": "In doubles loss tables hold sane numbers", "statement": "Whenever loss_summary_table returns on such a table, in doubles, every mean is the (finite) mean of its column, every error bar is a number that is at least zero (NaN only for the reference with pairwise_CI) and every p-value a number in [0, 1] (NaN only for the reference).", "quantifier": "every table of such doubles, every draw, any math library with the properties of good_library", "why_tests_cant": "no NaN or negative number in any position", "anchors": ["mlpaper/mlpaper.py:loss_summary_table", "mlpaper/mlpaper.py:clip_EB", "mlpaper/mlpaper.py:t_test", "mlpaper/mlpaper.py:bernstein_test", "mlpaper/mlpaper.py:boot_test"]}
{"id": "C94", "title": "In doubles the regression benchmark succeeds and reports sane numbers", "statement": "regression.just_benchmark in doubles, on up to 2^30 test points, with targets and predicted means of size at most 2^100 and predicted standard deviations that lie in [2^-90, 2^90] after raising them to min_std, returns for square and absolute loss (any lower limit of few bits that is at most 0) and log loss, all three error bar methods, both interval modes and any bootstrap draw. It has one cell per loss and method; the mean is the finite mean of the losses of that method's own predictions and lies within the limits, errors are numbers >= 0 and p-values numbers in [0, 1] except the documented NaN of the reference.", "quantifier": "every data set, estimators of such doubles and draws; any math library with the properties of good_library and a log of moderate size", "why_tests_cant": "overflow, rounding and NaN along the whole pipeline", "anchors": ["mlpaper/regression.py:just_benchmark", "mlpaper/regression.py:square_loss", "mlpaper/regression.py:abs_loss", "mlpaper/regression.py:log_loss", "mlpaper/regression.py:loss_table", "mlpaper/mlpaper.py:loss_summary_table"]}
{"id": "C95", "title": "normalize works in doubles and is accurate", "statement": "In doubles, for rows of 1 to 2^30 log probabilities that are -inf or finite (size up to 2^900) with at least one finite entry, normalize returns; no result is NaN or positive, exactly the -inf entries stay -inf, finite entries stay finite and the order of the entries is kept. If exp and log are accurate to 2^-50, n entries of size at most A <= 2^30 differ from the exact normalised values by at most (n + A) 2^-47, and the probabilities sum to one up to (n + A) 2^-46. This holds for every order in which numpy may add up a row.", "quantifier": "every matrix of such doubles, every order of addition, any exp and log with the stated properties", "why_tests_cant": "overflow, cancellation and error accumulation in all positions", "anchors": ["mlpaper/util.py:normalize"]}
{"id": "C96", "title": "In doubles the classification losses stay in range", "statement": "For rows of normalised log probabilities (at most 0, -inf or finite, one finite) and valid labels, in doubles: log loss without excluded labels is finite and >= 0; Brier loss is finite and in [0, n_labels] ([0, 2 n_labels] rescaled), spherical loss in [-1, 0] ([0, 4] rescaled), hard loss is an entry of the loss matrix and in [0, 1] for the default matrix. None of them raises.", "quantifier": "every prediction matrix of such doubles, all labels, every order of addition, any exp and log with the stated properties", "why_tests_cant": "rounding in all sums, NaN from infinities", "anchors": ["mlpaper/classification.py:log_loss", "mlpaper/classification.py:brier_loss", "mlpaper/classification.py:spherical_loss", "mlpaper/classification.py:hard_loss"]}
{"id": "C97", "title": "In doubles classification loss tables exist and hold sane numbers", "statement": "For estimators predicting log probabilities that are -inf or of size at most 2^100, get_pred_log_prob in doubles returns a table of normalised rows, all finite if the floor is. On a table of such scores loss_table returns for the losses of classification.py (log loss only if no label is excluded), and loss_summary_table, with limits of few bits at least as wide as the range of the loss, returns for all error bar methods, both interval modes and every draw: one cell per loss and method, the mean is the finite mean of the method's own losses and within limits, errors are numbers >= 0 and p-values numbers in [0, 1] except the documented NaN of the reference.", "quantifier": "every data set, any number of labels and draws; any math library with the properties of good_library and exp_log", "why_tests_cant": "overflow, rounding and NaN along the whole pipeline", "anchors": ["mlpaper/classification.py:get_pred_log_prob", "mlpaper/classification.py:loss_table", "mlpaper/util.py:normalize", "mlpaper/mlpaper.py:loss_summary_table"]}
{"id": "C98", "title": "In doubles bootstrapped curves exist and hold sane numbers", "statement": "curve_boot in doubles returns for finite scores and labels 0/1 of up to 100000 samples, provided there are at most 5000 samples, no negative sample, or a negative sample is drawn in every replicate; for ROC, recall-precision and precision-recall-gain curves, up to 2^53 replicates, any bootstrap draw, confidence in (0, 1), grid in [0, 1] and reference (pairwise precision-recall-gain: a number). The area is finite and in [0, 1 + 2^-35] (gain: -inf or at most 1 + 2^-35), the p-value in [0, 1], the error bar not negative; at each grid point the curve and its bounds are in [0, 1 + 2^-49] (ROC), [0, 1] (recall-precision) or at most 1 (gain), with lower bound <= upper bound.", "quantifier": "every data set of such doubles and every multinomial draw", "why_tests_cant": "the weight 1e-10 of samples not drawn is lost in running sums only for some draws; rounding in every position", "anchors": ["mlpaper/classification.py:curve_boot", "mlpaper/perf_curves.py:_binary_clf_curve", "mlpaper/perf_curves.py:roc_curve", "mlpaper/perf_curves.py:recall_precision_curve", "mlpaper/perf_curves.py:prg_curve", "mlpaper/util.py:area", "mlpaper/util.py:interp1d"]}
{"id": "C99", "title": "From a million samples on, one unlucky draw makes curve_boot fail", "statement": "In exact arithmetic the bootstrapped curves exist for every draw; in doubles they do not. For every number of samples n from 2^20 + 2 to 2^30 there are 0/1 labels with both classes, finite log probabilities and a multinomial draw without a count above 2 such that curve_boot raises AssertionError for recall-precision and precision-recall-gain curves whenever that draw is among the replicates, whatever the other replicates, reference, grid, confidence and interval mode are: the 1e-10 given to the only negative sample, which was not drawn, vanishes in the running sum of the weights and the precision at the first threshold is 0/0.", "quantifier": "every n from 2^20 + 2 to 2^30, all other replicates, references, grids and confidences", "why_tests_cant": "needs a million samples, one negative with the top score and a draw without it; rounding residue after each of a million additions", "anchors": ["mlpaper/classification.py:curve_boot", "mlpaper/perf_curves.py:_binary_clf_curve", "mlpaper/perf_curves.py:_add_pseudo_points", "mlpaper/perf_curves.py:recall_precision_curve", "mlpaper/perf_curves.py:prg_curve", "mlpaper/boot_util.py:boot_weights"]}
{"id": "C100", "title": "In doubles the binary classification benchmark succeeds and reports sane numbers", "statement": "classification.just_benchmark in doubles with two labels, a finite floor min_log_prob of size at most 2^100, estimators predicting log probabilities that are -inf or of size at most 2^100, up to 100000 test points (above 5000 with negative samples: one of them is drawn in each replicate) returns both tables for the losses of classification.py with limits as in C97, ROC and recall-precision curves and, without pairwise_CI, precision-recall-gain curves, all three error bar methods and any draw. The loss table has one cell per loss and method, the curve table one per method and curve. Means of losses are finite and within limits, areas finite and in [0, 1 + 2^-35] (gain: -inf or at most 1 + 2^-35), errors not negative, p-values in [0, 1], with the documented NaN of the reference and no other; the dumped curves are within their ranges with lower bound <= upper bound. The same holds for curve_summary_table on any table of finite scores, grid, confidence and number of replicates.", "quantifier": "every data set, estimators of such doubles, draws and orders of addition; any math library with the properties of good_library and exp_log", "why_tests_cant": "overflow, rounding and NaN along the whole pipeline, for all bootstrap draws", "anchors": ["mlpaper/classification.py:just_benchmark", "mlpaper/classification.py:summary_table", "mlpaper/classification.py:curve_summary_table", "mlpaper/classification.py:get_pred_log_prob", "mlpaper/classification.py:loss_table", "mlpaper/mlpaper.py:loss_summary_table"]}
{"id": "C101", "title": "Tables computed in doubles can be printed, unless intervals are pairwise", "statement": "Without pairwise_CI, every finite error bar other than 0 that the three methods and the bootstrapped curves report in doubles is at least 2^-86 times its mean, so the 28 digits of sciprint suffice: any frame made of entries of a loss table that loss_summary_table returned, of a regression benchmark or of a classification benchmark (areas of precision-recall-gain curves only if finite) under the conditions of C92, C94 and C100 is printed by just_format_it for every shift_mod >= 1, limits, units and format, truthfully in the sense of C79; with shift_mod=None it is refused exactly if some mean needs a shift (C80). This needs quantiles at least 1/2 apart (t) and log of at least 1/2 from 2 on (Bernstein). With pairwise_CI it is false: two samples on which the methods differ by 2^-300 and 0 give an error bar of about 1e-90 beside a mean of 0.5, and just_format_it raises for every frame with that entry unless EB_limit is given for the metric.", "quantifier": "every such table and benchmark, all draws, settings of just_format_it and math libraries with the stated properties", "why_tests_cant": "relates the rounding of sums, variances and percentiles to the digits available later in a different module", "anchors": ["mlpaper/sciprint.py:just_format_it", "mlpaper/sciprint.py:decimalize", "mlpaper/mlpaper.py:loss_summary_table", "mlpaper/mlpaper.py:t_EB", "mlpaper/mlpaper.py:bernstein_EB", "mlpaper/mlpaper.py:boot_EB", "mlpaper/boot_util.py:error_bar", "mlpaper/classification.py:just_benchmark", "mlpaper/regression.py:just_benchmark"]}
{"id": "C102", "title": "In doubles means and error bars are the exact ones up to rounding", "statement": "For 2 to 2^30 losses of size at most 2^400 and confidence in (0, 1), in doubles added in numpy's order: the standard deviation (either divisor) differs from the exact one s by at most (n + 12) 2^-52 (s + 3 A) + 2^-500, A the mean size of the losses. The t error bar that get_mean_and_EB and get_mean_EB_test return differs from the textbook value (half the distance of the library's quantiles times s / sqrt n, cut at the further limit) by that times the factor of s, plus the error of the mean and 2^-53 of the range; the Bernstein error bar, for finite limits and a logarithm of at least 1/2, likewise with 5 * 2^-52 of its offset 3 log(3/delta) range / n. The same holds for every cell of a loss_summary_table without pairwise intervals. For up to a million losses in [0, 1] the mean is right to 2^-31 and the t error bar to (factor + 1) 2^-29.", "quantifier": "every vector of such doubles, any quantiles and logarithm with the properties of good_library", "why_tests_cant": "a bound on the accumulated rounding of mean, squared deviations, their sum, division, square root and clipping together", "anchors": ["mlpaper/mlpaper.py:t_EB", "mlpaper/mlpaper.py:bernstein_EB", "mlpaper/mlpaper.py:get_mean_and_EB", "mlpaper/mlpaper.py:get_mean_EB_test", "mlpaper/mlpaper.py:clip_EB", "mlpaper/mlpaper.py:loss_summary_table"]}
{"id": "C103", "title": "In doubles areas under curves are the exact ones up to rounding", "statement": "For finite scores of 2 to 2^30 unweighted samples with both classes: every point of the ROC and recall-precision curve computed in doubles differs from the exact rate by at most (1 + 2^-10) 2^-53. The area under the ROC curve differs from the Mann-Whitney statistic, and the area under the recall-precision curve from that of the same program in exact arithmetic, by at most 12 d 2^-53, d the number of distinct scores; this is also what curve_boot reports, whatever is drawn. Up to 65536 samples the doubles therefore order two classifiers as the exact statistics do if these differ; if they are equal the doubles may differ (five samples with both areas 1/2, one computed below 1/2).", "quantifier": "every data set of such doubles, all draws, references, grids and confidences of curve_boot", "why_tests_cant": "needs the exact value beside the rounded one for all data; the order of 65536 samples follows from the spacing of the statistic", "anchors": ["mlpaper/perf_curves.py:roc_curve", "mlpaper/perf_curves.py:recall_precision_curve", "mlpaper/perf_curves.py:_binary_clf_curve", "mlpaper/util.py:area", "mlpaper/classification.py:curve_boot"]}
{"id": "C104", "title": "In doubles the losses are the exact ones up to rounding", "statement": "For log scores of A <= 2^26 in size (or -inf, not all) over L <= 2^26 labels, normalized and fed to the losses in doubles, row sums in any order: every Brier loss differs from the exact one of the probabilities proportional to exp of the scores by at most 2^-43 (L + A), every spherical loss by 2^-41 (L + A) (2^-44 without rescaling) and every log loss by 2^-47 (L + A), the log loss being inf exactly where the label has score -inf. hard_loss_decision picks an action whose exact expected loss exceeds that of no other action by more than 2^-44 (L + A) M, M the largest entry of the loss matrix. The mean of each cell of loss_summary_table differs from the mean of the exact losses by at most the bound of the metric plus the error of averaging n numbers. For regression, squared and absolute losses have a relative error of 2^-51 and 2^-53 and the Gaussian log loss an error of 2^-49 (quadratic term + |log constant| + |ln std| + 1).", "quantifier": "every matrix of such doubles, labels, loss matrix, order of addition; any exp and log within the stated relative error", "why_tests_cant": "bounds the accumulated rounding of shift, exp, sum, log, exp again, squares and square root for all inputs", "anchors": ["mlpaper/classification.py:log_loss", "mlpaper/classification.py:brier_loss", "mlpaper/classification.py:spherical_loss", "mlpaper/classification.py:hard_loss_decision", "mlpaper/classification.py:loss_table", "mlpaper/util.py:normalize", "mlpaper/mlpaper.py:loss_summary_table", "mlpaper/regression.py:square_loss", "mlpaper/regression.py:abs_loss", "mlpaper/regression.py:log_loss"]}
{"id": "C105", "title": "In doubles bootstrap intervals, error bars and p-values are the exact ones up to rounding", "statement": "percentile of n <= 2^53 finite replicates returns the order statistics of rank k and n - 1 - k, k = floor((1 - confidence)/2 (n - 1)), unless that product is within n 2^-50 of an integer. For n = 2 to 2^30 losses of size at most K <= 2^400 and any multinomial draw, each of the 1000 replicates of boot_EB and boot_test differs from the exact mean of the drawn sample by at most s = (n + 3) 2^-52 K + 2^-1070; the error bar from the one formed of the order statistics of the exact replicates around the exact mean by (n + 4) 2^-51 K + 2^-1068; the p-value from twice the smaller exact tail by 2^-51 plus 2/1000 for each exact replicate within s of zero. The same holds, with clipping, for get_mean_and_EB, get_mean_EB_test and every cell of a loss_summary_table with method_EB boot: p-values, and error bars with pairwise_CI, are those of the exact differences with the reference (s tripled, error bars to 10 s plus 2^-52 of the range).", "quantifier": "every vector of such doubles, all draws, confidences off the ranks, limits and loss tables", "why_tests_cant": "needs the exact order statistics beside the rounded ones for every draw; a rounding at rank or sign boundaries would move a whole replicate", "anchors": ["mlpaper/boot_util.py:percentile", "mlpaper/boot_util.py:error_bar", "mlpaper/boot_util.py:significance", "mlpaper/boot_util.py:boot_weights", "mlpaper/mlpaper.py:boot_EB", "mlpaper/mlpaper.py:boot_test", "mlpaper/mlpaper.py:get_mean_and_EB", "mlpaper/mlpaper.py:get_mean_EB_test", "mlpaper/mlpaper.py:loss_summary_table"]}
{"id": "C106", "title": "The statistics refuse unusable samples", "statement": "t_test, t_EB, bernstein_test, bernstein_EB, boot_test and boot_EB raise AssertionError on every sample with a NaN. The Bernstein functions raise it if the limits are crossed or a value is outside; get_mean_and_EB and get_mean_EB_test if a value is outside, for every method, and for an unknown method. Confidence outside (0, 1) is refused by t_EB, bernstein_EB, percentile and error_bar, and by boot_EB for two or more finite values. significance returns if replicates and reference have equal length and no NaN, and raises AssertionError otherwise; boot_weights returns exactly for N >= 1 and n_boot >= 1. Whatever the mathematical library computes, in doubles a p-value returned by the three tests is in [0, 1] and an error bar returned by the three methods not negative. loss_summary_table raises AssertionError if the reference is not among the methods or the table has no rows or metrics, and returns nothing if a metric has crossed limits or a column that is missing, has NaN or leaves the limits.", "quantifier": "every sample, limits, confidence, draw and loss table, in any arithmetic", "why_tests_cant": "a missing check goes unnoticed unless the very input it guards against is tried at every entry point", "anchors": ["mlpaper/mlpaper.py:t_test", "mlpaper/mlpaper.py:t_EB", "mlpaper/mlpaper.py:bernstein_test", "mlpaper/mlpaper.py:bernstein_EB", "mlpaper/mlpaper.py:boot_test", "mlpaper/mlpaper.py:boot_EB", "mlpaper/mlpaper.py:get_mean_and_EB", "mlpaper/mlpaper.py:get_mean_EB_test", "mlpaper/mlpaper.py:loss_summary_table", "mlpaper/boot_util.py:significance", "mlpaper/boot_util.py:boot_weights"]}
{"id": "C107", "title": "The curve functions refuse unusable samples", "statement": "roc_curve, recall_precision_curve and prg_curve raise AssertionError if labels and scores differ in number, there are none, a score is not finite, or weights are given with no rows, a row of wrong length, or an entry that is not finite or not positive. Finite positive weights whose sum overflows are not refused: with them roc_curve can return rates that are NaN, which only area and check_curve refuse. area raises it for fewer than two columns, NaN, or x and y of different length, and NotImplementedError otherwise for kind next, and never returns NaN; the one-dimensional interpolation for lengths that differ, fewer than two points or decreasing x. check_curve raises it for such rows, for infinite x or +inf y and for a grid reaching beyond a row, and never returns for an empty grid. curve_boot raises it for no samples, other than two columns, labels of wrong number, kind or value, NaN in predictions or reference, a reference of wrong shape and n_boot < 1. loss_table raises it for labels of wrong number and empty tables, and returns nothing if a method has the wrong labels or shape or a NaN.", "quantifier": "every data set, weights, grid, reference and table, in any arithmetic", "why_tests_cant": "a missing check goes unnoticed unless the very input it guards against is tried at every entry point", "anchors": ["mlpaper/perf_curves.py:_binary_clf_curve", "mlpaper/perf_curves.py:roc_curve", "mlpaper/perf_curves.py:recall_precision_curve", "mlpaper/perf_curves.py:prg_curve", "mlpaper/util.py:area", "mlpaper/util.py:interp1d", "mlpaper/classification.py:check_curve", "mlpaper/classification.py:curve_boot", "mlpaper/classification.py:loss_table"]}
{"id": "C108", "title": "Splitters and formatters refuse unusable input", "statement": "linear_split_series raises AssertionError on NaN, on a fraction outside [0, 1] and on an infinite value (if assumed sorted: at either end), and on an empty series IndexError if assumed sorted and ValueError if not. split_df raises AssertionError without splits, for an empty frame and for a column named INDEX, and returns nothing if any split names no column or no known kind, has nulls, or a fraction outside [0, 1]. create_decimal needs a digit, decimalize a p-value digit (and an error digit if there is a row), get_shift_range a non-empty list of finite numbers and shift_mod >= 1, find_shift lists of equal length, finite means and shift_mod >= 1, format_table a table whose metrics all have rows; otherwise AssertionError (error digits: no result). normalize refuses no columns, epsilon_noise values that are not finite and widths that are not positive (max_epsilon, and default_epsilon for at most one value), unique_take_last NaN, decreasing x and y of another length.", "quantifier": "every series, frame, list of splits, table and setting", "why_tests_cant": "a missing check goes unnoticed unless the very input it guards against is tried at every entry point", "anchors": ["mlpaper/data_splitter.py:linear_split_series", "mlpaper/data_splitter.py:split_df", "mlpaper/sciprint.py:create_decimal", "mlpaper/sciprint.py:decimalize", "mlpaper/sciprint.py:get_shift_range", "mlpaper/sciprint.py:find_shift", "mlpaper/sciprint.py:format_table", "mlpaper/util.py:normalize", "mlpaper/util.py:epsilon_noise", "mlpaper/util.py:unique_take_last"]}
