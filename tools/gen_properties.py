#!/usr/bin/env python3
"""Writes /verif/properties.jsonl (one JSON object per line)."""
import json, os
P = []
def add(title, statement, quantifier, why, anchors):
    P.append(dict(id="C%02d" % (len(P) + 1), title=title, statement=statement,
                  quantifier=quantifier, why_tests_cant=why, anchors=anchors))

SP = "mlpaper/sciprint.py"; DS = "mlpaper/data_splitter.py"; UT = "mlpaper/util.py"
BU = "mlpaper/boot_util.py"; PC = "mlpaper/perf_curves.py"; ML = "mlpaper/mlpaper.py"
CL = "mlpaper/classification.py"; RG = "mlpaper/regression.py"

# ---------------------------------------------------------------- sciprint
add("Printed estimate can be read back exactly",
    "When print_estimate returns the normal (unclipped, finite) form, reading the text back - the signed fixed-point number before '(' with the thousands commas dropped, and the integer in parentheses counted in units of the last printed place - recovers exactly mu*10^shift (same number of decimals) and EB*10^shift. If EB is not finite there is no parenthesis and the number alone is recovered.",
    "every finite Decimal mu of at most 28 digits, every EB (finite with the same exponent, zero, infinite or NaN), every integer shift that leaves mu defined to the dot",
    "unbounded coefficients, exponents and shifts; comma grouping and zero padding have a different shape for every digit count",
    [SP + ":print_estimate", SP + ":digit_str", "mlpaper/constants.py:GEN_FMT"])
add("print_estimate rejects exactly the unprintable shifts",
    "For finite, unclipped mu with EB zero/non-finite or of equal exponent and non-negative, print_estimate raises ValueError if and only if the shifted mu has a positive exponent (it would be displayed with more digits than are known); otherwise it returns a string, and that string never contains scientific notation 'E'.",
    "every finite mu, EB and shift", "an iff over all exponents and shifts",
    [SP + ":print_estimate", SP + ":decimal_to_dot"])
add("Clipped estimates are flagged on the right side with the right limit",
    "If mu > max_clip the output is '>' followed by max_clip*10^shift, if mu < min_clip it is '<' followed by min_clip*10^shift (both exactly readable as numbers), and otherwise the output carries no clip marker.",
    "every mu including infinities, every pair of limits, every shift",
    "all magnitudes of mu relative to the limits and infinities", [SP + ":print_estimate"])
add("create_decimal is correct rounding to significant digits",
    "create_decimal(x, digits, rounding) of a finite double returns a Decimal with at most `digits` digits that is the correctly rounded value of the exact binary value of x: for ROUND_CEILING the result is >= x and less than one unit in its last place above it; for ROUND_HALF_UP it is within half a unit in its last place. Infinities and NaN pass through.",
    "every IEEE double and every digits >= 1", "2^64 inputs times all digit counts; carries like 9.99 -> 10",
    [SP + ":create_decimal"])
add("Displayed error bars never understate the uncertainty",
    "In the table returned by decimalize, a finite error entry is at least the float error, and exceeds it by less than one unit in its last place; it has at most err_digits digits; it is infinite exactly when the rounded error exceeds 10**EB_limit (or was infinite).",
    "every double error bar >= 0, inf or NaN; every err_digits >= 1; every EB_limit", "must hold for every double",
    [SP + ":decimalize"])
add("Means are rounded to the last digit of their error bar",
    "When the decimalized error is finite and non-zero, the mean entry has the same exponent as the error entry and differs from the float mean by at most half a unit of that place, with exact ties going away from zero; decimalize fails only when this needs more than 28 digits.",
    "every finite double mean and every positive finite error", "must hold for every pair of doubles incl. ties and carries",
    [SP + ":decimalize"])
add("Rounded p-values are conservative and stay in [0,1]",
    "decimalize maps a p-value in [0,1] to a Decimal with exactly pval_digits decimals that is >= the float p-value, exceeds it by less than 10**-pval_digits, and is still in [0,1]; NaN stays NaN.",
    "every double in [0,1] and every pval_digits in 1..27", "must hold for every double",
    [SP + ":decimalize"])
add("'<0.0001' is truthful",
    "If the p-value printed by print_pval after decimalize starts with '<', the original float p-value is strictly smaller than the printed bound (10**-pval_digits); otherwise the printed number read back is the decimalized p-value and the float p-value is larger than the bound.",
    "every double p-value in [0,1], every pval_digits in 1..27",
    "the code comment says this 'sounds shaky'; it rests on no double being equal to 10**-k",
    [SP + ":print_pval", SP + ":decimalize"])
add("get_shift_range returns exactly the admissible shifts",
    "The returned bounds are multiples of shift_mod with min_shift <= max_shift; every shift <= max_shift keeps all numbers defined to the dot and max_shift + shift_mod does not; if all_small is False every shift in range makes some number's leading digit reach the units place and min_shift - shift_mod does not; if all_small is True no multiple of shift_mod satisfies both requirements and min_shift = max_shift.",
    "every non-empty list of finite Decimals, every shift_mod >= 1", "all list lengths, exponents and moduli",
    [SP + ":get_shift_range", SP + ":floor_mod", SP + ":ceil_mod"])
add("all_small=False promises a number >= 1, except when there are zeros",
    "If get_shift_range reports all_small=False and no number is zero then at every returned shift at least one number is >= 1 in absolute value. (The documentation promises this without the exception; with a zero in the list it is false.)",
    "every non-empty list of finite Decimals", "zero entries have an 'adjusted' exponent but no magnitude",
    [SP + ":get_shift_range"])
add("find_shift is optimal with the documented tie-break",
    "find_shift returns a multiple of shift_mod inside the admissible range whose longest printed estimate is as short as that of every other admissible shift, and among equally short ones has the smallest absolute value - whatever order the unstable argsort puts equal |shift| in.",
    "every list of (mean, error) pairs valid for printing, every shift_mod >= 1, every argsort result",
    "global optimality over an unbounded range; sort tie order is unspecified",
    [SP + ":find_shift", SP + ":str_print_len"])
add("Padding aligns the decimal points",
    "pad_num_str returns one string per input, each the input followed only by pad characters, such that counted from the right end all digits-before-the-decimal-point line up; the padding is minimal (some string gets none).",
    "every non-empty list of strings accepted by find_last_dig, any pad character", "all strings and list lengths",
    [SP + ":pad_num_str", SP + ":find_last_dig"])
add("Header unit prefix undoes the display shift",
    "For an estimate column with a unit, if a SI prefix is used its power of ten p satisfies displayed_value * 10^p = original value; if the factor form 'x 1eK' is used then displayed_value = original * 10^K; if neither appears the shift is 0. Micro is written u, in LaTeX output $\\mu$.",
    "every metric, unit, shift, use_prefix and use_tex", "all integer shifts, all names",
    [SP + ":adjust_headers", "mlpaper/constants.py:_PREFIX"])
add("TeX headers never contain the \\times command",
    "With use_tex=True, the header of a shifted unit-less column contains a TAB character and no LaTeX command at all (the \\t of \\times is read as an escape), so the factor is typeset as 'imes'; the exponent shown is still the right one.",
    "every metric name without a backslash and every non-zero shift", "every shift and metric; a test would have to know the intended TeX",
    [SP + ":adjust_headers"])
add("format_table never fails on decimalized finite tables",
    "For every float table with finite means, non-negative (or inf/NaN) errors and p-values in [0,1] (or NaN) whose means fit 28 digits, format_table(decimalize(table), shift_mod=k) with k >= 1 succeeds: no assertion, ValueError or decimal exception. A table with two p-values of one metric given to different numbers of digits is refused.",
    "every such table, every number of rows and metrics, every k >= 1, every limit dictionary",
    "any combination of magnitudes across rows", [SP + ":decimalize", SP + ":format_table", SP + ":find_shift"])
add("End-to-end truthfulness of a formatted cell",
    "In format_table(decimalize(table)) with padding, each unclipped cell 'm(e)' read back and unshifted by 10^-shift gives a number within half a printed unit of the float mean and an error at least the float error and less than one printed unit above it.",
    "every float table as above, every cell", "composition of float->Decimal->shift->string->pad over all inputs",
    [SP + ":just_format_it", SP + ":format_table", SP + ":decimalize"])
add("Rounding never reverses a ranking at equal precision",
    "If two methods' decimalized errors have the same exponent then mean1 <= mean2 implies displayed mean1 <= displayed mean2.",
    "every pair of cells", "all pairs of doubles", [SP + ":decimalize"])
add("The no-shift mode reports insufficient precision",
    "With shift_mod=None, format_table uses shift 0 for every metric, and raises ValueError if and only if some unclipped finite mean is not defined to the dot.",
    "every decimal table accepted otherwise", "the explicit check in the code lacks `raise`, so only the later print step can fail",
    [SP + ":format_table"])
# ---------------------------------------------------------------- data_splitter
add("split_df partitions the rows",
    "df_train, df_test, df_unused are sub-tables of df in the original row order, every row goes to exactly one of them, a row is in train iff every split column puts it in train and in test iff every split column puts it in test; with one split column df_unused is empty.",
    "every data frame with >= 1 row, every non-empty splits dict, every random draw", "all sizes, columns and RNG outcomes",
    [DS + ":split_df"])
add("Random splits keep equal values together",
    "random_split_series puts rows with equal values on the same side, and the number of distinct values placed in train is exactly ceil(frac * n_distinct) (float product).",
    "every series, every frac in [0,1], every RNG outcome", "RNG outcomes cannot be enumerated",
    [DS + ":random_split_series", DS + ":rand_subset"])
add("rand_subset/rand_mask rounding assertions can never fail",
    "For every double frac in [0,1] and every length 1 <= n < 2^53, N = ceil(frac*n) computed in floating point satisfies 0 <= N <= n, N >= n*frac and N-1 < n*frac as evaluated by the code, so rand_subset and rand_mask return exactly N elements / True entries and never raise.",
    "every IEEE double frac in [0,1], every 1 <= n < 2^53 (an empty population raises ValueError in numpy 1.15)", "depends on IEEE rounding of the product for every double",
    [DS + ":rand_subset", DS + ":rand_mask"])
add("assume_unique is only a speed hint (random split)",
    "If all values are unique, random_split_series with assume_unique=True and False give the same mask for the same RNG state.",
    "every series of unique values, frac, RNG outcome", "code comment claims it; needs an argument over permutations",
    [DS + ":random_split_series", DS + ":rand_mask", DS + ":rand_subset"])
add("Ordered split is a threshold split containing at least frac",
    "When ordered_split_series returns, train is exactly the rows with value <= some value that occurs in the series (so equal values stay together and no test value is below a train value), and the number of distinct values in train is exactly max(1, ceil(frac * n_distinct)) in exact arithmetic, hence at least frac of them.",
    "every series over a totally ordered type, every double frac in [0,1], every flag combination that is truthful", "all series",
    [DS + ":ordered_split_series"])
add("Which fractions the ordered split accepts",
    "On a non-empty series without nulls with n distinct values, ordered_split_series raises AssertionError exactly when k = min(floor(fl(frac*n)), n-1) >= 1 and frac <= fl(k/n); in particular it rejects every frac with frac*n an integer in [1, n-1] (e.g. 0.5 with an even n), it accepts frac = 0 and frac = 1, and no other exception occurs. (The documented 'frac must be in [0,1]' as only requirement is refuted: 10 values with frac=0.8 raise.)",
    "every series and frac", "fails only when frac*n_distinct is (rounds to) an integer strictly between 0 and n",
    [DS + ":ordered_split_series"])
add("Ordered/linear speed hints do not change the split",
    "If the series really is sorted/unique, every combination of truthful assume_sorted / assume_unique gives the same mask as the default.",
    "every series and frac", "all series", [DS + ":ordered_split_series", DS + ":linear_split_series"])
add("Linear split pivot stays inside the data range in IEEE arithmetic",
    "For finite doubles, linear_split_series' pivot satisfies min <= pivot <= max and is not NaN whatever rounding or overflow occurs in the interpolation, so it never raises, the minimum always lands in train, equal values stay together, and frac=1 puts everything in train.",
    "every finite double series and every double frac in [0,1]", "rounding and overflow for every pair of doubles",
    [DS + ":linear_split_series"])
add("build_lag_df builds the right lag blocks but never returns them",
    "Row i of the lag-k block that build_lag_df assembles is row i - stride*k of df, or null when there is no such row; but every call ends in TypeError (KeyError for unknown features), so the documented return value is refuted.",
    "every df, n_lags >= 1", "the result expression adds a range to a list, which Python 3 rejects",
    [DS + ":build_lag_df"])
# ---------------------------------------------------------------- util
add("one_hot is a one-hot encoding",
    "one_hot(y, L) has one row per label with exactly one True, at column y[i]; it raises iff L < 1 or some y[i] is outside [0, L).",
    "every integer vector and L", "all lengths and labels", [UT + ":one_hot"])
add("normalize produces probability rows and is blind to offsets",
    "For a row with at least one finite entry, exp(normalize(row)) is non-negative and sums to 1, differences between entries (hence ranking) are preserved, adding a constant to the row changes nothing, and normalize is idempotent; a row of -inf becomes NaN.",
    "every row of finite/-inf log probabilities with >= 1 finite entry", "real-valued inputs of any length",
    [UT + ":normalize"])
add("epsilon_noise preserves order and separates ties",
    "In exact arithmetic, for any random draws in [0,1): x_i < x_j implies out_i < out_j, |out_i - x_i| <= max_epsilon/2, and out_i = out_j for i != j only if x_i = x_j and the two draws are equal. (In doubles the strict order can be lost: neighbouring doubles can collide.)",
    "every finite vector, every draw", "all vectors and all RNG outcomes", [UT + ":epsilon_noise"])
add("unique_take_last keeps each x once with its last y",
    "On sorted input the result x is strictly increasing, contains exactly the distinct input x, and each x is paired with the y of its last occurrence; on unsorted input it raises.",
    "every pair of equal-length lists", "all lengths and tie patterns", [UT + ":unique_take_last"])
add("cummax_strict returns the least strictly increasing majorant in doubles",
    "If cummax_strict returns, the result is strictly increasing, pointwise >= the input, and pointwise <= every strictly increasing vector of doubles that is >= the input; an already strictly increasing input is returned unchanged.",
    "every vector of finite doubles", "minimality quantifies over all other vectors of doubles", [UT + ":cummax_strict"])
add("Step evaluation is the right-continuous step function",
    "eval_step_func at g equals yp at the largest xp <= g, or ival if there is none; the result does not depend on the order in which the (xp, yp) pairs are given; without ival it raises iff some grid point lies before the first step (or steps are not distinct).",
    "every finite set of steps with distinct x, every grid", "all lengths, grids and orderings", [UT + ":eval_step_func"])
add("'previous' interpolation of a curve with repeated x",
    "_interp1d(kind='previous') at g returns the y of the last curve point whose x is <= g.",
    "every sorted curve with >= 2 points, every grid point >= first x", "all tie patterns", [UT + ":_interp1d"])
add("area is the integral of the interpolated curve",
    "For finite curves, area(kind='linear') and area(kind='previous') equal the Riemann integral over [x_first, x_last] of the function drawn by interp1d of the same kind.",
    "every sorted finite curve with >= 2 points, duplicates allowed", "an identity between a sum and an integral for every curve",
    [UT + ":area", UT + ":_interp1d"])
# ---------------------------------------------------------------- boot_util
add("Bootstrap weights are equivalent to resampling",
    "For any multinomial outcome, the weighted mean computed from boot_weights equals the plain mean of the data set in which point i is repeated weight_i times; every weight is >= epsilon and with epsilon=0 they sum to N.",
    "every data vector and every multinomial outcome", "all RNG outcomes", [BU + ":boot_weights", ML + ":_boot_EB_and_test"])
add("Percentile interval is ordered and made of sample values",
    "percentile returns LB <= UB, both of which are bootstrap values, inside [min, max], and independent of the order of the replicates - with the indices computed in IEEE arithmetic.",
    "every non-empty bootstrap vector, every double confidence in (0,1)", "float index arithmetic for every confidence and n",
    [BU + ":percentile", BU + ":confidence_to_percentiles"])
add("Higher confidence gives a wider interval",
    "If c1 <= c2 then percentile(b, c2) contains percentile(b, c1) and error_bar grows with confidence.",
    "every bootstrap vector, every pair of double confidences", "monotonicity over all pairs of doubles", [BU + ":percentile", BU + ":error_bar"])
add("error_bar is non-negative and covers both bootstrap intervals",
    "error_bar never trips its assertions; EB >= 0 (or NaN, only when the original estimate is not finite) and, in exact arithmetic, [est-EB, est+EB] is the smallest symmetric interval around the estimate containing the percentile interval, and it also contains the basic interval.",
    "every bootstrap vector, estimate and confidence", "all vectors incl. infinities", [BU + ":error_bar", BU + ":basic"])
add("significance is a p-value",
    "significance returns a value in [0,1], equal to 1 when all replicates equal the reference, unchanged if replicates are permuted, and symmetric under negating replicates and reference.",
    "every replicate vector, scalar or paired reference", "all vectors", [BU + ":significance"])
add("Reference outside the interval means significant",
    "If ref is outside percentile(b, c) then significance(b, ref) < 1 - c.",
    "every bootstrap vector, ref and confidence (every vector size in exact arithmetic; up to 2^24 replicates with IEEE rounding)", "all vectors and confidences", [BU + ":percentile", BU + ":significance"])
add("A significant reference is outside the interval or in its outermost step",
    "If significance(b, ref) < 1 - c then all replicates up to ref are <= LB or all replicates from ref on are >= UB, where (LB, UB) = percentile(b, c). The stronger expectation that ref is outside [LB, UB] (full coherence of test and interval) is false: b = 1,2,3,4, ref = 1, c = 0.4 gives p = 0.5 < 0.6 although LB = 1.",
    "every bootstrap vector, ref and confidence (every size in exact arithmetic; up to 2^48 replicates with IEEE rounding)", "quantile/ECDF off-by-one only shows for some (n, c)",
    [BU + ":percentile", BU + ":significance"])
add("Inverting the p-value reaches the reference",
    "If 0 < significance(b, ref) = p < 1 then percentile(b, 1 - p) contains ref.",
    "every bootstrap vector and ref (every size in exact arithmetic; up to 2^24 replicates with IEEE rounding)", "all vectors", [BU + ":percentile", BU + ":significance"])
add("Paired test equals one-sample test on differences",
    "significance(x, ref=y) = significance(x - y, ref=0).",
    "every pair of equal-length vectors of finite doubles (inf - inf is NaN and is rejected)", "all vectors", [BU + ":significance"])
# ---------------------------------------------------------------- perf_curves
add("Curve counts mean what the docstring says",
    "thresholds is inf followed by the distinct scores in strictly decreasing order, and tps[i] / fps[i] is the total weight of positive / negative samples with score >= thresholds[i] (before single-class pseudo-points), whatever the input order or ties.",
    "every label/score vector with >= 1 sample, every positive weight matrix or None", "all lengths, tie patterns, weights",
    [PC + ":_binary_clf_curve"])
add("ROC curve is a monotone path from (0,0) to (1,1)",
    "roc_curve's fpr and tpr are non-decreasing, start at (0,0), end at (1,1), for every input incl. single-class data, and no assertion in the curve code fires (exact arithmetic with any positive weights; IEEE doubles without weights).",
    "every input as above", "all inputs incl. corner cases", [PC + ":roc_curve", PC + ":_add_pseudo_points"])
add("AUC is the Mann-Whitney probability",
    "area(roc_curve) equals the (weighted) probability that a random positive outscores a random negative, ties counting one half; it is in [0,1].",
    "every two-class input and positive weights", "an identity for all inputs", [PC + ":roc_curve", UT + ":area"])
add("AUC depends only on the ranking",
    "AUC is unchanged by any strictly increasing transformation of scores and by reordering samples; negating the scores or swapping the classes gives 1 - AUC; perfect separation gives 1 and constant scores give 1/2.",
    "every two-class input", "all inputs and transformations", [PC + ":roc_curve", CL + ":curve_boot"])
add("Single-class data give AUC 1/2",
    "If all samples are positive or all negative, roc_curve is the diagonal and its area is exactly 1/2; recall_precision's area is the (pseudo) base rate and prg's is 0.",
    "every single-class input and weights", "all inputs", [PC + ":_add_pseudo_points"])
add("Recall-precision curve is well formed",
    "In exact arithmetic, for every positive weights: recall is non-decreasing from 0 to 1, precision is in [0,1] and equals tps/(tps+fps) at each threshold, the final precision is the base rate, and the area is in [0,1]. In doubles this shape holds without weights; with weights that differ by more than 2^53 the promise is refuted: a weight lost in the running sum makes an assertion fire.",
    "every input", "all inputs; the failing weights need a ratio near 1e16", [PC + ":recall_precision_curve", UT + ":area"])
add("Precision-recall-gain curve is well formed",
    "In exact arithmetic, for every positive weights: recall gain is non-decreasing, in [0,1], ends at 1; precision gain is never NaN or +inf, is <= 1 and ends at 0; no assertion fires; the area is <= 1 and never NaN (it may be -inf). In doubles the shape holds without weights; with extreme weights the precision gain can be NaN and check_curve fails (refuted).",
    "every input", "division by zero / -inf handling for all inputs", [PC + ":prg_curve", UT + ":area"])
add("Integer weights equal replicated data",
    "With positive integer weights every curve equals the unweighted curve of the data set with sample i repeated weight_i times.",
    "every input and integer weights >= 1", "all inputs", [PC + ":_binary_clf_curve"])
add("Standard curves always satisfy check_curve and can be evaluated on [0,1] grids",
    "For the three standard curves check_curve(result, x_grid) passes and interp1d returns a value without extrapolation for every non-empty sorted grid in [0,1].",
    "every input, every grid", "all inputs", [CL + ":check_curve", CL + ":curve_boot"])
add("curve_boot succeeds on every valid input, except pairwise precision-recall-gain",
    "For every valid binary input and every bootstrap outcome curve_boot succeeds in exact arithmetic and returns an area in range, a p-value in [0,1] and grid bounds LB <= UB in range: for ROC and recall-precision with or without pairwise_CI, for precision-recall-gain without pairwise_CI or against a scalar. That pairwise comparison of precision-recall-gain areas always succeeds is refuted: comparing the reference with itself fails if its area is -inf.",
    "every input and bootstrap outcome", "needs a bootstrap replicate where both AUPRG are -inf", [CL + ":curve_boot", CL + ":curve_summary_table"])
# ---------------------------------------------------------------- mlpaper
add("clip_EB stays between the minimum and the trivial error bar",
    "For non-NaN inputs in the documented domain, clip_EB returns a value in [min_EB, max(upper-mu, mu-lower)], leaves EB unchanged if already inside, and clipping never loses part of [lower, upper] that the unclipped interval covered; NaN error bars stay NaN; it raises ValueError iff mu is outside the limits or 2*min_EB exceeds the range, and nothing else unless the width of two finite limits overflows (in exact arithmetic never).",
    "every double incl. infinities", "special-value arithmetic", [ML + ":clip_EB"])
add("Bernstein p-value and error bar are coherent",
    "For at least two finite data points in [lower, upper] with lower < upper, bernstein_test(x) < 1 - c iff |mean(x)| > bernstein_EB(x, c): zero is outside [mean-EB, mean+EB] exactly when the test rejects; the p-value is in [0,1] and the bar is the empirical Bernstein bound std*sqrt(2A/n) + 3A(upper-lower)/n, A = ln(3/(1-c)). Unbounded limits give p = 1 and an infinite bar; point-mass limits give p = 1 and a zero bar.",
    "every data vector in [lower, upper], every c in (0,1)", "real-valued identity (roots of a quadratic) for all inputs",
    [ML + ":bernstein_test", ML + ":bernstein_EB"])
add("t p-value and error bar are coherent",
    "For at least two finite data points, t_test(x) < 1 - c iff |mean(x)| > t_EB(x, c), the bar is quantile((1+c)/2) times the standard error and p is twice the tail probability of |mean|/standard error, for any symmetric strictly decreasing survival function with its inverse; degenerate inputs (length <= 1 or non-finite) give p = 1 and EB = inf.",
    "every data vector and c in (0,1)", "all real inputs", [ML + ":t_test", ML + ":t_EB"])
add("Error bars grow with confidence and scale with the data",
    "t_EB and bernstein_EB grow with the confidence; replacing the data (and limits) by k*x+s multiplies them by |k| and maps the mean to k*mean+s; the p-values do not change under x -> k*x, k != 0.",
    "every data vector and confidences", "all real inputs", [ML + ":t_EB", ML + ":bernstein_EB"])
add("Bootstrap means stay within the data range, so clipping never bites",
    "In exact arithmetic every bootstrap mean lies in [min x, max x], hence boot_EB <= max(upper - mean, mean - lower) and get_mean_and_EB returns mean and bar unclipped; with the same draw, data k*x+s (k > 0) multiply the bar by k. For doubles the range claim is false (refuted: three times 0.1).",
    "every finite data vector, every multinomial outcome", "all RNG outcomes", [ML + ":_boot_EB_and_test", ML + ":boot_EB", ML + ":clip_EB"])
add("loss_summary_table fills every cell from the right columns",
    "For every metric and method: mean = mean of that loss column; non-pairwise error = error bar of that column within the metric's limits; pairwise error and the p-value are computed from loss - loss_ref within (-range, range); the reference row has NaN p-value (and NaN error when pairwise). No other column influences the cell, and mean and p-value do not depend on pairwise_CI.",
    "every loss table, reference, limits and error-bar method", "all tables", [ML + ":loss_summary_table"])
add("Which infinite losses are summarised and which are fatal",
    "For a complete NaN-free table within its limits, loss_summary_table returns iff no method shares an infinite loss of the same sign with the reference on the same row and, without pairwise_CI, no column contains both infinities (with pairwise_CI: no difference column does); in particular +inf losses against a finite reference are accepted. (The claim that every NaN-free table is accepted is refuted.)",
    "every NaN-free table", "needs method and reference infinite at the same data point", [ML + ":loss_summary_table", ML + ":t_test"])
add("A loss table inside its limits is accepted in exact arithmetic",
    "If every loss is finite and within its limits, loss_summary_table does not raise, in exact arithmetic, for all three error-bar methods and every bootstrap draw. For doubles this is refuted: three losses 0.1 with limits (0, 0.1) raise AssertionError.",
    "every table within limits", "float mean may exceed the maximum by an ulp", [ML + ":loss_summary_table", UT + ":clip_chk"])
# ---------------------------------------------------------------- classification
add("Bayes-optimal decisions",
    "hard_loss_decision returns for every row an action whose expected loss under the predictive distribution is minimal, the first one on ties; for the 0-1 loss it is, in exact arithmetic, the first most probable label. In any arithmetic it is the first minimiser of the computed expected losses; with doubles it need not be the most probable label (refuted): the expected losses of two labels with different probabilities can round to the same number.",
    "every prediction matrix (incl. zero probabilities), every loss matrix with >= 1 action", "all matrices", [CL + ":hard_loss_decision", CL + ":hard_loss"])
add("hard_loss stays in the loss matrix range and is optimal in expectation",
    "hard_loss(y) equals loss_mat[y, action]; the 0-1 loss is 0 or 1 and 0 iff the decision is y; averaging over y drawn from the prediction no other constant action does better.",
    "every input", "all inputs", [CL + ":hard_loss"])
add("Log loss is a strictly proper scoring rule",
    "With normalized predictions log_loss >= 0, is 0 iff the label has probability 1, and its expectation under distribution p is minimised over q exactly at q = p.",
    "all pairs of distributions with full-support q or p << q", "real inequality (Gibbs) for all distributions", [CL + ":log_loss"])
add("Brier loss is proper and correctly rescaled",
    "brier_loss is 0 for a perfect prediction, 1 (rescaled, >= 2 labels) for the uniform one, between 0 and 2*L/(L-1), and its expectation under p is minimised exactly at q = p.",
    "all distributions and label counts", "real inequality for all distributions", [CL + ":brier_loss"])
add("Spherical loss is proper and correctly rescaled",
    "spherical_loss is 0 for a perfect prediction, 1 (rescaled, >= 2 labels) for the uniform one, in [0, 1/(1-1/sqrt L)], insensitive to normalisation of the prediction, and its expectation under p is minimised at q = p.",
    "all distributions and label counts", "Cauchy-Schwarz for all distributions", [CL + ":spherical_loss"])
add("loss_table prevents cheating by unnormalised predictions",
    "With assume_normalized=False, adding any constant per row to a method's log predictions leaves every loss unchanged, and the log loss is never negative, for rows of log probabilities (real or -inf, at least one real). The NaN check is made before the renormalisation: a row of all -inf, or with +inf, passes it and gets a NaN loss.",
    "every prediction table, every metric function", "all tables and offsets", [CL + ":loss_table", UT + ":normalize"])
add("Probability floor keeps rows normalised and ranked",
    "get_pred_log_prob's flooring yields rows that sum to 1, never reverses the order of two labels, and bounds every log probability below by min_log_prob - log(1 + n_labels*exp(min_log_prob)) when the method's own rows were normalised.",
    "every prediction row and floor < 0", "all rows", [CL + ":get_pred_log_prob"])
add("Which reported log probabilities respect min_log_prob",
    "For a normalised row all reported log probabilities are >= min_log_prob iff all original ones were; as soon as one label is strictly below the floor, every label at or below the floor is reported strictly below min_log_prob (so min_log_prob is not a floor on what is reported: refuted).",
    "every prediction row and floor < 0", "renormalising after flooring pushes values below the floor again", [CL + ":get_pred_log_prob"])
add("Classification JustNoise predicts the smoothed label frequencies",
    "After fit, exp(predict_log_proba) is the same for every test row, sums to 1, and equals (count_k + pseudo)/(n + L*pseudo); with pseudo_count=0 it is the only minimiser of the mean training log loss among constant predictions. Boolean labels raise AssertionError.",
    "every non-empty training label vector, pseudo_count >= 0", "all vectors", [CL + ":JustNoise"])
# ---------------------------------------------------------------- regression
add("Regression losses are non-negative and zero only on perfect prediction",
    "In exact arithmetic square_loss and abs_loss are >= 0 and 0 iff y = mu. In doubles both are >= 0 and abs_loss is 0 iff y = mu, but square_loss being 0 only for y = mu is refuted (the square underflows). log_loss for fixed std is minimised exactly at mu = y, and for fixed error is minimised over std at |y - mu|.",
    "every finite y, mu and std > 0", "all reals", [RG + ":square_loss", RG + ":abs_loss", RG + ":log_loss"])
add("Regression JustNoise is the best constant Gaussian",
    "JustNoise's mean minimises the training mean squared error among constants and its (mean, std) minimise the training mean log loss among constant Gaussians (non-constant data); predictions are the same for every test row. Constant training data give std 0, on which log_loss raises AssertionError; fewer than two points raise in fit.",
    "every training vector with >= 2 points", "all reals", [RG + ":JustNoise", RG + ":log_loss"])
add("min_std floors the predicted standard deviation",
    "get_gauss_pred reports std >= min_std for every method and row whose predicted std is not NaN (NaN is reported as NaN), leaving larger values and all means unchanged; if min_std > 0 the log loss of every finite prediction is finite.",
    "every prediction table", "all tables", [RG + ":get_gauss_pred"])
add("Checkpointed benchmark survives a crash at any point",
    "With a checkpoint directory, after any sequence of runs interrupted between or during method fits, a completed rerun returns the same prediction table as one uninterrupted run without checkpoints, for deterministic methods, and does not refit a method whose result was stored.",
    "every set of methods, every history of crash points", "all crash points and histories", [CL + ":get_pred_log_prob", RG + ":get_gauss_pred"])
# ---------------------------------------------------------------- tables
add("loss_table stores each loss under its own label",
    "loss_tbl.loc[i, (metric, method)] is metric_f applied to y and that method's (normalised) predictions at row i; one column per metric x method, rows in input order.",
    "every table and metric dictionary", "all tables", [CL + ":loss_table", RG + ":loss_table"])
add("curve_summary_table marks the reference and keeps methods independent",
    "Each (method, curve) cell triple comes from curve_boot of that method against the reference; the entry of a method does not depend on the other methods besides the reference. The reference row has NaN p-value always and NaN error if pairwise_CI; without pairwise_CI its error is not NaN when its area is finite. The curve dump has one entry per pair, with one row per grid point and LB <= UB on every row. For ROC and recall-precision curves (and precision-recall-gain, if not pairwise) of real scores the table is always produced and all areas and bounds are in [0, 1] (at most 1 for precision-recall-gain) and p-values in [0, 1]. A reference that is not in the table, labels of another length, an empty table, an empty dictionary of curves and a reference frame of another shape are refused with AssertionError.",
    "every prediction table, curve dictionary and bootstrap outcome", "all tables and RNG outcomes", [CL + ":curve_summary_table", CL + ":curve_boot"])

# ---------------------------------------------------------------- additions
add("clip_chk only absorbs rounding errors",
    "clip_chk(a, lo, hi) returns the point of [lo, hi] nearest to a, and it returns only if a was already inside or np.isclose to one of the limits (|a - limit| <= 1e-8 + 1e-5 |limit|; infinities only to themselves); otherwise, and for NaN, it raises AssertionError. Values inside are returned unchanged, bit for bit.",
    "every value and interval; doubles and exact arithmetic", "every distance to the limits, every scale", [UT + ":clip_chk"])

# ---------------------------------------------------------------- table export
add("The exported table is readable and says the truth about the input",
    "On a table of finite means, non-negative or non-finite errors and p-values in [0, 1] or NaN (means representable in 28 digits), just_format_it with a shift modulus never fails. The frame it renders, as plain text or as LaTeX, has the methods as rows and two columns per metric. However the header of an estimate column is read (SI prefix or power of ten), undoing the shift it announces turns each entry of the column into a correctly rounded value of the original mean, with an error that is not understated, or into a correct bound; the p column never understates.",
    "every table, unit dictionary, clip limits, modulus and renderer", "all tables and options, any pandas renderer", [SP + ":just_format_it", SP + ":table_to_string", SP + ":table_to_latex", SP + ":format_table", SP + ":adjust_headers"])
add("When the default table export fails",
    "With its default settings (no shift, no limits) just_format_it raises ValueError exactly if some error bar is above 99, or some mean without a usable error bar (infinite, NaN or 0) is at least 99999.5 in magnitude. Otherwise it succeeds and every header announces no shift.",
    "every clean table", "the exact thresholds over all doubles", [SP + ":just_format_it", SP + ":format_table", SP + ":decimalize"])
add("LaTeX column specification fits the table",
    "The column_format that table_to_latex passes on has one letter for the index and one for each column: l, then S for each estimate and r for each p-value column; every header is wrapped in braces as siunitx S columns require.",
    "every formatted table", "all numbers of metrics", [SP + ":table_to_latex", SP + ":adjust_headers"])
add("Non-finite estimates are never displayed as such",
    "just_format_it never succeeds on a table with a NaN mean, nor on one with a mean of +inf (-inf) for a metric without crap_limit_max (crap_limit_min). The documented non_finite_fmt entries for estimates therefore have no effect: the output depends on non_finite_fmt only through the text for nan, used for p-values.",
    "every table and option", "all tables, all dictionaries", [SP + ":just_format_it", SP + ":format_table", SP + ":print_estimate"])

# ---------------------------------------------------------------- one-call benchmarks
add("Predictions are fitted, floored and checked as documented",
    "get_pred_log_prob succeeds exactly if the inputs have the documented form (2-d features or more, as many training labels as rows, labels 0..n_labels-1, same dtype and number of features, a non-empty test set, a negative floor) and every estimator predicts one row per test point and one column per label that normalize accepts; predict_log_proba is used, or the log of predict_proba if that raises. get_gauss_pred succeeds exactly if the inputs have the documented form and every estimator predicts a mean and a std per test point, std being 1 if predict does not take return_std. The table then holds exactly these predictions, floored, under the names given.",
    "every data set, estimator and floor; any arithmetic", "all shapes and estimators", [CL + ":get_pred_log_prob", RG + ":get_gauss_pred"])
add("Every cell of the classification benchmark is about its own method",
    "just_benchmark returns one loss cell per metric and method and one curve cell per method and curve. The loss cell of a method is computed from the losses of that method's own floored and normalised predictions and those of the reference; the curve cell is curve_boot of its predictions against the reference's. Hence adding, removing or reordering other methods, losses or curves changes no cell.",
    "every data set, estimators, dictionaries and bootstrap draws; any arithmetic", "all sets of methods", [CL + ":just_benchmark", CL + ":summary_table"])
add("The classification benchmark is binary only",
    "classification.just_benchmark returns only if n_labels = 2, there is at least one loss and one curve, the reference is among the methods and all test labels are 0 or 1. The documented n_labels >= 1 is not enough: with any other number of labels, or without curves, it always raises.",
    "every input; any arithmetic", "all label counts", [CL + ":just_benchmark", CL + ":curve_boot"])
add("The classification benchmark always succeeds with a probability floor",
    "In exact arithmetic, with two labels and a finite floor, just_benchmark returns for all estimators predicting log probabilities (real or -inf), all losses of classification.py (within limits at least as wide as their range), ROC and recall-precision curves (and, without pairwise_CI, precision-recall-gain), all three error bar methods and every bootstrap draw. All mean losses are finite and within their limits, errors non-negative, p-values and areas in [0, 1].",
    "every data set, estimators and draws", "all predictions and RNG outcomes", [CL + ":just_benchmark", CL + ":summary_table", ML + ":loss_summary_table"])
add("The regression benchmark needs positive standard deviations only",
    "regression.just_benchmark returns one cell per loss and method, computed from the losses of that method's own predictions (std raised to min_std) and those of the reference, independent of the other methods and losses. In exact arithmetic, for finite predictions and the losses of regression.py, it succeeds exactly if min_std or the predicted std is positive at every point of every method, and otherwise raises AssertionError; all means are then finite and within limits, errors non-negative, p-values in [0, 1].",
    "every data set, estimators and draws", "all predictions and RNG outcomes", [RG + ":just_benchmark", RG + ":loss_table", ML + ":loss_summary_table"])

# ---------------------------------------------------------------- comparisons
add("A method identical to the reference is never called different",
    "If a method has exactly the losses (or predictions) of the reference, then loss_summary_table (or curve_summary_table, for any curve) gives it the reference's mean and p-value exactly 1, with the t-test, Bernstein and bootstrap methods, in doubles as in exact arithmetic. With pairwise_CI its error is 0 (t and bootstrap, two points or more; curves with a finite area); without, its error is that of the reference.",
    "every table, limits, confidence, bootstrap draw and curve function; every math library with exp(0) = 1 and a NaN-propagating t distribution", "rounding could leave a nonzero difference or statistic for some of the doubles", [ML + ":loss_summary_table", ML + ":get_mean_EB_test", CL + ":curve_summary_table", BU + ":significance"])
add("It does not matter which of two methods is the reference",
    "The p-value of method b against reference a is the same double as that of a against b (bootstrap: for the same draws), in loss tables and curve tables, although all differences change sign. The pairwise error is the same too: for t and Bernstein in doubles, for all methods and curves in exact arithmetic. In doubles the pairwise bootstrap error of a curve can depend on it (refuted by an example): the two percentile indices are rounded differently.",
    "every table, limits, confidence and curve function; any math library", "all doubles and orders of summation", [ML + ":loss_summary_table", ML + ":get_test", CL + ":curve_boot", BU + ":significance", BU + ":error_bar"])

# ---------------------------------------------------------------- the mean in doubles
add("The mean loss never trips its own sanity check",
    "In doubles, for 1 to 2^30 losses within (lower, upper), where each limit is infinite or at most 2^900 in size and one is finite (or both are infinite and the losses are finite with a total size of at most 2^990), the assertion in clip_chk on the mean does not fire and the mean reported by get_mean_and_EB and get_mean_EB_test lies within the limits: these fail only if the error bar or the test does. Beyond these sizes it can fire: two losses of 2^1023 in (0, 2^1023), and without limits finite losses whose exact mean is 0 but whose pairwise sum is NaN.",
    "every vector of up to 2^30 doubles, every error bar method", "overflow and rounding in every position of the sum", [UT + ":clip_chk", ML + ":get_mean_and_EB", ML + ":get_mean_EB_test"])
add("The reported mean is the exact mean up to rounding",
    "For n <= 2^30 finite losses with a total size of at most 2^990, the mean in doubles (numpy's pairwise summation), the mean returned by get_mean_and_EB and get_mean_EB_test after clipping, and the mean in every cell of loss_summary_table are finite and differ from the exact mean of the losses by at most (n + 1) 2^-52 times the mean magnitude, plus 2^-1075.",
    "every vector of up to 2^30 doubles, every method and table", "error accumulation over all lengths and values", [ML + ":get_mean_and_EB", ML + ":get_mean_EB_test", ML + ":loss_summary_table"])

# ---------------------------------------------------------------- loss tables in doubles
add("In doubles a loss table fails only if a rounded mean leaves its limits",
    "For 1 to 2^30 finite losses of size at most 2^400, within limits that are infinite or at most 2^400 in size and either equal or 2^-400 apart, a confidence in (0, 1 - 2^-52], any of the three error bar methods and any bootstrap draw, loss_summary_table with pairwise_CI always returns; without it, it returns exactly if the rounded mean of every column lies within the limits of its metric. With limits of few bits (infinite, 0, 1, 0.5, any m 2^e with m <= 2^22) that is always so: both modes always return. The largest double below one is a confidence for which it can raise: its quantile is infinite.",
    "every table of such doubles, every draw, any math library with the monotonicity and sign properties of good_library", "rounding, overflow and NaN in every step of the three estimators", [ML + ":loss_summary_table", ML + ":get_mean_and_EB", ML + ":get_mean_EB_test", ML + ":t_EB", ML + ":bernstein_EB", ML + ":bernstein_test", ML + ":boot_EB"])
add("In doubles loss tables hold sane numbers",
    "Whenever loss_summary_table returns on such a table, in doubles, every mean is the (finite) mean of its column, every error bar is a number that is at least zero (NaN only for the reference with pairwise_CI) and every p-value a number in [0, 1] (NaN only for the reference).",
    "every table of such doubles, every draw, any math library with the properties of good_library", "no NaN or negative number in any position", [ML + ":loss_summary_table", ML + ":clip_EB", ML + ":t_test", ML + ":bernstein_test", ML + ":boot_test"])

add("In doubles the regression benchmark succeeds and reports sane numbers",
    "regression.just_benchmark in doubles, on up to 2^30 test points, with targets and predicted means of size at most 2^100 and predicted standard deviations that lie in [2^-90, 2^90] after raising them to min_std, returns for square and absolute loss (any lower limit of few bits that is at most 0) and log loss, all three error bar methods, both interval modes and any bootstrap draw. It has one cell per loss and method; the mean is the finite mean of the losses of that method's own predictions and lies within the limits, errors are numbers >= 0 and p-values numbers in [0, 1] except the documented NaN of the reference.",
    "every data set, estimators of such doubles and draws; any math library with the properties of good_library and a log of moderate size", "overflow, rounding and NaN along the whole pipeline", [RG + ":just_benchmark", RG + ":square_loss", RG + ":abs_loss", RG + ":log_loss", RG + ":loss_table", ML + ":loss_summary_table"])

add("normalize works in doubles and is accurate",
    "In doubles, for rows of 1 to 2^30 log probabilities that are -inf or finite (size up to 2^900) with at least one finite entry, normalize returns; no result is NaN or positive, exactly the -inf entries stay -inf, finite entries stay finite and the order of the entries is kept. If exp and log are accurate to 2^-50, n entries of size at most A <= 2^30 differ from the exact normalised values by at most (n + A) 2^-47, and the probabilities sum to one up to (n + A) 2^-46. This holds for every order in which numpy may add up a row.",
    "every matrix of such doubles, every order of addition, any exp and log with the stated properties", "overflow, cancellation and error accumulation in all positions", [UT + ":normalize"])
add("In doubles the classification losses stay in range",
    "For rows of normalised log probabilities (at most 0, -inf or finite, one finite) and valid labels, in doubles: log loss without excluded labels is finite and >= 0; Brier loss is finite and in [0, n_labels] ([0, 2 n_labels] rescaled), spherical loss in [-1, 0] ([0, 4] rescaled), hard loss is an entry of the loss matrix and in [0, 1] for the default matrix. None of them raises.",
    "every prediction matrix of such doubles, all labels, every order of addition, any exp and log with the stated properties", "rounding in all sums, NaN from infinities", [CL + ":log_loss", CL + ":brier_loss", CL + ":spherical_loss", CL + ":hard_loss"])
add("In doubles classification loss tables exist and hold sane numbers",
    "For estimators predicting log probabilities that are -inf or of size at most 2^100, get_pred_log_prob in doubles returns a table of normalised rows, all finite if the floor is. On a table of such scores loss_table returns for the losses of classification.py (log loss only if no label is excluded), and loss_summary_table, with limits of few bits at least as wide as the range of the loss, returns for all error bar methods, both interval modes and every draw: one cell per loss and method, the mean is the finite mean of the method's own losses and within limits, errors are numbers >= 0 and p-values numbers in [0, 1] except the documented NaN of the reference.",
    "every data set, any number of labels and draws; any math library with the properties of good_library and exp_log", "overflow, rounding and NaN along the whole pipeline", [CL + ":get_pred_log_prob", CL + ":loss_table", UT + ":normalize", ML + ":loss_summary_table"])

add("In doubles bootstrapped curves exist and hold sane numbers",
    "curve_boot in doubles returns for finite scores and labels 0/1 of up to 100000 samples, provided there are at most 5000 samples, no negative sample, or a negative sample is drawn in every replicate; for ROC, recall-precision and precision-recall-gain curves, up to 2^53 replicates, any bootstrap draw, confidence in (0, 1), grid in [0, 1] and reference (pairwise precision-recall-gain: a number). The area is finite and in [0, 1 + 2^-35] (gain: -inf or at most 1 + 2^-35), the p-value in [0, 1], the error bar not negative; at each grid point the curve and its bounds are in [0, 1 + 2^-49] (ROC), [0, 1] (recall-precision) or at most 1 (gain), with lower bound <= upper bound.",
    "every data set of such doubles and every multinomial draw", "the weight 1e-10 of samples not drawn is lost in running sums only for some draws; rounding in every position", [CL + ":curve_boot", PC + ":_binary_clf_curve", PC + ":roc_curve", PC + ":recall_precision_curve", PC + ":prg_curve", UT + ":area", UT + ":interp1d"])

add("From a million samples on, one unlucky draw makes curve_boot fail",
    "In exact arithmetic the bootstrapped curves exist for every draw; in doubles they do not. For every number of samples n from 2^20 + 2 to 2^30 there are 0/1 labels with both classes, finite log probabilities and a multinomial draw without a count above 2 such that curve_boot raises AssertionError for recall-precision and precision-recall-gain curves whenever that draw is among the replicates, whatever the other replicates, reference, grid, confidence and interval mode are: the 1e-10 given to the only negative sample, which was not drawn, vanishes in the running sum of the weights and the precision at the first threshold is 0/0.",
    "every n from 2^20 + 2 to 2^30, all other replicates, references, grids and confidences", "needs a million samples, one negative with the top score and a draw without it; rounding residue after each of a million additions", [CL + ":curve_boot", PC + ":_binary_clf_curve", PC + ":_add_pseudo_points", PC + ":recall_precision_curve", PC + ":prg_curve", BU + ":boot_weights"])

add("In doubles the binary classification benchmark succeeds and reports sane numbers",
    "classification.just_benchmark in doubles with two labels, a finite floor min_log_prob of size at most 2^100, estimators predicting log probabilities that are -inf or of size at most 2^100, up to 100000 test points (above 5000 with negative samples: one of them is drawn in each replicate) returns both tables for the losses of classification.py with limits as in C97, ROC and recall-precision curves and, without pairwise_CI, precision-recall-gain curves, all three error bar methods and any draw. The loss table has one cell per loss and method, the curve table one per method and curve. Means of losses are finite and within limits, areas finite and in [0, 1 + 2^-35] (gain: -inf or at most 1 + 2^-35), errors not negative, p-values in [0, 1], with the documented NaN of the reference and no other; the dumped curves are within their ranges with lower bound <= upper bound. The same holds for curve_summary_table on any table of finite scores, grid, confidence and number of replicates.",
    "every data set, estimators of such doubles, draws and orders of addition; any math library with the properties of good_library and exp_log", "overflow, rounding and NaN along the whole pipeline, for all bootstrap draws", [CL + ":just_benchmark", CL + ":summary_table", CL + ":curve_summary_table", CL + ":get_pred_log_prob", CL + ":loss_table", ML + ":loss_summary_table"])

add("Tables computed in doubles can be printed, unless intervals are pairwise",
    "Without pairwise_CI, every finite error bar other than 0 that the three methods and the bootstrapped curves report in doubles is at least 2^-86 times its mean, so the 28 digits of sciprint suffice: any frame made of entries of a loss table that loss_summary_table returned, of a regression benchmark or of a classification benchmark (areas of precision-recall-gain curves only if finite) under the conditions of C92, C94 and C100 is printed by just_format_it for every shift_mod >= 1, limits, units and format, truthfully in the sense of C79; with shift_mod=None it is refused exactly if some mean needs a shift (C80). This needs quantiles at least 1/2 apart (t) and log of at least 1/2 from 2 on (Bernstein). With pairwise_CI it is false: two samples on which the methods differ by 2^-300 and 0 give an error bar of about 1e-90 beside a mean of 0.5, and just_format_it raises for every frame with that entry unless EB_limit is given for the metric.",
    "every such table and benchmark, all draws, settings of just_format_it and math libraries with the stated properties", "relates the rounding of sums, variances and percentiles to the digits available later in a different module", [SP + ":just_format_it", SP + ":decimalize", ML + ":loss_summary_table", ML + ":t_EB", ML + ":bernstein_EB", ML + ":boot_EB", BU + ":error_bar", CL + ":just_benchmark", RG + ":just_benchmark"])

add("In doubles means and error bars are the exact ones up to rounding",
    "For 2 to 2^30 losses of size at most 2^400 and confidence in (0, 1), in doubles added in numpy's order: the standard deviation (either divisor) differs from the exact one s by at most (n + 12) 2^-52 (s + 3 A) + 2^-500, A the mean size of the losses. The t error bar that get_mean_and_EB and get_mean_EB_test return differs from the textbook value (half the distance of the library's quantiles times s / sqrt n, cut at the further limit) by that times the factor of s, plus the error of the mean and 2^-53 of the range; the Bernstein error bar, for finite limits and a logarithm of at least 1/2, likewise with 5 * 2^-52 of its offset 3 log(3/delta) range / n. The same holds for every cell of a loss_summary_table without pairwise intervals. For up to a million losses in [0, 1] the mean is right to 2^-31 and the t error bar to (factor + 1) 2^-29.",
    "every vector of such doubles, any quantiles and logarithm with the properties of good_library", "a bound on the accumulated rounding of mean, squared deviations, their sum, division, square root and clipping together", [ML + ":t_EB", ML + ":bernstein_EB", ML + ":get_mean_and_EB", ML + ":get_mean_EB_test", ML + ":clip_EB", ML + ":loss_summary_table"])

add("In doubles areas under curves are the exact ones up to rounding",
    "For finite scores of 2 to 2^30 unweighted samples with both classes: every point of the ROC and recall-precision curve computed in doubles differs from the exact rate by at most (1 + 2^-10) 2^-53. The area under the ROC curve differs from the Mann-Whitney statistic, and the area under the recall-precision curve from that of the same program in exact arithmetic, by at most 12 d 2^-53, d the number of distinct scores; this is also what curve_boot reports, whatever is drawn. Up to 65536 samples the doubles therefore order two classifiers as the exact statistics do if these differ; if they are equal the doubles may differ (five samples with both areas 1/2, one computed below 1/2).",
    "every data set of such doubles, all draws, references, grids and confidences of curve_boot", "needs the exact value beside the rounded one for all data; the order of 65536 samples follows from the spacing of the statistic", [PC + ":roc_curve", PC + ":recall_precision_curve", PC + ":_binary_clf_curve", UT + ":area", CL + ":curve_boot"])

add("In doubles the losses are the exact ones up to rounding",
    "For log scores of A <= 2^26 in size (or -inf, not all) over L <= 2^26 labels, normalized and fed to the losses in doubles, row sums in any order: every Brier loss differs from the exact one of the probabilities proportional to exp of the scores by at most 2^-43 (L + A), every spherical loss by 2^-41 (L + A) (2^-44 without rescaling) and every log loss by 2^-47 (L + A), the log loss being inf exactly where the label has score -inf. hard_loss_decision picks an action whose exact expected loss exceeds that of no other action by more than 2^-44 (L + A) M, M the largest entry of the loss matrix. The mean of each cell of loss_summary_table differs from the mean of the exact losses by at most the bound of the metric plus the error of averaging n numbers. For regression, squared and absolute losses have a relative error of 2^-51 and 2^-53 and the Gaussian log loss an error of 2^-49 (quadratic term + |log constant| + |ln std| + 1).",
    "every matrix of such doubles, labels, loss matrix, order of addition; any exp and log within the stated relative error", "bounds the accumulated rounding of shift, exp, sum, log, exp again, squares and square root for all inputs", [CL + ":log_loss", CL + ":brier_loss", CL + ":spherical_loss", CL + ":hard_loss_decision", CL + ":loss_table", UT + ":normalize", ML + ":loss_summary_table", RG + ":square_loss", RG + ":abs_loss", RG + ":log_loss"])

add("In doubles bootstrap intervals, error bars and p-values are the exact ones up to rounding",
    "percentile of n <= 2^53 finite replicates returns the order statistics of rank k and n - 1 - k, k = floor((1 - confidence)/2 (n - 1)), unless that product is within n 2^-50 of an integer. For n = 2 to 2^30 losses of size at most K <= 2^400 and any multinomial draw, each of the 1000 replicates of boot_EB and boot_test differs from the exact mean of the drawn sample by at most s = (n + 3) 2^-52 K + 2^-1070; the error bar from the one formed of the order statistics of the exact replicates around the exact mean by (n + 4) 2^-51 K + 2^-1068; the p-value from twice the smaller exact tail by 2^-51 plus 2/1000 for each exact replicate within s of zero. The same holds, with clipping, for get_mean_and_EB, get_mean_EB_test and every cell of a loss_summary_table with method_EB boot: p-values, and error bars with pairwise_CI, are those of the exact differences with the reference (s tripled, error bars to 10 s plus 2^-52 of the range).",
    "every vector of such doubles, all draws, confidences off the ranks, limits and loss tables", "needs the exact order statistics beside the rounded ones for every draw; a rounding at rank or sign boundaries would move a whole replicate", [BU + ":percentile", BU + ":error_bar", BU + ":significance", BU + ":boot_weights", ML + ":boot_EB", ML + ":boot_test", ML + ":get_mean_and_EB", ML + ":get_mean_EB_test", ML + ":loss_summary_table"])

add("The statistics refuse unusable samples",
    "t_test, t_EB, bernstein_test, bernstein_EB, boot_test and boot_EB raise AssertionError on every sample with a NaN. The Bernstein functions raise it if the limits are crossed or a value is outside; get_mean_and_EB and get_mean_EB_test if a value is outside, for every method, and for an unknown method. Confidence outside (0, 1) is refused by t_EB, bernstein_EB, percentile and error_bar, and by boot_EB for two or more finite values. significance returns if replicates and reference have equal length and no NaN, and raises AssertionError otherwise; boot_weights returns exactly for N >= 1 and n_boot >= 1. Whatever the mathematical library computes, in doubles a p-value returned by the three tests is in [0, 1] and an error bar returned by the three methods not negative. loss_summary_table raises AssertionError if the reference is not among the methods or the table has no rows or metrics, and returns nothing if a metric has crossed limits or a column that is missing, has NaN or leaves the limits.",
    "every sample, limits, confidence, draw and loss table, in any arithmetic", "a missing check goes unnoticed unless the very input it guards against is tried at every entry point", [ML + ":t_test", ML + ":t_EB", ML + ":bernstein_test", ML + ":bernstein_EB", ML + ":boot_test", ML + ":boot_EB", ML + ":get_mean_and_EB", ML + ":get_mean_EB_test", ML + ":loss_summary_table", BU + ":significance", BU + ":boot_weights"])

add("The curve functions refuse unusable samples",
    "roc_curve, recall_precision_curve and prg_curve raise AssertionError if labels and scores differ in number, there are none, a score is not finite, or weights are given with no rows, a row of wrong length, or an entry that is not finite or not positive. Finite positive weights whose sum overflows are not refused: with them roc_curve can return rates that are NaN, which only area and check_curve refuse. area raises it for fewer than two columns, NaN, or x and y of different length, and NotImplementedError otherwise for kind next, and never returns NaN; the one-dimensional interpolation for lengths that differ, fewer than two points or decreasing x. check_curve raises it for such rows, for infinite x or +inf y and for a grid reaching beyond a row, and never returns for an empty grid. curve_boot raises it for no samples, other than two columns, labels of wrong number, kind or value, NaN in predictions or reference, a reference of wrong shape and n_boot < 1. loss_table raises it for labels of wrong number and empty tables, and returns nothing if a method has the wrong labels or shape or a NaN.",
    "every data set, weights, grid, reference and table, in any arithmetic", "a missing check goes unnoticed unless the very input it guards against is tried at every entry point", [PC + ":_binary_clf_curve", PC + ":roc_curve", PC + ":recall_precision_curve", PC + ":prg_curve", UT + ":area", UT + ":interp1d", CL + ":check_curve", CL + ":curve_boot", CL + ":loss_table"])

add("Splitters and formatters refuse unusable input",
    "linear_split_series raises AssertionError on NaN, on a fraction outside [0, 1] and on an infinite value (if assumed sorted: at either end), and on an empty series IndexError if assumed sorted and ValueError if not. split_df raises AssertionError without splits, for an empty frame and for a column named INDEX, and returns nothing if any split names no column or no known kind, has nulls, or a fraction outside [0, 1]. create_decimal needs a digit, decimalize a p-value digit (and an error digit if there is a row), get_shift_range a non-empty list of finite numbers and shift_mod >= 1, find_shift lists of equal length, finite means and shift_mod >= 1, format_table a table whose metrics all have rows; otherwise AssertionError (error digits: no result). normalize refuses no columns, epsilon_noise values that are not finite and widths that are not positive (max_epsilon, and default_epsilon for at most one value), unique_take_last NaN, decreasing x and y of another length.",
    "every series, frame, list of splits, table and setting", "a missing check goes unnoticed unless the very input it guards against is tried at every entry point", [DS + ":linear_split_series", DS + ":split_df", SP + ":create_decimal", SP + ":decimalize", SP + ":get_shift_range", SP + ":find_shift", SP + ":format_table", UT + ":normalize", UT + ":epsilon_noise", UT + ":unique_take_last"])

out = os.path.join(os.path.dirname(__file__), "..", "properties.jsonl")
with open(out, "w") as f:
    for p in P:
        f.write(json.dumps(p) + "\n")
print(len(P))
