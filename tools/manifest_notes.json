{
 "C10": {
  "note": "The promise as documented is refuted by a list containing a zero; it is proved for lists without zeros."
 },
 "C14": {
  "note": "The intended use of \\times is refuted for every metric and shift: the header has a TAB instead."
 },
 "C24": {
  "note": "The promise that every frac in [0,1] works is refuted (C24_ordered_accepts_all_refuted); the exact condition is proved."
 },
 "C27": {
  "note": "The documented return value is refuted: every call raises; the lag blocks themselves are proved right."
 },
 "C29": {
  "note": "Exact arithmetic (reals extended with infinities and NaN)."
 },
 "C30": {
  "note": "Proved in exact arithmetic; for doubles strict order preservation is refuted (C30_order_in_doubles_refuted)."
 },
 "C31": {
  "note": "Proved for IEEE doubles."
 },
 "C33": {
  "note": "Proved for IEEE doubles, for every sorting permutation np.argsort may return."
 },
 "C35": {
  "note": "Exact arithmetic; Riemann integral of Coquelicot."
 },
 "C36": {
  "note": "Resampling identity in exact arithmetic; the epsilon floor in IEEE doubles."
 },
 "C37": {
  "note": "IEEE doubles, vectors of up to 2^53 replicates."
 },
 "C38": {
  "note": "IEEE doubles, vectors of up to 2^53 replicates."
 },
 "C39": {
  "note": "Totality and sign in IEEE doubles; minimality in exact arithmetic."
 },
 "C40": {
  "note": "IEEE doubles."
 },
 "C41": {
  "note": "Proved exactly for every size, and with IEEE rounding for up to 2^24 replicates."
 },
 "C42": {
  "note": "Full coherence is refuted; the true statement is proved exactly and with IEEE rounding (up to 2^48 replicates)."
 },
 "C43": {
  "note": "Proved exactly for every size, and with IEEE rounding for up to 2^24 replicates."
 },
 "C44": {
  "note": "IEEE doubles, finite data."
 },
 "C45": {
  "note": "Exact arithmetic with weights; IEEE doubles without weights (counts are exact)."
 },
 "C46": {
  "note": "Exact arithmetic with weights; IEEE doubles without weights."
 },
 "C47": {
  "note": "Exact arithmetic."
 },
 "C48": {
  "note": "Order-preserving transformations and reordering in IEEE doubles; values of the area in exact arithmetic."
 },
 "C49": {
  "note": "Exact arithmetic."
 },
 "C50": {
  "note": "Exact arithmetic with weights; IEEE doubles without weights; for doubles with extreme weights refuted (C50_weighted_doubles_refuted)."
 },
 "C51": {
  "note": "Exact arithmetic with weights; IEEE doubles without weights; for doubles with extreme weights refuted (C51_weighted_doubles_refuted)."
 },
 "C52": {
  "note": "Exact arithmetic, and IEEE doubles up to a total weight of 2^53."
 },
 "C53": {
  "note": "Exact arithmetic with weights; IEEE doubles without weights."
 },
 "C54": {
  "note": "Exact arithmetic. Pairwise comparison of precision-recall-gain areas is refuted (C54_pairwise_prg_refuted)."
 },
 "C55": {
  "note": "IEEE doubles; also exact arithmetic."
 },
 "C56": {
  "note": "Exact arithmetic; C56_degenerate (fewer than two points or infinite ones) for doubles."
 },
 "C57": {
  "note": "Exact arithmetic with any t-like distribution functions; degenerate inputs for IEEE doubles."
 },
 "C58": {
  "note": "Exact arithmetic."
 },
 "C59": {
  "note": "Exact arithmetic; for doubles refuted (C59_means_in_range_doubles_refuted)."
 },
 "C60": {
  "note": "Any arithmetic (IEEE doubles included)."
 },
 "C61": {
  "note": "Exact arithmetic; the unrestricted claim is refuted for doubles (C61_infinite_losses_refuted)."
 },
 "C62": {
  "note": "Exact arithmetic; for doubles refuted (C62_within_limits_doubles_refuted)."
 },
 "C78": {
  "note": "Exact arithmetic and IEEE doubles."
 },
 "C63": {
  "note": "Exact arithmetic, and first minimiser of the computed expected losses in any arithmetic; the 0-1 claim is refuted for doubles (C63_mode_in_doubles_refuted)."
 },
 "C64": {
  "note": "Exact arithmetic."
 },
 "C65": {
  "note": "Exact arithmetic; -inf log probabilities included."
 },
 "C66": {
  "note": "Exact arithmetic."
 },
 "C67": {
  "note": "Exact arithmetic."
 },
 "C68": {
  "note": "Exact arithmetic; rows without a real entry bypass the NaN check (C68_nan_check_bypassed)."
 },
 "C69": {
  "note": "Exact arithmetic, through get_pred_log_prob with arbitrary estimators."
 },
 "C70": {
  "note": "Exact arithmetic; that min_log_prob itself is a floor is refuted (C70_min_log_prob_floor_refuted)."
 },
 "C71": {
  "note": "Exact arithmetic."
 },
 "C72": {
  "note": "Exact arithmetic and doubles; zero square loss only at y = mu is refuted in doubles by underflow (C72_square_zero_doubles_refuted), the property is stated accordingly."
 },
 "C73": {
  "note": "Exact arithmetic."
 },
 "C74": {
  "note": "C74_min_std holds in any arithmetic, doubles included; finiteness of the log loss in exact arithmetic."
 },
 "C75": {
  "note": "joblib.Memory is modelled by its contract (Checkpoint.v); train/predict is a deterministic function of estimator state and data. Any arithmetic."
 },
 "C76": {
  "note": "Any arithmetic; C76_log_loss_of_scores exact."
 },
 "C77": {
  "note": "Entries and independence in any arithmetic, bounds in doubles, totality in exact arithmetic."
 },
 "C79": {
  "note": "pandas' to_string and to_latex are arbitrary functions of the assembled frame."
 },
 "C80": {
  "note": "Thresholds are exact over all doubles; the failure condition is an equivalence."
 },
 "C82": {
  "note": "For the pinned pandas 0.24, where ordering a Decimal NaN raises InvalidOperation."
 },
 "C83": {
  "note": "Any arithmetic; the *_rejected theorems say how other inputs are rejected."
 },
 "C84": {
  "note": "Any arithmetic."
 },
 "C85": {
  "note": "Any arithmetic. The documentation only asks for n_labels >= 1."
 },
 "C86": {
  "note": "Exact arithmetic, t distribution functions as in C57; C86_standard_losses shows that the losses of classification.py meet the hypothesis on losses."
 },
 "C87": {
  "note": "C87_cells and C87_independent in any arithmetic, C87_succeeds_iff exact."
 },
 "C88": {
  "note": "Loss tables and curve tables, each exact and in doubles. The math library is arbitrary up to exp(0) = 1 and NaN in, NaN out for the t survival function; columns up to 2^53 rows. Bernstein's pairwise error is not 0 (its range term remains)."
 },
 "C89": {
  "note": "Exact: p-values and all pairwise errors. Doubles: p-values bit for bit, pairwise errors for t and Bernstein; C89_curves_doubles_error_refuted shows that the bootstrap error of curves is not symmetric in doubles."
 },
 "C90": {
  "note": "Doubles, every order of addition that numpy may use. The two refutations show that the size conditions cannot be dropped."
 },
 "C91": {
  "note": "Doubles. The bound holds for every order of addition; numpy's pairwise order is more accurate for long vectors."
 },
 "C92": {
  "note": "Doubles. What is assumed of numpy and scipy is the record good_library (shown to be satisfiable): ranges and monotonicity of the t functions, log and exp, signs of the eigenvalues."
 },
 "C93": {
  "note": "Doubles, same assumptions as C92."
 },
 "C94": {
  "note": "Doubles, assumptions of C92 plus a bound on log for standard deviations in [2^-90, 2^90]."
 },
 "C95": {
  "note": "Doubles, any order of addition. What is assumed of exp and log are the records exp_log and accurate_exp_log, shown to hold for the correctly rounded functions."
 },
 "C96": {
  "note": "Doubles, assumptions exp_log. The Brier bound grows with the number of labels because exp_log alone allows an exp that is 1 everywhere."
 },
 "C97": {
  "note": "Doubles, assumptions of C92 and C96. The curves of the benchmark are not part of this theorem."
 },
 "C98": {
  "note": "Doubles, every rounding step. The condition on drawn negatives is needed for the proof of the allclose checks and the monotone counts with up to 100000 samples."
 },
 "C99": {
  "note": "Refutation (the property states what happens). The running sum of 1e-10 and k ones is computed exactly for every k between 2^20 and 2^40 by induction on the residue."
 },
 "C100": {
  "note": "Doubles, every rounding step. The pairwise precision-recall-gain curve is left out because it fails (C54)."
 },
 "C101": {
  "note": "Without pairwise_CI; the pairwise case is refuted for every library with the stated properties. Entries with mean -inf (gain curves) are left out."
 },
 "C102": {
  "note": "Forward error analysis of every step; relative to the quantiles and the logarithm the library returns. Without pairwise intervals for tables; the estimators themselves are covered for any losses, so also for differences. Bootstrap error bars are order statistics and not part of this."
 },
 "C103": {
  "note": "Forward error analysis of every step over the exact counts of C45. Unweighted curves with both classes; weighted (bootstrapped) curves and precision-recall-gain curves are not part of this."
 },
 "C104": {
  "note": "Forward error analysis. exp and log are only assumed accurate to the relative error of accurate_exp_log / accurate_log; a rounded exponential and logarithm meet this (C104_library). Zero-one and hard losses are covered by the decision theorem."
 },
 "C105": {
  "note": "Forward error analysis; order statistics are monotone and 1-Lipschitz (kth_perturb). A confidence whose rank is an integer up to rounding is excluded: there the interval may start one replicate off."
 },
 "C106": {
  "note": "Case analysis, generic in the arithmetic. A degenerate sample (one value, or not all finite) is answered by boot_EB without looking at the confidence, so that case is left out there."
 },
 "C107": {
  "note": "Case analysis, generic in the arithmetic. Assertions about computed values (pseudo points, precision, gain) are the subject of C45-C51."
 },
 "C108": {
  "note": "Case analysis. ordered_split_series and random_split_series alone are C20, C21 and C24; here as parts of split_df."
 }
}