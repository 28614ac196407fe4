# Formal model of mlpaper: design

Source: `/repo` (rdturnermtl/mlpaper), read as text; nothing is executed.
Model and proofs: `rocq/theories`, Coq 8.16.1 with Flocq, Coquelicot and the
standard library.

## How the code is modelled

* **Shallow, function by function.**  Every Python function becomes a Gallina
  function with the same branches in the same order.  Python exceptions are
  values of an error monad (`PyBase.res`): every `assert`, `raise` and every
  library call that raises (`quantize`, comparison with a NaN `Decimal`, `max`
  of an empty list...) is an explicit `Err`.
* **Strings** are lists of ASCII characters.
* **`decimal.Decimal`** (`Dec.v`): sign, coefficient, exponent, plus
  infinities and NaN.  `Decimal(float)`, unary plus (context rounding),
  `quantize` (28 digit limit), `scaleb`, comparison and `"{0:,f}"` formatting
  are modelled on exact integers following the General Decimal Arithmetic rules
  used by Python.  Not modelled: Emax/Emin overflow of the decimal context
  (exponents beyond 999999, out of reach from doubles), decimal signals other
  than InvalidOperation.
* **IEEE doubles** (`F64.v`): Flocq's `BinarySingleNaN.binary_float 53 1024`, round to
  nearest even.  Used wherever rounding or special values decide the outcome.
* **Numeric code is generic** over a class `num T` (`Num.v`: arithmetic,
  comparisons, NaN/finite tests, truncation, constants) with two instances:
  `f64` (IEEE doubles) and `xr` (exact reals with +inf, -inf and NaN, following
  the IEEE rules for the special values).  The same definition is thus the model
  of the code run in doubles and the idealised code in exact arithmetic.
  `num_ok` (`NumOk.v`) collects order laws both instances satisfy; theorems over
  `num_ok` hold for both.  Transcendental functions (`sqrt`, `exp`, `log`, the t
  distribution, the eigenvalues of a 2x2 matrix) are a second class `fn T`
  (`MLPaper.v`): over `xr` they are the real functions (the t distribution is an
  arbitrary function with the properties stated in the theorem), over doubles
  they are arbitrary functions: no accuracy of libm is assumed.
* **Summation** of vectors (`np.sum`, `np.mean`, `np.var`) is numpy's pairwise
  summation as in numpy 1.15: `psum` in `Num.v`.  Rows of matrices made by
  indexing columns (`a[:, idx]`, the curves) are stored column by column, so that
  numpy sums them from left to right, except if there is only one row
  (`row_sum`).  `np.dot`, the sum of squares of a row in `brier_loss`,
  `logsumexp` and `cumsum` are left to right; BLAS may use another order, which
  matters only for statements about doubles.  `SumProofs.v` shows that all these
  are sums of the same terms in some order (`sums_to`), equal in exact
  arithmetic.  `-x` is `0 - x` (differs in the sign of zero only).
* **Randomness** is an oracle: a permutation for `random.choice(replace=False)`
  and `argsort` tie order, a list of draws for `random.rand`, a list of counts
  for `multinomial`.  Theorems quantify over every oracle answer.
* **Estimators** (`fit`, `predict_log_proba`, ...) are parameters, universally
  quantified in the theorems: functions of the state of the estimator and the
  data.  Two methods sharing one mutable estimator object are not modelled.
* **joblib.Memory** (`Checkpoint.v`) is modelled by its contract: results of
  completed calls are stored under function arguments and survive a crash; a
  partly written result is not used.
* **pandas** tables are association lists from labels to columns; only the label
  based access the code uses is modelled, the order of columns is not where it
  is not observable by label.  Null handling of Decimal NaN follows pinned
  pandas 0.24.

## Layout

`rocq/theories`: for each area a model file (definitions only, each citing the
file and lines it models), proof files, and a `Props_*.v` file that contains
the property theorems with `Print Assumptions` and, next to each, an
`Example` showing a concrete non-trivial instance of its hypotheses.
Specifications that are used to state the properties are in `Spec_*.v` or at
the head of the `Props_*.v` files and do not use helpers of the model.

| Source | Model | Proofs | Properties |
|---|---|---|---|
| `sciprint.py` | `Dec.v`, `Sciprint.v`, `TableExport.v` | `DecProofs`, `DecRound`, `FormatProofs`, `EstimateProofs`, `DecimalizeProofs`, `ShiftProofs`, `TableProofs`, `FormatTableProofs`, `HeaderProofs`, `ArgsortInst`, `ExportProofs` | `Spec_Sciprint`, `Props_Sciprint` (C01-C18), `Props_Export` (C79-C82) |
| `data_splitter.py` | `DataSplitter.v` | `SplitProofs*` | `Props_Splitter` (C19-C27) |
| `util.py` | `Util.v` | `ListLemmas`, `UtilProofs*` | `Props_Util` (C28-C35, C78) |
| `boot_util.py` | `BootUtil.v` | `BootProofs*` | `Props_Boot` (C36-C44) |
| `perf_curves.py` | `PerfCurves.v` | `PerfProofs*` | `Spec_Curves`, `Props_Curves` (C45-C53) |
| `classification.py` `curve_boot` | `CurveBoot.v` | `CurveProofs*` | `Props_Curves` (C53, C54) |
| `mlpaper.py` | `MLPaper.v` | `MLProofs*` | `Props_MLPaper` (C55-C62) |
| `classification.py` | `Classification.v`, `Benchmark.v` | `ClassProofs*`, `LossTableProofs`, `BenchProofs` | `Props_Classification` (C63-C67), `Props_Predict` (C68-C71), `Props_Tables` (C76, C77), `Props_Benchmark` (C83-C86) |
| `regression.py` | `Regression.v` | `RegrProofs`, `ClassProofs5` | `Props_Regression` (C72-C74), `Props_Tables`, `Props_Benchmark` (C83, C87) |
| comparisons with the reference | `MLPaper.v`, `CurveBoot.v`, `Classification.v` | `CompareProofs`, `SwapProofs` | `Props_Compare` (C88, C89) |
| the mean in doubles | `Util.v`, `MLPaper.v` | `SumProofs`, `MeanProofs` | `Props_Mean` (C90, C91) |
| loss tables in doubles | `MLPaper.v` | `DoublesProofs*` | `Props_Doubles` (C92, C93), `Props_DoublesBench` (C94) |
| `normalize` and the classification losses in doubles | `AnyNormalize.v`, `Classification.v` | `DoublesProofs4`, `DoublesProofs5` | `Props_DoublesClass` (C95-C97) |
| curves and their bootstrap in doubles | `PerfCurves.v`, `CurveBoot.v` | `CurveProofs4`-`CurveProofs8` | `Props_DoublesCurves` (C98), `Props_DoublesLarge` (C99) |
| the whole binary classification benchmark in doubles | `Classification.v`, `Benchmark.v` | the files above | `Props_DoublesFull` (C100) |
| printing what was computed in doubles | `MLPaper.v`, `Benchmark.v`, `TableExport.v` | `DoublesProofs6` | `Props_DoublesExport` (C101) |
| accuracy of the error bars in doubles | `MLPaper.v` | `AccuracyProofs` | `Props_Accuracy` (C102) |
| accuracy of areas under curves in doubles | `PerfCurves.v`, `Util.v`, `CurveBoot.v` | `AreaAccuracy` | `Props_AreaAccuracy` (C103) |
| accuracy of the losses in doubles | `AnyNormalize.v`, `Classification.v`, `Regression.v`, `MLPaper.v` | `LossAccuracy` | `Props_LossAccuracy` (C104) |
| accuracy of the bootstrap in doubles | `BootUtil.v`, `MLPaper.v` | `BootAccuracy` | `Props_BootAccuracy` (C105) |
| refused input | all modules but `Regression.v` (C72) | - | `Props_Rejects` (C106, C107, C108) |
| checkpoints of both | `Checkpoint.v` | `CheckpointProofs` | `Props_Tables` (C75) |

`PyBase.v` (exceptions, strings, dictionaries), `F64.v`/`F64Lemmas.v`,
`Num.v`/`NumOk.v` are shared.

Not modelled: the text layout done by pandas' `to_string`/`to_latex` (an arbitrary function of
the assembled frame), the demos, docstring examples,
`__init__`, warnings and printed diagnostics, the dtype check between `y_train` and
`y_test` of the two `just_benchmark` functions.

## Where the code does not do what one expects

Each of these is a theorem `..._refuted` with a concrete witness; the property in
`properties.jsonl` says what is true instead, and that is proved for all inputs.

| Theorem | Finding |
|---|---|
| C10_all_small_refuted | `get_shift_range`: all_small=False although no number is >= 1, if the list has a zero |
| C14_tex_times_refuted | TeX header: `"\times"` is not a raw string, the header has a TAB and `imes` |
| C24_ordered_accepts_all_refuted | `ordered_split_series` raises for frac such as 0.8 of 10 values |
| C27_build_lag_df_returns_refuted | `build_lag_df` always raises TypeError |
| C30_order_in_doubles_refuted | `epsilon_noise` can merge neighbouring doubles |
| C42_significant_is_outside_refuted | bootstrap test and interval are not exactly dual |
| C50_, C51_weighted_doubles_refuted | weights differing by more than 2^53 trip assertions of the curves |
| C54_pairwise_prg_refuted | pairwise precision-recall-gain areas of -inf make `curve_boot` raise |
| C59_means_in_range_doubles_refuted, C62_within_limits_doubles_refuted | the mean of three 0.1 exceeds 0.1: a loss table within its limits is rejected |
| C61_infinite_losses_refuted | infinite losses of method and reference on one row are fatal |
| C63_mode_in_doubles_refuted | the Bayes decision need not be the most probable label in doubles |
| C70_min_log_prob_floor_refuted | reported log probabilities can be below min_log_prob (renormalised after flooring) |
| C72_square_zero_doubles_refuted | the square loss of a wrong prediction can underflow to zero |
| `C89_curves_doubles_error_refuted` | in doubles the pairwise bootstrap error of a curve depends on which of the two methods is the reference: the upper and the lower percentile index are rounded differently |
| `C90_overflow_refuted`, `C90_cancelling_refuted` | huge finite losses: the sum overflows (or becomes inf - inf in the pairwise summation) and the assertion of `clip_chk` fires although the losses are within their limits |
| `C92_top_confidence_refuted` | `confidence = 1 - 2^-53` passes the check `confidence < 1`, but `(1 + confidence) / 2` rounds to 1 and constant losses make `t_EB` raise (infinity times zero) |
| `C99_large_samples_refuted` | from 2^20 + 2 samples on, `curve_boot` raises AssertionError (recall-precision and gain curves) if the only negative sample has the top score and one replicate does not draw it: its weight 1e-10 vanishes in `np.cumsum` |
| `C101_pairwise_refuted` | with `pairwise_CI` two nearly equal methods have an error bar so small beside the mean that `just_format_it` raises: the mean needs more than 28 digits |
| `C103_tie_refuted` | two classifiers with exactly the same area under the ROC curve can get different doubles |

Further surprises that are theorems of their own: `just_format_it` with default
settings raises on any error bar above 99 (C80), and its `non_finite_fmt` entries for
estimates have no effect (C82); `classification.just_benchmark` always raises
unless there are exactly two labels and at least one curve (C85).

## Trusted base

* Coq's kernel (and `vm_compute`, which is part of it).
* The axioms `Print Assumptions` lists for each theorem: see `ASSUMPTIONS.md`,
  generated from the build.  They are all the standard library's: none at all,
  or `ClassicalDedekindReals.sig_forall_dec`,
  `ClassicalDedekindReals.sig_not_dec`,
  `FunctionalExtensionality.functional_extensionality_dep` and
  `Classical_Prop.classic` (the axioms behind Coq's real numbers, used by Flocq).
  No axiom is added here.
* That the model mirrors the code (the comments cite the lines), and the
  contracts of numpy, scipy, pandas, decimal and joblib described above.

## Per property plan

| Property | Model | Method |
|---|---|---|
| C01-C03 | `print_estimate` on exact decimals and strings | number parser as spec; induction on digits, comma groups |
| C04-C07 | `Decimal(float)`, rounding, `quantize` | integer rounding lemmas, values in R via Flocq |
| C08 | `print_pval` after `decimalize` | parity argument: 10^-k is not dyadic |
| C09, C10 | `get_shift_range` | integer arithmetic; C10 refuted by zeros |
| C11 | `find_shift` with argsort oracle | fold invariant |
| C12 | `pad_num_str`, `find_last_dig` | list lemmas |
| C13, C14 | `adjust_headers`, prefix table | case analysis; C14 refuted |
| C15-C18 | whole `decimalize` / `format_table` pipeline | composition of the above |
| C19-C27 | `data_splitter` with RNG permutation oracle, IEEE fractions | list permutation lemmas, Flocq rounding; C24, C27 refuted |
| C28-C34 | `util` | list induction, Flocq `Bsucc` for C32 |
| C35 | `area` | Coquelicot `RInt`, induction over segments |
| C36-C44 | `boot_util` | sorting and counting; C42 refuted |
| C45-C53 | `perf_curves` over doubles and exact numbers | refinement of the cumsum/threshold algorithm to the counting spec, then algebra |
| C54 | `curve_boot` | totality in exact arithmetic; pairwise PRG refuted |
| C55-C59 | `mlpaper` statistics | IEEE case analysis (C55), real algebra |
| C60-C62 | `loss_summary_table` | structural; C61, C62 refuted |
| C63-C71 | `classification` losses, exact (and doubles where stated) | sums, Gibbs, Cauchy-Schwarz; C70 refuted |
| C72-C74 | `regression`, exact (and doubles where stated) | calculus-free inequalities (ln x <= x-1) |
| C75 | joblib cache as a finite map surviving crashes | induction over histories |
| C76, C77 | tables | structural |
| C78 | `clip_chk` | case analysis |
| C79-C82 | `just_format_it` and the two exporters | frame assembled from C13, C16, C18; exact rounding thresholds for C80 |
| C83-C87 | both `just_benchmark` and what they call | composition of C60-C62, C65-C67, C72, C76, C77; exact success conditions |
| C88 | a method equal to the reference | the differences are zeros; class `zero_laws` for both arithmetics |
| C89 | exchanging method and reference | negation commutes with rounded arithmetic (`v64` to extended reals); class `swap_laws` |
| C90 | the check on the mean never fires | one-sided bounds on partial sums, monotone rounding |
| C91 | accuracy of the mean | relative error of each addition, induction over any summation tree |
| C92, C93 | `loss_summary_table` in doubles | powers of two bounding every intermediate result, monotone rounding; the library functions only through `good_library` |
| C94 | `regression.just_benchmark` in doubles | the steps of C87 with the losses bounded by powers of two, then C92 and C93 |
| C95 | `normalize` in doubles | for every order of addition: shape and order from monotone rounding; accuracy by propagating relative errors through exp, sum and log (`accurate_exp_log`, met by the correctly rounded functions) |
| C96 | the classification losses in doubles | ranges from monotone rounding; exp and log only through `exp_log` |
| C97 | `get_pred_log_prob`, `loss_table` and `loss_summary_table` in doubles | C95 and C96, then C76, C92 and C93 |
| C98 | `curve_boot` in doubles | weighted counts as multiples of a power of two: running sums of 1e-10 and integers keep a gap that rounding cannot close (`gap_big`); relative errors of sums for the allclose checks; distinct axis points are at least 2^-452 apart, so interpolation slopes do not overflow; areas by telescoping |
| C99 | `curve_boot` with a million samples | the partial sums of 1e-10 + 1 + ... + 1 by induction: in units of the last place the residue is constant between powers of two and halves (rounded to even) at each one until it is 0 at 2^20 (`ones_fold`); then the curve is evaluated symbolically |
| C100 | `curve_summary_table` and `classification.just_benchmark` in doubles | C98 for each entry through the table equations of C77, then C97 |
| C101 | from the benchmarks in doubles to `just_format_it` | doubles of different size leave a gap: a difference of two doubles, and so a standard deviation or percentile distance, is 0 or at least 2^-53 of the larger (`format_grid`, `apart`), through all estimators (`mean_and_EB_resolved`, `error_bar_resolved`); then C79 and C80 |
| C102 | exact error bars up to rounding | forward error analysis in reals: mean (C91), squared deviations around the rounded mean (`sq_sum_mid` turns the error of the mean into one square), sum in any order, `sqrt_err`; factors collected as products of numbers near 1 (`near`), clipping is 1-Lipschitz (`clip_err`) |
| C103 | areas of unweighted curves up to rounding | the counts are exact doubles (C45), so each rate is one rounded quotient; error of one strip (`strip_linear`, `strip_previous`), sum in any order (`sums_err`), C47 for the exact value; the order up to 65536 samples because the statistic is a multiple of 1/(2 P N) |
| C104 | losses of normalized scores up to rounding | the normalized entry is ln(share) up to (L + A) u (C95), exp turns this into an absolute error of the share; squares and the norm (at least 1/sqrt L) by Lipschitz bounds (`brier_soft_err`, `sphere_soft_err`), expected losses by `risk_err`; means by C93's `sums_err` |
| C105 | bootstrap intervals, error bars, p-values up to rounding | rank arithmetic by the distance to the next integer (`percentile_exact`); replicates by `sums_err` with weights (`replicate_err`); the k-th order statistic is 1-Lipschitz in the maximum norm (`kth_perturb`); tails change only by replicates within the error of zero (`p_value_err`); pairwise differences are themselves rounded (`deltas_ok`) |
| C106-C108 | what is refused, and with which exception | case analysis along the chain of assertions (`step`); a failing element of a comprehension makes the whole comprehension fail (`mapM_no`); specification by `Exists` over the input, `refused` = AssertionError, `no_result` = some exception |
