# Formal model of PhiK in Rocq (Coq 8.16.1): design

The code is glue around numpy/pandas/scipy plus one C++ kernel (Patefield's algorithm AS 159). Each function of
`/repo/phik` has one Gallina definition that mirrors it branch by branch; Python exceptions are values (`Raise e`), C++
error codes, 32-bit overflow, out-of-bounds accesses and exhausted fuel are values too. Every definition cites file and
lines. Statements found false of the code are proved as `..._refuted` (or as an exact description of the defect) with a
witness, next to the guarded positive statement.

## What is modelled

| model file | code | numbers |
|---|---|---|
| `F64.v`, `FOrder.v` | IEEE binary64 (Flocq `BinarySingleNaN`, 53/1024, nearest even) | bit exact |
| `Base.v`, `Cells.v`, `Num.v` | exceptions, cells of data frames and their order, R + NaN/+-inf | - |
| `BinModel.v` | binning.py: bin_edges, bin_array, bin_data, create_correlation_overview input; np.linspace, searchsorted | binary64 |
| `QuantileModel.v` | bin_edges(quantile=True) | R |
| `HistModel.v` | binning.py:142-228 hist2d*, data_quality.py, utils.guess_interval_cols; groupby/count/unstack | counts |
| `StatsModel.v` | statistics.py: expected frequencies, chi2 (scipy chi2_contingency with and without the clamped Yates term), ndof | R |
| `BivModel.v`, `BrentModel.v` | bivariate.py; scipy's brentq (so that the assumed contract is shown to hold of an implementation) | R |
| `BrentFModel.v`, `Chi2FModel.v` | scipy's brentq, chi2_contingency, power_divergence, expected_freq and phik.py:76-101, bivariate.py:212-227, statistics.py:36-57,74-91 operation by operation; numpy's order of summation is a parameter | binary64 |
| `QuantileFModel.v` | np.quantile (method linear) and np.linspace as called by binning.py:36-37, numpy >= 1.20, and the formula of numpy 1.18/1.19 | binary64 |
| `SigFModel.v` | significance.py:131-151 (scipy's percentileofscore, two versions) and the mixture of 184 | binary64 |
| `GlobFModel.v` | phik.py:249 | binary64; `np.linalg.inv` returns an arbitrary matrix of floats |
| `OutFModel.v` | outliers.py:244-277 (poisson), 60-64, 169-174 | binary64; `pow(x,2)` under an accuracy contract, special functions arbitrary |
| `OutIntModel.v` | outliers.py:244-277 (poisson) on int64 and on float64 tables | numpy int64 wrap-around; which dtype arises follows pandas unstack/fillna |
| `PhikMatFModel.v` | phik.py:104-221 (phik_from_rebinned_df, _calc_phik, phik_matrix) in binary64 | pandas groupby mean as a compensated or plain running sum; special functions are parameters, as in `Chi2FModel.v` |
| `SearchModel.v` | numpy.searchsorted over an array of keys, binning.py:45-119 on top of it | bit exact; BinModel.v's per-value bisection is proved equal to it for ascending edges (C100), all other models use the latter |
| `GStatModel.v` | statistics.py:36-57 with lambda_='log-likelihood' | binary64, operation by operation, on top of `Chi2FModel.v`; log is a parameter with an accuracy hypothesis, summation order arbitrary |
| `ZTailModel.v` | statistics.py:108-138, significance.py:90-111 and 189-200 | the far-tail Z-values in binary64, operation by operation; log, exp, norm.ppf and chi2.sf are parameters |
| `LabelModel.v` | data_quality.py:24-90, binning.py:78-139, phik.py:103-223 with integer/string/repeated labels | pandas: df[label] of a repeated label is a frame; sorted() of mixed labels raises; pivot_table + reindex given by their entries |
| `LabelSigModel.v` | significance.py:242-338, outliers.py:384-564, binning.py:78-119 (dictionary) with integer/string/repeated labels | as LabelModel; '{0:s}'.format and str.join of a number raise |
| `CatModel.v` | binning.py:142-168, phik.py:161-184 on columns of category dtype | groupby with pandas' default observed=False; fillna on a categorical raises a parameter exception; phik.py's own `replace(nan, 'NaN')` (dropna=False) on a categorical not modelled |
| `PhikModel.v`, `ArrayModel.v`, `SparkModel.v` | phik.py: from_hist2d, rebinned, matrix, overview table, array API, global_phik, spark rows | R + NaN |
| `RcontModel.v`, `RcontGen.v` | simcore/asa159.cpp: r8_uniform_01, i4vec_sum, rcont2 (bit exact; and the same program with the arithmetic as a parameter) | int32, binary64 / R |
| `SimModel.v` | simulation.py, simcore/simulation.hpp, bindings.cpp (seed handling, buffers) | Z, R |
| `SimFModel.v` | simulation.py: arguments of numpy's multinomial generator and its argument checks (Kahan sum), Patefield totals | binary64 |
| `MCFModel.v` | simulation.py:187-202, significance.py:131-151 and 216-228: from the observed and simulated tables to the Monte-Carlo p-value | binary64 |
| `HybFModel.v` | significance.py:154-200 and 216-233 with 'hybrid', statistics.py:60-71: from the observed and simulated tables to the p-value and the Z-value; the fitted fraction and scipy's survival functions are parameters | binary64 |
| `SigMatFModel.v` | significance.py:203-338 `significance_from_hist2d`, `significance_from_rebinned_df`, `significance_matrix`, statistics.py:94-105; the simulated tables are an argument | binary64 |
| `OutMatFModel.v` | betainc.py:20-131 and outliers.py:33-241, 342-473 (CI_method='poisson'); scipy's and numpy's functions are parameters | binary64 |
| `OutMatsFModel.v` | outliers.py:476-629 (CI_method='poisson'): matrices of all or of requested pairs, and the functions for two arrays | binary64 |
| `SigModel.v` | significance.py incl. fit and hybrid method | R + NaN/inf |
| `BetaModel.v`, `OutModel.v` | betainc.py, outliers.py, statistics.z_from_logp | R + NaN/inf |
| `HeapModel.v` | which functions copy and which write into the caller's frame (all DataFrame entry points; decorators/pandas.py only attaches these functions to DataFrame and Series and has no definition of its own) | - |
| `ReportModel.v`, `ResModel.v` | report.py (selection of pairs, layout, ticks, bin edges), config.py, resources.py (over file-system histories) | - |

`Spec*.v` holds vocabulary that does not use the model (contingency tables, chi2, distribution functions, continued
fractions, hypergeometric probabilities ...); `*Proofs.v` holds lemmas; `Props*.v` holds the claimed theorems with
`Print Assumptions` and, beside them, `Example`s showing that the hypotheses are met by non-trivial cases.

## What is not modelled

* Rounding outside the parts with a binary64 model: binning.py's edges, quantiles and search (C90, C96, C100, C114, C115), the pearson and G statistics and the noise pedestal of a
  table of counts (C88, C102), the root finding of phik_from_chi2 and phik_from_hist2d (C86, C89; except the bivariate normal integrals, a parameter), the Monte-Carlo
  p-value and its mixture (C91), the global correlation (C92), the expected counts of the outlier functions (C93, integer overflow C97), the conversions of the simulation functions (C106), the MC and hybrid p-values from tables (C107, C111), phik_matrix and significance_matrix end to end (C99, C112), the continued fraction of betainc.py and the outlier matrix of two columns (C113), the far-tail Z-values (C103, C104) and asa159.cpp: everywhere else chi2, phik, p-values and Z-values are exact reals with NaN and
  infinities where branches depend on them; underflow of `exp` is a parameter of the library (np_exp).
* numpy/pandas/scipy: simple functions are written out (linspace, searchsorted, groupby, unstack, pivot_table mean,
  reindex, chi2_contingency, percentileofscore, brentq); the others are parameters with contracts that appear as hypotheses:
  `mvnun`, `norm.ppf/cdf`, `chi2.sf/ppf`, `poisson.sf`, `betainc`, `gammaln`, `linalg.inv`, `minimize`, `multinomial`,
  `randint`, `np.quantile` (modelled separately in binary64, C90), libm `exp`/`log`. Each contract is shown to be satisfiable (theorems slib_instance, olib_instance,
  true_library, C79_libraries ...).
* matplotlib drawing, printing and warnings texts (only that a warning is issued), joblib's scheduling (a parallel map is a
  map with per-task random state; see C54), the CMake build, notebooks, entry_points, version.
* Column names are strings and distinct (integer, mixed and repeated labels: only in `LabelModel.v` and `LabelSigModel.v`, for the phik, significance and outlier matrices); cells are NaN, ints, floats or strings (no dates, no mixed objects); infinite
  expected counts.
* int64 overflow of counts in numpy, except in the outlier expectations (C97).

## Trusted base

* Coq 8.16.1's kernel incl. its VM (`vm_compute`), and coqc/coq_makefile.
* Axioms, only from Coq's standard library, as printed by `Print Assumptions` (per theorem in ASSUMPTIONS.md):
  `ClassicalDedekindReals.sig_forall_dec`, `ClassicalDedekindReals.sig_not_dec`,
  `FunctionalExtensionality.functional_extensionality_dep`, `Classical_Prop.classic`. (A kernel-level listing also shows the
  primitive constants of the module-sealed standard reals and of ssreflect's `under`, which are not assumptions about the model.)
  Flocq and Coquelicot are used as libraries of proved lemmas; they add no axioms.
* That the Gallina definitions describe the Python/C++ code, and that the library contracts describe the libraries.

## Adequacy tests

`tools/mutants.py` lists seeded bugs, `tools/mutate.py` applies each to a scratch copy and rebuilds, `seeded/LOG.jsonl` records the
outcome: which theorems failed, and which theorems were added or tightened after a mutant survived.
