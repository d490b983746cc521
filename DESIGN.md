# Formal model of PhiK in Rocq (Coq 8.16.1): design

The code is glue around numpy/pandas/scipy plus one C++ kernel (Patefield's algorithm AS 159). Each function of
`/repo/phik` has one Gallina definition that mirrors it branch by branch; Python exceptions are values (`Raise e`), C++
error codes, 32-bit overflow, out-of-bounds accesses and exhausted fuel are values too. Every definition cites file and
lines. Statements found false of the code are proved as `..._refuted` (or as an exact description of the defect) with a
witness, next to the guarded positive statement.

## What is modelled

| model file | code | numbers |
|---|---|---|
| `F64.v`, `FOrder.v` | IEEE binary64 (Flocq `BinarySingleNaN`, 53/1024, nearest even) | bit exact |
| `Base.v`, `Cells.v`, `Num.v` | exceptions, cells of data frames and their order, R + NaN/+-inf | - |
| `BinModel.v` | binning.py: bin_edges, bin_array, bin_data, create_correlation_overview input; np.linspace, searchsorted | binary64 |
| `QuantileModel.v` | bin_edges(quantile=True) | R |
| `HistModel.v` | binning.py:142-228 hist2d*, data_quality.py, utils.guess_interval_cols; groupby/count/unstack | counts |
| `StatsModel.v` | statistics.py: expected frequencies, chi2 (scipy chi2_contingency with and without the clamped Yates term), ndof | R |
| `BivModel.v`, `BrentModel.v` | bivariate.py; scipy's brentq (so that the assumed contract is shown to hold of an implementation) | R |
| `BrentFModel.v`, `Chi2FModel.v` | scipy's brentq, chi2_contingency, power_divergence, expected_freq and phik.py:76-101, bivariate.py:212-227, statistics.py:36-57,74-91 operation by operation; numpy's order of summation is a parameter | binary64 |
| `QuantileFModel.v` | np.quantile (method linear) and np.linspace as called by binning.py:36-37, numpy >= 1.20, and the formula of numpy 1.18/1.19 | binary64 |
| `SigFModel.v` | significance.py:131-151 (scipy's percentileofscore, two versions) and the mixture of 184 | binary64 |
| `GlobFModel.v` | phik.py:249 | binary64; `np.linalg.inv` returns an arbitrary matrix of floats |
| `OutFModel.v` | outliers.py:244-277 (poisson), 60-64, 169-174 | binary64; `pow(x,2)` under an accuracy contract, special functions arbitrary |
| `OutIntModel.v` | outliers.py:244-277 (poisson) on int64 and on float64 tables | numpy int64 wrap-around; which dtype arises follows pandas unstack/fillna |
| `PhikMatFModel.v` | phik.py:104-221 (phik_from_rebinned_df, _calc_phik, phik_matrix) in binary64 | pandas groupby mean as a compensated or plain running sum; special functions are parameters, as in `Chi2FModel.v` |
| `SearchModel.v` | numpy.searchsorted over an array of keys, binning.py:45-119 on top of it | bit exact; BinModel.v's per-value bisection is proved equal to it for ascending edges (C100), all other models use the latter |
| `GStatModel.v` | statistics.py:36-57 with lambda_='log-likelihood' | binary64, operation by operation, on top of `Chi2FModel.v`; log is a parameter with an accuracy hypothesis, summation order arbitrary |
| `ZTailModel.v` | statistics.py:108-138, significance.py:90-111 and 189-200 | the far-tail Z-values in binary64, operation by operation; log, exp, norm.ppf and chi2.sf are parameters |
| `LabelModel.v` | data_quality.py:24-90, binning.py:78-139, phik.py:103-223 with integer/string/repeated labels | pandas: df[label] of a repeated label is a frame; sorted() of mixed labels raises; pivot_table + reindex given by their entries |
| `LabelSigModel.v` | significance.py:242-338, outliers.py:384-564, binning.py:78-119 (dictionary) with integer/string/repeated labels | as LabelModel; '{0:s}'.format and str.join of a number raise |
| `CatModel.v` | binning.py:142-168, phik.py:161-184 on columns of category dtype | groupby with pandas' default observed=False; fillna on a categorical raises a parameter exception; phik.py's own `replace(nan, 'NaN')` (dropna=False) on a categorical not modelled |
| `PhikModel.v`, `ArrayModel.v`, `SparkModel.v` | phik.py: from_hist2d, rebinned, matrix, overview table, array API, global_phik, spark rows | R + NaN |
| `RcontModel.v`, `RcontGen.v` | simcore/asa159.cpp: r8_uniform_01, i4vec_sum, rcont2 (bit exact; and the same program with the arithmetic as a parameter) | int32, binary64 / R |
| `SimModel.v` | simulation.py, simcore/simulation.hpp, bindings.cpp (seed handling, buffers) | Z, R |
| `SimFModel.v` | simulation.py: arguments of numpy's multinomial generator and its argument checks (Kahan sum), Patefield totals | binary64 |
| `MCFModel.v` | simulation.py:187-202, significance.py:131-151 and 216-228: from the observed and simulated tables to the Monte-Carlo p-value | binary64 |
| `HybFModel.v` | significance.py:154-200 and 216-233 with 'hybrid', statistics.py:60-71: from the observed and simulated tables to the p-value and the Z-value; the fitted fraction and scipy's survival functions are parameters | binary64 |
| `SigMatFModel.v` | significance.py:203-338 `significance_from_hist2d`, `significance_from_rebinned_df`, `significance_matrix`, statistics.py:94-105; the simulated tables are an argument | binary64 |
| `OutMatFModel.v` | betainc.py:20-131 and outliers.py:33-241, 342-473 (CI_method='poisson'); scipy's and numpy's functions are parameters | binary64 |
| `OutMatsFModel.v` | outliers.py:476-629 (CI_method='poisson'): matrices of all or of requested pairs, and the functions for two arrays | binary64 |
| `SigModel.v` | significance.py incl. fit and hybrid method | R + NaN/inf |
| `BetaModel.v`, `OutModel.v` | betainc.py, outliers.py, statistics.z_from_logp | R + NaN/inf |
| `HeapModel.v` | which functions copy and which write into the caller's frame (all DataFrame entry points; decorators/pandas.py only attaches these functions to DataFrame and Series and has no definition of its own) | - |
| `ReportModel.v`, `ResModel.v` | report.py (selection of pairs, layout, ticks, bin edges), config.py, resources.py (over file-system histories) | - |

`Spec*.v` holds vocabulary that does not use the model (contingency tables, chi2, distribution functions, continued
fractions, hypergeometric probabilities ...); `*Proofs.v` holds lemmas; `Props*.v` holds the claimed theorems with
`Print Assumptions` and, beside them, `Example`s showing that the hypotheses are met by non-trivial cases.

## What is not modelled

* Rounding outside the parts with a binary64 model: binning.py's edges, quantiles and search (C90, C96, C100, C114, C115), the pearson and G statistics and the noise pedestal of a
  table of counts (C88, C102), the root finding of phik_from_chi2 and phik_from_hist2d (C86, C89; except the bivariate normal integrals, a parameter), the Monte-Carlo
  p-value and its mixture (C91), the global correlation (C92), the expected counts of the outlier functions (C93, integer overflow C97), the conversions of the simulation functions (C106), the MC and hybrid p-values from tables (C107, C111), phik_matrix and significance_matrix end to end (C99, C112), the continued fraction of betainc.py and the outlier matrix of two columns (C113), the far-tail Z-values (C103, C104) and asa159.cpp: everywhere else chi2, phik, p-values and Z-values are exact reals with NaN and
  infinities where branches depend on them; underflow of `exp` is a parameter of the library (np_exp).
* numpy/pandas/scipy: simple functions are written out (linspace, searchsorted, groupby, unstack, pivot_table mean,
  reindex, chi2_contingency, percentileofscore, brentq); the others are parameters with contracts that appear as hypotheses:
  `mvnun`, `norm.ppf/cdf`, `chi2.sf/ppf`, `poisson.sf`, `betainc`, `gammaln`, `linalg.inv`, `minimize`, `multinomial`,
  `randint`, `np.quantile` (modelled separately in binary64, C90), libm `exp`/`log`. Each contract is shown to be satisfiable (theorems slib_instance, olib_instance,
  true_library, C79_libraries ...).
* matplotlib drawing, printing and warnings texts (only that a warning is issued), joblib's scheduling (a parallel map is a
  map with per-task random state; see C54), the CMake build, notebooks, entry_points, version.
* Column names are strings and distinct (integer, mixed and repeated labels: only in `LabelModel.v` and `LabelSigModel.v`, for the phik, significance and outlier matrices); cells are NaN, ints, floats or strings (no dates, no mixed objects); infinite
  expected counts.
* int64 overflow of counts in numpy, except in the outlier expectations (C97).

## Trusted base

* Coq 8.16.1's kernel incl. its VM (`vm_compute`), and coqc/coq_makefile.
* Axioms, only from Coq's standard library, as printed by `Print Assumptions` (per theorem in ASSUMPTIONS.md):
  `ClassicalDedekindReals.sig_forall_dec`, `ClassicalDedekindReals.sig_not_dec`,
  `FunctionalExtensionality.functional_extensionality_dep`, `Classical_Prop.classic`. (A kernel-level listing also shows the
  primitive constants of the module-sealed standard reals and of ssreflect's `under`, which are not assumptions about the model.)
  Flocq and Coquelicot are used as libraries of proved lemmas; they add no axioms.
* That the Gallina definitions describe the Python/C++ code, and that the library contracts describe the libraries.

## Adequacy tests

`tools/mutants.py` lists seeded bugs, `tools/mutate.py` applies each to a scratch copy and rebuilds, `seeded/LOG.jsonl` records the
outcome: which theorems failed, and which theorems were added or tightened after a mutant survived.

## Per property

| id | property | how it is proved | status | theorem files |
|---|---|---|---|---|
| C01 | bin_array assigns every value to exactly one bin | bin_array on binary64; invariant of the bisection of searchsorted | proved | PropsBin.v |
| C02 | bin labels are exactly the populated bins, in order | same model; filtered index list compared with the sorted set of populated bins | proved | PropsBin.v |
| C03 | uniform automatic bin edges are well formed in binary64 | np.linspace bit by bit with Flocq; relative-error lemmas give order, end points and spacing | proved | PropsBin.v, PropsBin2.v |
| C04 | uniform automatic binning loses the smallest value unless -128 < min <= 128 | rounding of min - 1e-14 analysed by exponent ranges; the two regimes are separate theorems | proved | PropsBin.v |
| C05 | quantile bin edges cover the data and split it evenly (exact arithmetic) | exact-real quantile interpolation (order statistics); a second theorem in binary64 with np.quantile as a parameter | proved | PropsBin.v, PropsBin2.v |
| C06 | bin_data changes only the requested columns and keeps the records aligned | induction over the loop on columns | proved | PropsBin.v |
| C07 | bin_data with an unsupported bins entry silently reuses another column's edges | the Python local xbins is an explicit optional state | proved | PropsBin.v |
| C08 | hist2d counts every complete record exactly once | groupby/count/unstack as sorted distinct keys and counts; characterised by is_table_of | proved | PropsHist.v |
| C09 | dropna / drop_underflow / drop_overflow select exactly the documented records, except for look-alike labels | cell-wise cleaning compared with counted_as | proved | PropsHist.v |
| C10 | record order does not matter and swapping columns transposes | is_table_of is a function of the multiset of records and determines the table | proved | PropsHist.v |
| C11 | repeated analysis of the same pre-binned frame | frames are objects in a heap; induction over any sequence of calls | proved | PropsHeap.v |
| C12 | the DataFrame-level functions never modify the caller's frame | same heap model: frame condition of every program | proved | PropsHeap.v |
| C13 | hist2d rejects frames that do not have two columns | case analysis on the number of columns | proved | PropsHist.v, PropsOut3.v |
| C14 | the chi2 statistic is defined for every table with records | scipy chi2_contingency in exact reals incl. Yates; algebra of finite sums | proved | PropsStats.v, PropsStats2.v |
| C15 | chi2 depends only on the association, not on presentation | permutation/transposition of sums | proved | PropsStats.v |
| C16 | chi2 is bounded by the maximum phik uses | Cauchy-Schwarz style bound on sums | proved | PropsGMax.v, PropsStats.v |
| C17 | chi2 is zero exactly for independence | sum of squares is zero | proved | PropsStats.v |
| C18 | expected frequencies preserve all totals | sums | proved | PropsStats.v |
| C19 | degrees of freedom | integer arithmetic on zero patterns | proved | PropsStats.v |
| C20 | the half-table shortcut for the bivariate normal is exact | symmetry of the rectangle probabilities of the bivariate normal (contract of mvnun) | proved | PropsBiv.v |
| C21 | phik_from_chi2 returns a number in [0,1] | branch analysis with the root-finder contract (proved for a model of brentq in BrentProofs.v) | proved | PropsBiv.v, PropsBiv2.v |
| C22 | chi2_from_phik and phik_from_chi2 are inverse up to the solver tolerance | bracket argument on the monotone chi2(rho) | proved | PropsBiv.v, PropsBiv2.v |
| C23 | phik is monotone in chi2 up to the solver tolerance | bracket argument | proved | PropsBiv.v |
| C24 | chi2_from_phik with explicit edges but default bin counts yields a negative scale | explicit evaluation | proved | PropsBiv.v |
| C25 | bivariate_normal_theory | algebra of the grid | proved | PropsBiv.v, PropsBiv2.v |
| C26 | phik_from_hist2d is a number in [0,1] for every valid table | composition of C14-C22 | proved | PropsPhik.v, PropsPhik2.v |
| C27 | phik of a table is symmetric and label-independent | permutation invariance of each step | proved | PropsPhik.v |
| C28 | perfect association gives 1, except for two binary variables | closed form of chi2 for perfect association | proved | PropsPhik.v |
| C29 | independence gives 0 | C17 composed with the clipping | proved | PropsPhik.v |
| C30 | without noise correction phik does not depend on the sample size | homogeneity of chi2 and of the scale | proved | PropsPhik.v |
| C31 | phik_matrix layout | pivot/reindex assembly of the pair results | proved | PropsPhik.v, PropsPhik2.v |
| C32 | the correlation table does not depend on the order in which pair results arrive | sorting of keys makes assembly permutation invariant | proved | PropsPhik.v |
| C33 | overview table entries | sums over lists | proved | PropsPhik.v |
| C34 | record order and category names do not influence phik_matrix | commutation of every step with record permutations and renamings | proved | PropsPhik.v |
| C35 | phik_from_array agrees with phik_matrix only if nothing is missing | array cleaning vs frame cleaning, cell by cell | proved | PropsPhik.v, PropsPhik2.v |
| C36 | spark histogram keys are split at ':' without validation | string splitting by induction | proved | PropsPhik.v |
| C37 | global_phik is a number in [0,1) when the phik matrix is positive definite | positive definite matrices: inverse diagonal at least 1 (quadratic forms) | proved | PropsPhik.v, PropsPhik2.v |
| C38 | which columns survive the data-quality check | list filtering | proved | PropsHist.v |
| C39 | dq_check_hist2d | case analysis | proved | PropsBin2.v, PropsHist.v |
| C40 | p-values are probabilities | contracts of the scipy tails; percentile rank in [0,1] | proved | PropsSig.v, PropsSig2.v |
| C41 | the MC p-value is monotone and exact | counting | proved | PropsSig.v |
| C42 | the low-statistics switch does not use the average bin content | integer inequality | proved | PropsSig.v |
| C43 | the Chernoff fallback is well defined and monotone | convexity of u - ln u; Chernoff's bound for the true chi2 law and Mills' bounds for the normal law (Coquelicot integrals) | proved | PropsGauss.v, PropsSig.v, PropsSig2.v |
| C44 | significance method dispatch | all strings by string equality | proved | PropsSig.v, PropsSim.v |
| C45 | significance_matrix layout | assembly as in C31, random state threaded | proved | PropsSig.v |
| C46 | the random number generator is the minimal standard generator | Schrage's decomposition in 32-bit arithmetic; order of 16807 modulo the Mersenne prime (trial division and modular powers evaluated by the kernel, order argument by Bezout) | proved | PropsRcont.v, PropsRcont2.v |
| C47 | Patefield tables have exactly the requested totals | weakest preconditions for every loop of asa159.cpp, for all floating-point comparisons | proved | PropsRcont.v |
| C48 | Patefield always terminates without leaving its arrays | same, plus a variant for the search loop; explicit fuel | proved | PropsRcont.v, PropsRcont2.v |
| C49 | Patefield integer overflow | int32 range checks are part of the semantics | proved | PropsRcont.v |
| C50 | sim_2d_data_patefield returns the transposed table | index arithmetic | proved | PropsSim.v |
| C51 | a seed of 0 is ignored | dispatch on the seed | proved | PropsRcont.v, PropsSim.v |
| C52 | multinominal simulation keeps the total | contract of numpy multinomial | proved | PropsSim.v, PropsSim2.v |
| C53 | row/col product multinominal are interchanged | sums over rows and columns; witnesses | proved | PropsSim.v, PropsSim2.v |
| C54 | simulated chi2 distribution | sequential and parallel maps over an abstract random state | proved | PropsSim.v, PropsSim2.v |
| C55 | the outlier expectation of a cell does not depend on the cell | finite sums; derivatives with Coq Reals | proved | PropsOut.v, PropsOut5.v |
| C56 | outlier expectation is exact under independence and commutes with transposition | algebra | proved | PropsOut.v |
| C57 | mid-p value | contracts of the tails; with the true laws the tails are identified (series of the negative binomial, incomplete gamma/beta integrals) | proved | PropsOut.v, PropsOut2.v, PropsOut5.v |
| C58 | log p-values agree with p-values | algebra of logarithms over R extended by NaN/inf | proved | PropsBeta2.v, PropsOut.v |
| C59 | Z-values have the right sign, order and NaN behaviour | monotone inverse | proved | PropsOut2.v, PropsOut3.v |
| C60 | outlier matrix labels name the right bins | sorted labels vs positions | proved | PropsOut3.v |
| C61 | outlier matrices dictionary keys can collide | fold of dict updates | proved | PropsOut4.v |
| C62 | constant column makes outlier_significance_matrix raise | case analysis | proved | PropsOut3.v, PropsOut4.v |
| C63 | continued fraction evaluation | loop invariant: the numerators and denominators are those of the convergents; positivity of tails | proved | PropsBeta.v |
| C64 | log_incompbeta is the logarithm of incompbeta | algebra | proved | PropsBeta.v |
| C65 | uncertainties are positive | branches; Garwood interval through the chi2/Poisson identity | proved | PropsOut.v, PropsOut2.v, PropsOut5.v |
| C66 | correlation_report selects pairs by both thresholds and fails on undefined pairs | fold over pairs | proved | PropsReport.v |
| C67 | plot layout keeps labels with their data | positions and flips of lists | proved | PropsPlot.v |
| C68 | tick label truncation ignores the top parameter | string lengths | proved | PropsPlot.v |
| C69 | number of worker processes | integer arithmetic | proved | PropsPlot.v |
| C70 | resource lookup | case analysis | proved | PropsPlot.v |
| C71 | the fit of the simulated distribution is well posed | histogram counting, exact reals | proved | PropsSig.v, PropsSig2.v |
| C72 | asymptotic significance: symmetry and empty rows | permutation of sums | proved | PropsSig.v |
| C73 | significance of pre-binned arrays | table characterisation as in C08 | proved | PropsSig.v, PropsSig2.v |
| C74 | far tail of the Z-value formula | monotone function u - ln u; Mills' bounds | proved | PropsGauss.v, PropsOut2.v |
| C75 | bin edges of plot_hist_and_func | length of linspace | proved | PropsPlot.v |
| C76 | a duplicated column makes global_phik fail | two equal rows are singular | proved | PropsGlobal.v |
| C77 | functional dependence gives phik 1 | C28 lifted to frames | proved | PropsGlobal.v |
| C78 | simulated tables with fixed totals have Fisher's distribution | the same program run on reals: the set of variates leading to a table is a box whose volume is computed by induction over cells and rows | proved | PropsTableDist.v |
| C79 | a Z-value is the number of Gaussian standard deviations of its p-value | uniqueness of functions with given derivative and limits (mean value theorem); Gaussian integral | proved | PropsGauss.v |
| C80 | outlier matrices of two arrays | frame of two arrays; bin numbers bounded by the number of edges | proved | PropsOut6.v |
| C81 | phik is the correlation of a bivariate normal distribution | iterated Riemann integral of the density (Coquelicot); derivative in rho is the mixed difference of the density (Plackett), which is a positive semidefinite kernel (power series of exp), so the slope of chi2 is a sum of squares; for 2 x c bins the slope is summed by parts over the bins, conditional probabilities being unimodal (BvnProofs4, BvnProofs5); explicit bounds for rho -> 1 | proved | PropsBvn.v |
| C82 | the incomplete beta function is the distribution function of the beta law | contiguous relations of the hypergeometric series give the exact tails of the fraction; truncated tails contract geometrically; the error of a convergent is expressed by its last step and the tail (chain sequences bound the denominators); the series solves the differential equation of the incomplete beta integral | proved | PropsBeta2.v |
| C83 | false-positive rate of the Monte-Carlo p-value | counting ranks | proved | PropsMC.v |
| C84 | no result depends on the order of the records | every step commutes with permutations of the records; induction over programs | proved | PropsOrder.v |
| C85 | the order of the columns and the names of the categories only move or rename the entries | uniqueness of inverses and of reassembled tables | proved | PropsCols.v |
| C86 | phik lies in [0,1] in floating-point arithmetic, but a chi2 one rounding error below the maximum can make it fail | sign algebra of binary64 operations; bracket invariant; relative rounding errors | proved | PropsFloatPhik.v |
| C87 | resource files over every history of the file system | state machine over histories; invariant: an entry is in the file system iff its last touching event created it; injectivity of path joining for slash-free names | proved | PropsRes.v |
| C88 | the chi2 statistic of a table of counts survives rounding | Chi2FModel (binary64 model, summation order a parameter); standard error analysis with Flocq: sums in any order, quotient and square errors per cell, Cauchy-style summation of the cell errors; comparison with the exact model StatsModel | proved | PropsChi2F.v |
| C89 | phik of a contingency table in floating-point arithmetic | Chi2FModel on top of C88, C86 and exactness of the pedestal and of the maximum | proved | PropsChi2F.v |
| C90 | Quantile edges in floating point: ascending, from the smallest to the largest value, accurate | np.quantile (linear) on IEEE binary64 (Flocq): linspace points are within 2^-50 of k/n, hence the virtual indices are at least 2^-41 apart; the two-sided interpolation lies between its end points and is monotone across such gaps (case split on t < 1/2, Sterbenz, monotone rounding); accuracy by a Lipschitz argument on the exact quantile. | proved | PropsQuantF.v |
| C91 | Monte-Carlo and hybrid p-values in floating point | Binary64 (Flocq) evaluation of rank*50/n resp. rank*(50/n), /100, 1-: relative error of each rounding, monotonicity of rounding, exact counts; the counts are those of the real-valued model (C41). | proved | PropsSigF.v |
| C92 | What the global correlation is in binary64, given whatever the matrix inversion returned | Model phik.py:249 with Flocq's correctly rounded operations; bound each rounding (1/w, 1-z, sqrt) and use monotonicity of rounding for the range; the neighbours of 1 give the jump 2^-27 and the NaN case. | proved | PropsGlobF.v |
| C93 | Outlier expectations, uncertainties and mid-p-values in binary64 | A calculus of relative errors (value, exponent range, k units of 2^-52) closed under *, /, +, sqrt, pow; instantiate with the integers B, C, D. The mid-p-value uses monotone rounding, exactness of small subtractions (Flocq FLT_format_plus_small) and the case of the smallest subnormal. | proved | PropsOutF.v |
| C94 | Declared but unused categories of a category-dtype column enter the contingency table | a model of groupby/unstack on columns with declared categories; the padded table is a rearrangement of the plain one (C15), the pedestal is C19, the strict bound is the chi2 maximum over the used part (C16), the refutation bounds the exact 3x3 grid chi2 by 26244 rho^2 through Plackett's derivative | proved | PropsCat.v, PropsCat2.v |
| C95 | Merging or recoding categories never raises the chi2 - but it can raise phik | Log-sum inequality / Cauchy-Schwarz for one cell, summed over the cells of the merged table; 2 x 2 tables via |expected - observed| equal in all four cells and convexity; a recoded table is shown to be the merged table; rows via induction-free sum exchange, columns via transposition. The two limits are concrete tables. | proved | PropsMerge.v |
| C96 | Changing the unit of an interval variable: which records change bin | Sorting commutes with increasing maps, an interpolated quantile separates the same neighbours; the binary64 edges are within edge_err of the ideal ones (C03), so a record farther away is on the same side of the edge in both units; the collapse from the same bound on edge n-1; concrete cases by computation in the binary64 model. | proved | PropsUnits.v |
| C97 | integer overflow in the outlier expectations | int64 wrap-around model of the ABCD estimate compared with the unbounded one; AM-GM bound on the product; the wrapped product bounded away from 0 for the sign | proved | PropsOutInt.v |
| C98 | Column labels that are numbers, mixed or repeated | LabelModel.v models the column check, binning and matrix with labels in {integers, strings}, including sorted() on labels, df[col] on a repeated label and the ':s' format; C98_check by analysis of the three loops; C98_rename by commuting every function with an injective renaming | proved | PropsLabel.v |
| C99 | the phik matrix in binary64 arithmetic, end to end | compose the binary64 model of phik_from_hist2d (C89) with the model of the matrix assembly; the group mean of one value in [0,1] (or of two ones) is shown exact with and without Kahan compensation; the refutation of column-order independence is computed in the kernel | proved | PropsMatF.v |
| C100 | numpy's bin search: sorted edges, unsorted edges, and the order of the records | an invariant of the search over all keys (the found place fits the last key) proved by induction; for ascending edges the fitting place is unique, which gives equality with the per-value search; order dependence computed in the kernel | proved | PropsSearch.v |
| C101 | the number of bins bounds the tables; fewer than two bins make phik NaN | the index found by bisection is at most the number of edges, whatever their order; a duplicate-free list of row labels inside 1..k-1 has at most k-1 elements; phik_matrix via C31 | proved | PropsFewBins.v |
| C102 | the G statistic (the default of the significance functions) survives rounding | forward error analysis of every operation of expected_freq, the continuity correction, xlogy and the signed sum in any order, using o*|ln(o/e)| <= o*ln(o/e) + 2e to bound the absolute sum by G + 4 records | proved | PropsGStat.v |
| C103 | the far-tail Z-value of z_from_logp in floating-point arithmetic | binary64 model operation by operation; error analysis with PI bounded to 1e-17 by the standard library's arctan series; monotonicity from the gap between neighbouring floats | proved | PropsZTail.v |
| C104 | the Chernoff fallback in floating-point arithmetic | binary64 model operation by operation; linear error propagation with an abstract unit roundoff | proved | PropsChernF.v |
| C105 | more data of the same distribution never lowers phik, and noise correction fades away | the equation solved is G(rho)/G(1) = (chi2-pedestal)/(max-pedestal); the right side grows with k (Yates' correction takes a smaller share) and falls with the pedestal; G strictly increasing (C81) | proved | PropsRepl.v |
| C106 | simulated tables in floating-point arithmetic: accepted probabilities, number of records | error analysis of rounded sums in any order and of Kahan's summation (loop invariant); the counterexamples are computed in binary64 by the kernel | proved | PropsSimF.v |
| C107 | The Monte-Carlo p-value computed from the tables in floating point: bracketed by the clear comparisons, exact up to 5*2^-53 without near-ties, and decided by rounding errors on ties | the error bounds of C88/C102 for each statistic, the count of comparisons bracketed term by term, C91 for the percentile; the refutation computes the two statistics and uses invariance of the exact statistic under row swaps | proved | PropsMCF.v |
| C108 | Outlier matrix of selected rows of a binned frame with the binning dictionary of the whole frame: right labels, an error, or underflow rows labelled as intervals | the labels are the dictionary entries less the positions of missing bins; counting distinct bins of the frame, the selection and the axis | proved | PropsSubset.v |
| C109 | number and repeated column names in the significance functions | renaming lemma for the monadic map over pairs; the column check from C98 | proved | PropsLabelSig.v |
| C110 | number and repeated column names in the outlier functions | renaming lemmas, as for C98 and C109 | proved | PropsLabelOut.v |
| C111 | the default significance method from the tables, in floating point | HybFModel.v over F64 (Flocq binary64); composition of C88/C102 (statistics), added_signed (mean), C91_mixture; the switch by exact rounding analysis around 4 | proved | PropsHybF.v |
| C112 | The significance matrix in floating point, end to end, for all three methods | The grid of pandas means is reduced to the one or two values of each group (mean of one value exact for every float, of two equal values exact up to 2^1022); statistic by C88/C102, errors by C104/C111; record order by invariance of the contingency table; refutations by evaluation. | proved | PropsSigMatF.v |
| C113 | Outlier p-values, Z-values and matrices in floating point, and the continued fraction behind them | Operation-by-operation model in binary64 (Flocq). The stopping test is shown equivalent to a real inequality between rounded values (no overflow for EPS <= 1); the loop by induction on the remaining iterations against the sequence of convergents. Cells through the estimates of C93; transposition by commutativity of float addition (proved) and exact integer sums. | proved | PropsOutMatF.v |
| C114 | An infinite value (or a range that overflows) in an interval column makes its automatic bins useless | the width stop - start is NaN or +infinity (case analysis on the floats, monotonicity of rounding for the overflow), hence all edges but the last are; none is below any value, so the bisection ends at 0 for every key; counted_as then drops the record and the table is empty (C31 for the matrix). | proved | PropsInf.v |
| C115 | Infinite values with quantile bins: +infinity is harmless, -infinity silently drops the lowest bin | replacing +infinity by 2^1022 commutes with the sort (order isomorphism), the two neighbours of a quantile depend on the number of values only and their positions ascend with the quantile, so there is a threshold p: before it both neighbours are finite and the edges agree, from it on the interpolation is NaN or +infinity; NaN and +infinity are below no value, so the index found is min(index, p). For -infinity the first position is 0 and -inf + inf*0 is NaN. | proved | PropsInfQ.v |
| C116 | All outlier matrices in floating point: each equals the analysis of its two columns alone | OutMatsFModel on top of OutMatFModel; the data-quality check and the binning are shown to act column by column, so a frame reduced to two columns is cleaned and binned as before (asks_for is functional); exchange from C113_column_order | proved | PropsOutMatsF.v |
| C117 | Two columns' phik and significance are their own: the other columns have no influence, bit for bit | Both functions are an instance of one scheme (clean, bin, table over pairs); the two-column run of the cleaning and binning is related to the full run through C116's lemmas, and the grouped mean of an entry only sees the rows of its pair. | proved | PropsAlone.v |
| C118 | interval_cols is a set of names: order, repetitions and unknown names do not matter - unless a bins entry is unsupported | The data-quality check is characterised by membership in the list, a frame with distinct names is determined by its keys and its columns, and bin_data's result is characterised per column (BinDataProofs). | proved | PropsIcols.v |
| C119 | Of the bins argument only what it says about each surviving interval column matters | bin_data's result is characterised per column (BinDataProofs); the data-quality check by membership and number of distinct values (C116's dq_form). | proved | PropsBinsArg.v |
