{"id": "C01", "title": "bin_array assigns every value to exactly one bin", "statement": "For strictly or weakly ascending finite bin edges e0<=...<=en, bin_array(arr, edges) returns an array of the same length in which position k holds NaN iff arr[k] is NaN, 'UF' iff arr[k] is a number <= e0, 'OF' iff arr[k] is a number > en, and otherwise the integer i with e(i-1) < arr[k] <= ei; the outcomes are mutually exclusive and exhaustive.", "quantifier": "all arrays of binary64 values (including NaN, infinities, signed zeros) and all ascending lists of at least one finite edge", "why_tests_cant": "The assignment must hold at every edge, tie, NaN and infinity position for arbitrary edges; tests check two histogram cells of one data set.", "anchors": ["phik/binning.py:bin_array", "phik/definitions.py:UF", "phik/definitions.py:OF"]}
{"id": "C02", "title": "bin labels are exactly the populated bins, in order", "statement": "The label list returned by bin_array is the list of pairs (e(i-1), ei) for exactly those bin numbers i in 1..n that occur in the output array, in ascending order of i, each once.", "quantifier": "all arrays and ascending edges", "why_tests_cant": "Which bins are empty depends on the data; only a statement over all data rules out dropped or shifted labels.", "anchors": ["phik/binning.py:bin_array"]}
{"id": "C03", "title": "uniform automatic bin edges are well formed in binary64", "statement": "For uniform binning, bin_edges returns nbins+1 ascending edges whose last edge equals the largest value and whose first edge is the binary64 rounding of (smallest value - 1e-14); consequently no non-NaN value is ever put in the overflow bin, and only copies of the smallest value can be put in the underflow bin.", "quantifier": "all non-empty arrays with finite data of moderate magnitude (|v| <= 2^1000), any number of NaNs, and all 1 <= nbins <= 2^50", "why_tests_cant": "Rounding of the step and of each edge could reorder edges or push the last computed edge beyond the maximum for some inputs only.", "anchors": ["phik/binning.py:bin_edges", "phik/binning.py:bin_array"]}
{"id": "C04", "title": "uniform automatic binning loses the smallest value unless -128 < min <= 128", "statement": "With uniform automatic binning the records that carry the smallest value m of a column are kept in a regular bin if and only if -128 < m <= 128; for every other m the 1e-14 offset is absorbed by binary64 rounding and those records land in the underflow bin (and are dropped by default). The expectation 'automatic bins cover all the data' is therefore refuted.", "quantifier": "all finite data sets and bin counts as in C03", "why_tests_cant": "The failure depends on the magnitude of the minimum; a test needs to look at the minimum's bin on a large-valued column.", "anchors": ["phik/binning.py:bin_edges", "phik/binning.py:bin_array"]}
{"id": "C05", "title": "quantile bin edges cover the data and split it evenly (exact arithmetic)", "statement": "For quantile binning with exact arithmetic, edges are ascending, the first is min-1e-14 and the last is max, so every value falls in a regular bin; moreover edge k has at least floor(k(n-1)/nbins)+1 values <= it and at most that many values strictly below it. In binary64, given quantiles that ascend from min to max, the same boundary as for uniform bins applies (C04).", "quantifier": "all non-empty lists of reals and all nbins >= 1", "why_tests_cant": "Order statistics with ties and interpolation at arbitrary n and nbins.", "anchors": ["phik/binning.py:bin_edges"]}
{"id": "C06", "title": "bin_data changes only the requested columns and keeps the records aligned", "statement": "bin_data returns a table with the same column names, order and number of records; columns not listed are unchanged, and each listed column is replaced by the bin_array result of that same column, record by record, with the edges its own specification asks for, provided every specification is of a supported type.", "quantifier": "all data frames with distinct column names, all column lists, all supported bins arguments", "why_tests_cant": "Frame condition over arbitrary frames.", "anchors": ["phik/binning.py:bin_data"]}
{"id": "C07", "title": "bin_data with an unsupported bins entry silently reuses another column's edges", "statement": "A bins dictionary that misses a requested column is rejected with ValueError before anything is binned. But an entry of an unsupported type (for example a tuple of edges) is not rejected: if it is the first requested column the call fails, otherwise the column is binned with the edges of the previously binned column. So 'each column is binned with its own specification or the call fails' is refuted.", "quantifier": "all frames, column lists and bins dictionaries", "why_tests_cant": "Depends on the order of columns and the type of one entry.", "anchors": ["phik/binning.py:bin_data"]}
{"id": "C08", "title": "hist2d counts every complete record exactly once", "statement": "The 2d histogram of two columns has as row (column) labels exactly the distinct non-missing values of the first (second) variable that occur in records where both are non-missing, sorted strictly ascending; the cell (a,b) equals the number of records with that pair; no row or column is empty; the table total is the number of complete records.", "quantifier": "all two-column data (any length, any mix of missing values)", "why_tests_cant": "Counting over arbitrary data with missing values.", "anchors": ["phik/binning.py:hist2d_from_rebinned_df", "phik/phik.py:_calc_phik"]}
{"id": "C09", "title": "dropna / drop_underflow / drop_overflow select exactly the documented records, except for look-alike labels", "statement": "A record is counted iff neither variable is missing (unless dropna=False, when missing becomes the category 'NaN'), neither is the marker 'UF' when drop_underflow and neither is 'OF' when drop_overflow. Because markers are ordinary strings, a categorical value that is literally 'UF' or 'OF' is dropped as if it were an underflow, and a literal 'NaN' is merged with missing values.", "quantifier": "all two-column frames and all 8 flag combinations", "why_tests_cant": "Interplay of three flags, processing order and user labels.", "anchors": ["phik/binning.py:hist2d_from_rebinned_df", "phik/phik.py:phik_from_rebinned_df", "phik/significance.py:significance_from_rebinned_df"]}
{"id": "C10", "title": "record order does not matter and swapping columns transposes", "statement": "Permuting the records of a frame leaves the 2d histogram identical (labels and counts), and exchanging the two columns yields the transposed histogram.", "quantifier": "all two-column frames and all permutations of their records; explicit bin edges, if given, ascending (C100)", "why_tests_cant": "All permutations of all frames.", "anchors": ["phik/binning.py:hist2d_from_rebinned_df", "phik/binning.py:hist2d"]}
{"id": "C11", "title": "repeated analysis of the same pre-binned frame", "statement": "The *_from_rebinned_df functions overwrite the frame they are given. After any history of calls (on any frames) the next call with flags (dropna, drop_underflow, drop_overflow) gives the result it would give on the original frame, provided every earlier in-place call on that frame had harmless flags: in particular dropna=True and the same drop flags each time. The harmless flags are characterised exactly. With dropna=False and dropped underflow/overflow this is refuted: a second identical call turns the records dropped by the first call into 'NaN' category records and changes the result; and a call with dropna=False spoils later calls with dropna=True.", "quantifier": "all frames and all finite histories of calls", "why_tests_cant": "The defect only shows for particular call histories.", "anchors": ["phik/phik.py:phik_from_rebinned_df", "phik/significance.py:significance_from_rebinned_df", "phik/binning.py:hist2d_from_rebinned_df"]}
{"id": "C12", "title": "the DataFrame-level functions never modify the caller's frame", "statement": "In any sequence of calls of hist2d, phik_matrix, global_phik_array, significance_matrix, outlier_significance_matrix, outlier_significance_matrices and outlier_significance_matrices_from_rebinned_df (also interleaved with in-place calls on other frames) the user's frame is unchanged after every call and every call gives the result for the original content; the other pre-binned variants change their frame only by replacing missing values and the markers UF/OF by a missing value or the category 'NaN'; names, order and numbers of records stay.", "quantifier": "all frames, all call histories", "why_tests_cant": "Absence of side effects over all call sequences.", "anchors": ["phik/binning.py:bin_data", "phik/data_quality.py:dq_check_nunique_values", "phik/phik.py:phik_matrix"]}
{"id": "C13", "title": "hist2d rejects frames that do not have two columns", "statement": "hist2d and outlier_significance_matrix raise ValueError for every frame whose number of columns is not 2; for a two-column frame hist2d fails only if the binning of the interval columns fails.", "quantifier": "all frames", "why_tests_cant": "All widths.", "anchors": ["phik/binning.py:hist2d", "phik/outliers.py:outlier_significance_matrix"]}
{"id": "C14", "title": "the chi2 statistic is defined for every table with records", "statement": "For every table of non-negative counts with at least one record, and both test statistics, get_chi2_using_dependent_frequency_estimates returns a value and the value is >= 0, even when rows or columns are empty; it raises ValueError exactly for tables with no records or with negative entries that survive the removal of empty rows and columns.", "quantifier": "all r x c tables of reals", "why_tests_cant": "Zero rows/columns and degenerate shapes make the underlying routine fail; all tables must be covered.", "anchors": ["phik/statistics.py:get_chi2_using_dependent_frequency_estimates"]}
{"id": "C15", "title": "chi2 depends only on the association, not on presentation", "statement": "chi2 (Pearson and log-likelihood) is unchanged when the table is transposed, when rows or columns are permuted, and when empty rows or columns are added or removed.", "quantifier": "all non-negative tables, all permutations, both statistics", "why_tests_cant": "Invariance over all tables and permutations.", "anchors": ["phik/statistics.py:get_chi2_using_dependent_frequency_estimates"]}
{"id": "C16", "title": "chi2 is bounded by the maximum phik uses", "statement": "The Pearson chi2 of an r x c table with N records is at most N*min(r-1,c-1), also with the 2x2 continuity correction (as in current scipy). The log-likelihood statistic, the default of the significance functions, is at most 2*N*ln(min(r,c)), and every k x k table (k >= 3) with equal counts on the diagonal and zeros elsewhere attains this.", "quantifier": "all non-negative tables with records", "why_tests_cant": "Real inequality over all tables.", "anchors": ["phik/statistics.py:get_chi2_using_dependent_frequency_estimates", "phik/bivariate.py:phik_from_chi2"]}
{"id": "C17", "title": "chi2 is zero exactly for independence", "statement": "If every count equals (row total)(column total)/N the statistic is 0; conversely for tables whose non-empty part is not 2x2, a zero Pearson chi2 implies all counts equal those products.", "quantifier": "all non-negative tables with records", "why_tests_cant": "Equality characterisation over all real tables.", "anchors": ["phik/statistics.py:get_chi2_using_dependent_frequency_estimates"]}
{"id": "C18", "title": "expected frequencies preserve all totals", "statement": "The dependent frequency estimates have the same row totals, column totals and grand total as the observed table, and are non-negative.", "quantifier": "all non-negative tables with a positive total", "why_tests_cant": "All tables.", "anchors": ["phik/statistics.py:get_dependent_frequency_estimates"]}
{"id": "C19", "title": "degrees of freedom", "statement": "theoretical_ndof is (r-1)(c-1); estimate_simple_ndof is max(0, (r-1)(c-1) - (r*c - r'*c')) where r', c' count the non-empty rows and columns; it is never negative and never exceeds theoretical_ndof, and is unchanged under transposition.", "quantifier": "all non-negative tables with a positive total", "why_tests_cant": "All tables and shapes.", "anchors": ["phik/statistics.py:estimate_simple_ndof", "phik/statistics.py:theoretical_ndof"]}
{"id": "C20", "title": "the half-table shortcut for the bivariate normal is exact", "statement": "For a bivariate normal integral that is symmetric under point reflection and bin edges symmetric about 0, the list of cell probabilities used by phik (half the cells computed, the rest copied) is a rearrangement of the probabilities of all nx*ny cells, and the same rearrangement for every correlation value, so sums over cells of any function of (p_rho, p_0) are equal to the full sums.", "quantifier": "all nx, ny >= 1, all symmetric edge arrays, all rho", "why_tests_cant": "All parities and sizes of the grid.", "anchors": ["phik/bivariate.py:_mvn_array"]}
{"id": "C21", "title": "phik_from_chi2 returns a number in [0,1]", "statement": "For n>0, at least two bins per axis, pedestal >= 0 and a non-degenerate reference chi2, phik_from_chi2 returns a value in [0,1] (the only possible error is the solver's own RuntimeError for non-convergence), for a pedestal below the maximum returns 0 iff chi2 <= pedestal or the solver returns 0, and 1 when chi2 reaches its maximum; when the pedestal is not below the maximum, a chi2 above the pedestal gives 0 within 1e-14+1e-5*maximum of the maximum and 1 otherwise; the root finder is always called with a valid bracket. A negative pedestal and explicit edges with a bin count <= 1 raise ValueError.", "quantifier": "all real chi2, n, pedestal, all bin counts, any root finder meeting its documented contract", "why_tests_cant": "A missing bracket would make the solver raise for some tables only.", "anchors": ["phik/bivariate.py:phik_from_chi2", "phik/bivariate.py:chi2_from_phik"]}
{"id": "C22", "title": "chi2_from_phik and phik_from_chi2 are inverse up to the solver tolerance", "statement": "chi2_from_phik(0)=pedestal and chi2_from_phik(1)=N*min(nx-1,ny-1); if the binned chi2 is strictly increasing and continuous in rho then for every rho in (0,1) phik_from_chi2(chi2_from_phik(rho)) is within 1.01e-5 of rho (if the solver converges).", "quantifier": "all rho in [0,1], n, nx, ny, pedestal below the maximum", "why_tests_cant": "Round trip over a continuum; the test checks rho=0.5 on one grid.", "anchors": ["phik/bivariate.py:phik_from_chi2", "phik/bivariate.py:chi2_from_phik"]}
{"id": "C23", "title": "phik is monotone in chi2 up to the solver tolerance", "statement": "With the same N, binning and pedestal, chi2a <= chi2b implies phik(chi2a) <= phik(chi2b) + 2.02e-5, if the binned chi2 is strictly increasing and continuous in rho.", "quantifier": "all pairs of chi2 values", "why_tests_cant": "Order property over a continuum.", "anchors": ["phik/bivariate.py:phik_from_chi2"]}
{"id": "C24", "title": "chi2_from_phik with explicit edges but default bin counts yields a negative scale", "statement": "When edges sx, sy are passed and nx, ny are left at their default -1, the computed chi2 has the wrong sign (it is -2N/chi2_one times the unscaled chi2), instead of depending on the edges that were passed. The expectation 'nx, ny are only an alternative to sx, sy' is refuted.", "quantifier": "all edges, rho and n", "why_tests_cant": "Needs a negative-result check on an unusual call form.", "anchors": ["phik/bivariate.py:chi2_from_phik"]}
{"id": "C25", "title": "bivariate_normal_theory", "statement": "bivariate_normal_theory rejects n<1, otherwise returns an ny x nx table whose entry (j,i) is n times the probability of x-bin i and y-bin j, raised to machine epsilon where smaller; every entry is >= eps.", "quantifier": "all rho, nx, ny, n", "why_tests_cant": "All grid sizes; index order.", "anchors": ["phik/bivariate.py:bivariate_normal_theory"]}
{"id": "C26", "title": "phik_from_hist2d is a number in [0,1] for every valid table", "statement": "For every table of non-negative counts with at least one record and at least two rows and columns, phik_from_hist2d returns a value in [0,1], with or without noise correction; the only possible exception is the root finder's own failure to converge (RuntimeError).", "quantifier": "all non-negative tables", "why_tests_cant": "Composition over all tables.", "anchors": ["phik/phik.py:phik_from_hist2d"]}
{"id": "C27", "title": "phik of a table is symmetric and label-independent", "statement": "phik_from_hist2d gives the same value for the transposed table and for any permutation of rows and columns.", "quantifier": "all non-negative tables, all permutations", "why_tests_cant": "All tables and permutations.", "anchors": ["phik/phik.py:phik_from_hist2d"]}
{"id": "C28", "title": "perfect association gives 1, except for two binary variables", "statement": "If every row and every column of a k x k table has exactly one non-zero cell and k>=3, phik_from_hist2d is exactly 1; more generally it is 1 whenever one variable determines the other and the table is not 2x2. For k=2 this is refuted: the continuity correction makes chi2 smaller than its maximum, and for small tables phik of two identical binary columns is 0.", "quantifier": "all k and all positive counts", "why_tests_cant": "All k; the exception is invisible on tables larger than 2x2.", "anchors": ["phik/phik.py:phik_from_hist2d", "phik/statistics.py:get_chi2_using_dependent_frequency_estimates"]}
{"id": "C29", "title": "independence gives 0", "statement": "If the observed table equals its expected frequencies then phik_from_hist2d is 0, with or without noise correction.", "quantifier": "all such tables", "why_tests_cant": "All tables.", "anchors": ["phik/phik.py:phik_from_hist2d"]}
{"id": "C30", "title": "without noise correction phik does not depend on the sample size", "statement": "Multiplying all counts of a table by k>0 does not change phik_from_hist2d(noise_correction=False) (tables whose non-empty part is not 2x2), for a root finder whose result is unchanged when the function is multiplied by a positive constant (scipy's brentq in exact arithmetic is one).", "quantifier": "all tables, all k", "why_tests_cant": "Scaling law over all tables.", "anchors": ["phik/phik.py:phik_from_hist2d"]}
{"id": "C31", "title": "phik_matrix layout", "statement": "phik_matrix has the surviving columns of the data, in their original order, as both index and columns; it is symmetric; its diagonal is 1.0; the entry for two different columns is NaN iff their contingency table has fewer than two rows or columns, and otherwise is phik_from_hist2d of that table; every non-NaN entry is in [0,1].", "quantifier": "all frames with distinct column names and all options", "why_tests_cant": "Assembly over arbitrary sets of columns with arbitrary NaN patterns.", "anchors": ["phik/phik.py:phik_matrix", "phik/phik.py:phik_from_rebinned_df", "phik/binning.py:create_correlation_overview_table"]}
{"id": "C32", "title": "the correlation table does not depend on the order in which pair results arrive", "statement": "create_correlation_overview_table gives the same table for every permutation of its input list, so parallel (joblib, spark) completion order cannot change the matrix.", "quantifier": "all lists of pair results, all permutations", "why_tests_cant": "All schedules.", "anchors": ["phik/binning.py:create_correlation_overview_table", "phik/phik.py:spark_phik_matrix_from_hist2d_dict", "phik/phik.py:phik_from_rebinned_df"]}
{"id": "C33", "title": "overview table entries", "statement": "For pair results without repeated pairs, the table entry (a,b) and (b,a) both equal the value given for the pair, labels are sorted, a label appears iff it has a non-NaN value, and pairs not given are NaN.", "quantifier": "all lists of pair results", "why_tests_cant": "All lists.", "anchors": ["phik/binning.py:create_correlation_overview_table"]}
{"id": "C34", "title": "record order and category names do not influence phik_matrix", "statement": "Permuting the records leaves phik_matrix unchanged, and so does renaming the categories of any categorical column by an injective map that avoids the markers.", "quantifier": "all frames, permutations and injective renamings; explicit bin edges, if given, ascending (C100)", "why_tests_cant": "All permutations/renamings.", "anchors": ["phik/phik.py:phik_matrix"]}
{"id": "C35", "title": "phik_from_array agrees with phik_matrix only if nothing is missing", "statement": "For data without missing values phik_from_binned_array equals the phik_matrix entry of the two columns. With missing values and default options it does not: missing values are turned into the category 'nan' and counted although dropna=True. hist2d_from_array of the same arrays does drop them: it is the contingency table of the two arrays (binned first if both are numeric).", "quantifier": "all pairs of columns", "why_tests_cant": "Cross-API agreement over all data; divergence only with missing values.", "anchors": ["phik/phik.py:phik_from_binned_array", "phik/significance.py:significance_from_binned_array", "phik/phik.py:phik_from_rebinned_df"]}
{"id": "C36", "title": "spark histogram keys are split at ':' without validation", "statement": "For names without ':' each histogram named 'a:b' contributes its value to the entry (a,b). A name containing ':' is silently attributed to the wrong pair (only the first two fields are used), and a key without ':' fails.", "quantifier": "all hist_dict keys", "why_tests_cant": "All strings.", "anchors": ["phik/phik.py:_phik_from_row", "phik/phik.py:spark_phik_matrix_from_hist2d_dict"]}
{"id": "C37", "title": "global_phik is a number in [0,1) when the phik matrix is positive definite", "statement": "If the phik matrix V is symmetric positive definite then for every variable 1 - 1/(V_ii * inv(V)_ii) lies in [0,1), so global_phik is in [0,1). The phik matrix need not be positive definite: for two independent columns a, c and b=(a,c) the returned global correlation of b is sqrt(2).", "quantifier": "all sizes and all positive definite matrices", "why_tests_cant": "Linear-algebra inequality for all matrices.", "anchors": ["phik/phik.py:global_phik_from_rebinned_df"]}
{"id": "C38", "title": "which columns survive the data-quality check", "statement": "dq_check_nunique_values keeps, in order, exactly the columns with at least two distinct non-missing values, or one if the column is not an interval column and dropna=False; the returned interval list is the requested list restricted to surviving columns; the input is unchanged.", "quantifier": "all frames, interval lists and dropna", "why_tests_cant": "All frames.", "anchors": ["phik/data_quality.py:dq_check_nunique_values"]}
{"id": "C39", "title": "dq_check_hist2d", "statement": "dq_check_hist2d accepts a table iff it has at least two rows and two columns; the large-table warning for y reports the size of x.", "quantifier": "all shapes", "why_tests_cant": "All shapes; wrong number only visible for non-square large tables.", "anchors": ["phik/data_quality.py:dq_check_hist2d"]}
{"id": "C40", "title": "p-values are probabilities", "statement": "Every p-value returned by the asymptotic, MC and hybrid methods is in [0,1] (given that the library survival functions and the fitted fraction are in [0,1]); the only exception is NaN, never for the asymptotic method, for MC only without simulations, for hybrid only without simulations or when the mean simulated chi2 is not positive. The Z-value is positive exactly when p<1/2.", "quantifier": "all tables, all simulated statistics", "why_tests_cant": "All inputs.", "anchors": ["phik/significance.py:significance_from_chi2_ndof", "phik/significance.py:significance_from_chi2_MC", "phik/significance.py:significance_from_chi2_hybrid"]}
{"id": "C41", "title": "the MC p-value is monotone and exact", "statement": "The MC p-value is 1 - percentile rank: 0 (Z=+inf) if chi2 exceeds all simulated values or equals only the single largest one, 1 if it is below all of them, never increases when chi2 increases, and does not depend on the order of the simulated values.", "quantifier": "all lists of simulated values", "why_tests_cant": "All lists and orders.", "anchors": ["phik/significance.py:significance_from_chi2_MC"]}
{"id": "C42", "title": "the low-statistics switch does not use the average bin content", "statement": "The hybrid method is documented to use h(x|f) when there are on average at most 4 records per bin. The code compares N/r*c instead of N/(r*c) with 4; the two decisions agree for every N only if c=1, and the choice of method changes under transposition.", "quantifier": "all shapes and totals", "why_tests_cant": "Depends on precedence; differs only for some shapes and totals.", "anchors": ["phik/significance.py:significance_from_chi2_hybrid"]}
{"id": "C43", "title": "the Chernoff fallback is well defined and monotone", "statement": "When the p-value underflows to 0, the fallback Z-value is defined (no domain error) exactly when ndof*(z-1-ln z) > ln(2 pi) with z=chi2/ndof (otherwise ValueError), is then at least 1, and never decreases with chi2 once u>=1. The bound it uses is never below the true chi2 tail probability, and the Z-value it returns (from 3 on) exceeds the true one by less than 1/Z^3.", "quantifier": "all chi2 > ndof > 0", "why_tests_cant": "Continuum.", "anchors": ["phik/significance.py:significance_from_chi2_ndof"]}
{"id": "C44", "title": "significance method dispatch", "statement": "significance_from_hist2d raises NotImplementedError for every method name other than asymptotic, MC, hybrid; sim_data, and significance_from_hist2d with the MC and hybrid methods, raise it for every simulation method name other than the four documented ones.", "quantifier": "all strings", "why_tests_cant": "All strings.", "anchors": ["phik/significance.py:significance_from_hist2d", "phik/simulation.py:sim_data"]}
{"id": "C45", "title": "significance_matrix layout", "statement": "The significance matrix has the surviving columns in original order on both axes and is symmetric; entries whose table has fewer than two rows or columns are NaN, even when a whole row is NaN; every other entry is the Z-value significance_from_hist2d gives for the contingency table of the earlier and the later column. With the asymptotic method (library underflow only far in the tail) and with the MC method (non-hypergeometric simulation) the matrix is always returned.", "quantifier": "all frames", "why_tests_cant": "All NaN patterns.", "anchors": ["phik/significance.py:significance_from_rebinned_df"]}
{"id": "C46", "title": "the random number generator is the minimal standard generator", "statement": "For every seed in 1..2^31-2 the generator's next state is 16807*seed mod (2^31-1), again in 1..2^31-2, the returned variate is strictly between 0 and 1, and no intermediate value leaves the 32-bit range; seed 0 stays 0 forever. The variate is the new seed divided by 2^31-1 to within 1e-9, and the seeds repeat after exactly 2^31-2 steps, never sooner, going through every valid seed once.", "quantifier": "all seeds, all sequence lengths", "why_tests_cant": "2^31 states.", "anchors": ["phik/simcore/asa159.cpp:r8_uniform_01"]}
{"id": "C47", "title": "Patefield tables have exactly the requested totals", "statement": "For all positive row and column totals with equal sums, every table produced by rcont2 has non-negative entries, row sums equal to the row totals and column sums equal to the column totals, whatever the random numbers and floating-point comparisons are.", "quantifier": "all totals, all seeds, all random draws", "why_tests_cant": "Random control flow; every path must preserve the totals.", "anchors": ["phik/simcore/asa159.cpp:rcont2"]}
{"id": "C48", "title": "Patefield always terminates without leaving its arrays", "statement": "rcont2 terminates for all valid inputs (at most two passes per cell if scaled variates do not exceed the accumulated probability), and all indices into the log-factorial table, work array and output are in range. Invalid totals are rejected with the code of the first problem in the order: fewer than two rows (1), fewer than two columns (2), a non-positive row total (3), a non-positive column total (4), different sums (6).", "quantifier": "all totals and draws", "why_tests_cant": "Unbounded loops driven by random numbers.", "anchors": ["phik/simcore/asa159.cpp:rcont2"]}
{"id": "C49", "title": "Patefield integer overflow", "statement": "If the grand total is at most 46340 no 32-bit integer operation in rcont2 overflows; for larger totals the product of row and column remainder can exceed 2^31-1 (refuted for e.g. 2x2 totals of 50000).", "quantifier": "all totals", "why_tests_cant": "Overflow occurs only for large tables.", "anchors": ["phik/simcore/asa159.cpp:rcont2", "phik/simulation.py:sim_2d_data_patefield"]}
{"id": "C50", "title": "sim_2d_data_patefield returns the transposed table", "statement": "For data with nrows x ncols and positive totals the result has shape ncols x nrows, its row sums are the column totals of the data and vice versa. 'The simulated table has the row and column totals of the input' is refuted for non-square input.", "quantifier": "all tables, seeds", "why_tests_cant": "Orientation; invisible in statistics symmetric under transposition.", "anchors": ["phik/simulation.py:sim_2d_data_patefield"]}
{"id": "C51", "title": "a seed of 0 is ignored", "statement": "For every non-zero seed sim_2d_data_patefield is a function of data and seed only; seed=0 is treated as 'no seed' and the result depends on the global random state; a seed that is not a 32-bit signed integer raises TypeError.", "quantifier": "all seeds and random states", "why_tests_cant": "One value of 2^31.", "anchors": ["phik/simulation.py:sim_2d_data_patefield"]}
{"id": "C52", "title": "multinominal simulation keeps the total", "statement": "sim_2d_data returns a table of the input's shape with non-negative integers summing to ndata if ndata>0, else to the table total (truncated to an integer); for a non-negative table it raises ValueError iff the table total is 0.", "quantifier": "all tables, ndata, draws", "why_tests_cant": "All draws.", "anchors": ["phik/simulation.py:sim_2d_data"]}
{"id": "C53", "title": "row/col product multinominal are interchanged", "statement": "sim_data(method='row_product_multinominal') fixes the column totals and method='col_product_multinominal' fixes the row totals, the opposite of their documentation; the documented claim is refuted.", "quantifier": "all tables and draws", "why_tests_cant": "Needs a check of margins of a random table for each method.", "anchors": ["phik/simulation.py:sim_2d_product_multinominal", "phik/simulation.py:sim_data"]}
{"id": "C54", "title": "simulated chi2 distribution", "statement": "sim_chi2_distribution returns exactly nsim values for nsim>=0, sequentially or in parallel, each the chi2 statistic of a table that has the totals its method fixes (up to C50/C53); the hypergeometric method without the compiled extension raises NotImplementedError.", "quantifier": "all tables, nsim, draws, schedules", "why_tests_cant": "All schedules and draws.", "anchors": ["phik/simulation.py:sim_chi2_distribution"]}
{"id": "C55", "title": "the outlier expectation of a cell does not depend on the cell", "statement": "get_independent_frequency_estimates predicts B*C/D from the other cells of the row (B), of the column (C) and of the rest (D); changing the observed count of a cell does not change the prediction nor the uncertainty for that cell; prediction is NaN iff D<=0; the uncertainty is the linearly propagated uncertainty of B, C and D.", "quantifier": "all tables", "why_tests_cant": "All tables and cells.", "anchors": ["phik/outliers.py:get_independent_frequency_estimates"]}
{"id": "C56", "title": "outlier expectation is exact under independence and commutes with transposition", "statement": "If the counts are a product of a row factor and a column factor with D>0 then the prediction equals the observed count; transposing the table transposes predictions and uncertainties.", "quantifier": "all product tables", "why_tests_cant": "All tables.", "anchors": ["phik/outliers.py:get_independent_frequency_estimates"]}
{"id": "C57", "title": "mid-p value", "statement": "The mid p-value is the mean of P(n>=nobs) and P(n>=nobs+1): it is in [0,1], and never increases when nobs increases (given monotone library tail functions). With the true Poisson and incomplete beta functions it is P(n>nobs)+P(n=nobs)/2 for the Poisson law of mean nexp, or, with an uncertainty, for a negative binomial law, whose mean is nexp+nexperr^2/nexp.", "quantifier": "all nobs, nexp, nexperr", "why_tests_cant": "All values.", "anchors": ["phik/outliers.py:poisson_obs_mid_p", "phik/outliers.py:poisson_obs_p"]}
{"id": "C58", "title": "log p-values agree with p-values", "statement": "log_poisson_obs_mid_p returns (ln p, ln(1-p)) of the mid p-value (0<p, p's tail mean <1), where with an uncertainty on the expectation the tail probabilities come from phik's own incompbeta, while poisson_obs_mid_p uses scipy's incomplete beta function: the two agree, in exact arithmetic, wherever these functions agree and when there is no uncertainty; log_poisson_obs_p agrees with poisson_obs_p for nobs=0. With the true incomplete beta function in scipy and the recurrence of ln Gamma, below the switching point of the fraction the ln p returned for the mid p-value, and above it the ln(1-p), are right to a relative precision of p (1-p) of 1e-7*max(1,(nobs+2)/(b+1)) (1e-7*max(1,(b+1)/(nobs+1))), b being the parameter of the negative binomial law.", "quantifier": "all nobs, nexp, nexperr", "why_tests_cant": "Equality over a continuum.", "anchors": ["phik/outliers.py:log_poisson_obs_mid_p", "phik/outliers.py:log_poisson_obs_p"]}
{"id": "C59", "title": "Z-values have the right sign, order and NaN behaviour", "statement": "poisson_obs_mid_z is finite for a defined expectation with regular tails, positive iff p<1/2, never decreases with nobs, and z_from_logp(flip_sign) is the negated value; where p is numerically 0 or 1, poisson_obs_z and poisson_obs_mid_z take Z from ln p, respectively minus the Z of ln(1-p). It is NaN when the expectation is undefined, and also for a zero expectation without uncertainty and at least one observation (a cell alone in its row and column), where an infinite excess would be expected.", "quantifier": "all inputs", "why_tests_cant": "All values.", "anchors": ["phik/outliers.py:poisson_obs_mid_z", "phik/statistics.py:z_from_logp"]}
{"id": "C60", "title": "outlier matrix labels name the right bins", "statement": "For every pre-binned pair produced by bin_data, the label of row (column) k of the outlier matrix is the edge pair of the bin whose records are counted there; markers keep their own names and come after all bins.", "quantifier": "all frames, missing patterns and flags", "why_tests_cant": "Labels are recomputed with an index-shifting scheme that depends on which bins vanish.", "anchors": ["phik/outliers.py:outlier_significance_matrix_from_rebinned_df", "phik/binning.py:bin_array"]}
{"id": "C61", "title": "outlier matrices dictionary keys can collide", "statement": "Keys of outlier_significance_matrices are distinct for distinct pairs if no column name contains ':', each key holding the matrix of its pair; otherwise two different pairs can share a key, the last requested pair's matrix is kept and the other is lost (columns 'a','b:c','a:b','c' give 5 entries for 6 pairs).", "quantifier": "all column names", "why_tests_cant": "Only for particular names.", "anchors": ["phik/outliers.py:outlier_significance_matrices"]}
{"id": "C62", "title": "constant column makes outlier_significance_matrix raise", "statement": "If the data-quality check removes one of the two columns, outlier_significance_matrix raises ValueError (unpacking) unless the binning of the remaining column fails first, while a degenerate but surviving pair yields NaN; outlier_significance_matrices_from_rebinned_df raises KeyError for a requested pair whose first missing column comes first.", "quantifier": "all two-column frames", "why_tests_cant": "Control flow over all frames.", "anchors": ["phik/outliers.py:outlier_significance_matrix", "phik/outliers.py:outlier_significance_matrix_from_rebinned_df"]}
{"id": "C63", "title": "continued fraction evaluation", "statement": "For a,b>0 and 0<x<=(a+1)/(a+b+2) contfractbeta evaluates the convergents of the continued fraction of the incomplete beta function: the first iterate is 1 and iterate m+1 is convergent number 2m+1; it returns the first iterate whose relative change from the previous one is below EPS, and raises ValueError iff none of the ITMAX+1 iterations satisfies this; there is no other failure (no division by zero) and the returned value is at least 1.", "quantifier": "all a, b, x of the range in which incompbeta calls it, all ITMAX, EPS", "why_tests_cant": "Loop invariant for all iteration counts.", "anchors": ["phik/betainc.py:contfractbeta"]}
{"id": "C64", "title": "log_incompbeta is the logarithm of incompbeta", "statement": "log_incompbeta(a,b,x) = (ln I, ln(1-I)) with I=incompbeta(a,b,x), in exact arithmetic, including x=0 and x=1; and incompbeta(a,b,x)+incompbeta(b,a,1-x)=1 away from the switching point.", "quantifier": "all a,b>0, 0<=x<=1", "why_tests_cant": "Continuum.", "anchors": ["phik/betainc.py:incompbeta", "phik/betainc.py:log_incompbeta"]}
{"id": "C65", "title": "uncertainties are positive", "statement": "get_poisson_uncertainty(x) is sqrt(x) for x>=1 and 1 below, hence always >= 1, and get_uncertainty rejects unknown methods with NotImplementedError; a whole table is rejected for an unknown method iff some cell has D>0; the uncertainty on a prediction is 0 iff B=C=0. The exact_poisson uncertainty of n is half the length of the central one-sigma interval for the mean of a Poisson variable observed to be n.", "quantifier": "all x, all method names", "why_tests_cant": "All values.", "anchors": ["phik/outliers.py:get_uncertainty", "phik/outliers.py:get_poisson_uncertainty"]}
{"id": "C66", "title": "correlation_report selects pairs by both thresholds and fails on undefined pairs", "statement": "A successful correlation_report leaves the user's frame unchanged, returns the phik, global phik and significance results of the binned frame, and holds an outlier matrix exactly for the pairs of columns that are not below a threshold: with numbers, |significance| >= significance_threshold and phik >= correlation_threshold. The key is 'a:b' with spaces replaced by '_'; of several selected pairs with the same key (e.g. columns 'a b' and 'a_b') only the last is kept. A pair without a table of at least 2x2 has NaN phik and significance, is not skipped, and makes the report fail (AttributeError if nothing failed before).", "quantifier": "all frames, thresholds and options", "why_tests_cant": "NaN comparison semantics, aliasing of the binned frame over five calls and key collisions over all frames.", "anchors": ["phik/report.py:correlation_report"]}
{"id": "C67", "title": "plot layout keeps labels with their data", "statement": "plot_correlation_matrix draws column k at position k, or n-1-k in the identity layout, and its label, its colours and its printed numbers are all at that position; with bin edges as labels the labels k and k+1 are at the two edges of column k. Label counts other than n or n+1 raise AssertionError, as do numbers without one row and column per label, so bin edges can never be combined with a separate matrix of numbers. A single numeric label raises TypeError. Everything else is accepted.", "quantifier": "all matrices, labels and flags", "why_tests_cant": "All sizes and label modes; tests look at no plot.", "anchors": ["phik/report.py:plot_correlation_matrix"]}
{"id": "C68", "title": "tick label truncation ignores the top parameter", "statement": "A tick label of at most top characters is shown as it is; a longer one is cut to its first 17 characters plus '...'. So for top>=20 no label exceeds top characters, for top<20 every label that is cut is still longer than top, and labels sharing their first 17 characters become identical when cut.", "quantifier": "all labels and all values of top", "why_tests_cant": "All lengths.", "anchors": ["phik/report.py:plot_correlation_matrix"]}
{"id": "C69", "title": "number of worker processes", "statement": "The number of cores used is the machine's count on non-Windows systems; on Windows it is 60 if the machine has at least 64 cores and otherwise 1; it is never 0 and on Windows never exceeds 60.", "quantifier": "all core counts", "why_tests_cant": "All machines.", "anchors": ["phik/config.py:n_cores"]}
{"id": "C70", "title": "resource lookup", "statement": "fixture/notebook return the registered path iff the name is registered and the file exists, and raise FileNotFoundError otherwise.", "quantifier": "all names and file-system states", "why_tests_cant": "All file-system states.", "anchors": ["phik/resources.py:_resource"]}
{"id": "C71", "title": "the fit of the simulated distribution is well posed", "statement": "fit_test_statistic_distribution returns a fraction in [0,1], the mean of the simulated values, its square root and a positive bin width; its histogram counts every simulated value exactly once; no residual is the root of a negative number when the density is positive; an empty list or a list with non-positive mean is rejected with ValueError.", "quantifier": "all non-empty lists of simulated values", "why_tests_cant": "All lists.", "anchors": ["phik/significance.py:fit_test_statistic_distribution"]}
{"id": "C72", "title": "asymptotic significance: symmetry and empty rows", "statement": "significance_from_hist2d(significance_method='asymptotic') gives the same result for the transposed table and for permuted rows and columns; an empty row leaves chi2 unchanged but adds columns-1 degrees of freedom.", "quantifier": "all tables", "why_tests_cant": "All tables.", "anchors": ["phik/significance.py:significance_from_chi2_asymptotic", "phik/statistics.py:theoretical_ndof"]}
{"id": "C73", "title": "significance of pre-binned arrays", "statement": "significance_from_binned_array returns (NaN, NaN) when the cross table of the two cleaned arrays has fewer than two rows or columns, and otherwise exactly what significance_from_hist2d returns for that table.", "quantifier": "all arrays and flags", "why_tests_cant": "All arrays.", "anchors": ["phik/significance.py:significance_from_binned_array"]}
{"id": "C74", "title": "far tail of the Z-value formula", "statement": "Where exp(logp) underflows to 0, z_from_logp returns a value strictly below the asymptotic root of u - ln u - ln(2 pi) it is meant to return (it subtracts ln(2 pi) twice), while the chi2 fallback uses the asymptotic value; the fallback is still monotone in logp. Against the true Z-value: it is always too small, and its square is too small by ln(2 pi) up to terms vanishing in the tail.", "quantifier": "all log p-values in the far tail", "why_tests_cant": "Continuum beyond float range; no reference values in tests.", "anchors": ["phik/statistics.py:z_from_logp", "phik/significance.py:significance_from_chi2_asymptotic"]}
{"id": "C75", "title": "bin edges of plot_hist_and_func", "statement": "Without binning and limits plot_hist_and_func uses len(data)//50+1 edges from min to max, so it fails (IndexError) for fewer than 50 records; an integer number of bins without limits fails with TypeError unless the largest value is 0; with limits the last edge is the upper limit unless the largest value is 0, when the limit is ignored; a list of two or more edges, not all 0, is used as it is; limits without binning fail with ValueError, and so does a call without records unless edges are given.", "quantifier": "all data, bin numbers and limits", "why_tests_cant": "All lists.", "anchors": ["phik/report.py:plot_hist_and_func"]}
{"id": "C76", "title": "a duplicated column makes global_phik fail", "statement": "If two columns hold the same values with at least three categories and the phik matrix has no NaN, the matrix has two equal rows and global_phik (and hence correlation_report) raises LinAlgError.", "quantifier": "all frames with a duplicated column", "why_tests_cant": "All frames and all further columns.", "anchors": ["phik/phik.py:global_phik_from_rebinned_df"]}
{"id": "C77", "title": "functional dependence gives phik 1", "statement": "If one column is a function of another one (with at least three categories, the function taking at least two values, among the records where both are counted), their entry in the phik matrix is exactly 1, on both sides of the diagonal.", "quantifier": "all frames, all functions between categories", "why_tests_cant": "All functional dependences.", "anchors": ["phik/phik.py:phik_from_rebinned_df", "phik/phik.py:phik_from_hist2d"]}
{"id": "C78", "title": "simulated tables with fixed totals have Fisher's distribution", "statement": "In exact arithmetic sim_2d_data_patefield draws every table with the row and column totals of the data with exactly its probability under independence given the totals, prod(r_i!) prod(c_j!) / (N! prod(n_ij!)): the uniform variates leading to a table form one box of that volume (no table is impossible, no second search pass is needed), every sequence of variates in (0,1] leads to a table with the right totals, and at most (rows-1)*(columns-1) variates are used.", "quantifier": "all sizes, all positive totals, all tables with these totals, all variates", "why_tests_cant": "A statement about the probability of each of exponentially many tables; tests check one seed.", "anchors": ["phik/simcore/asa159.cpp:rcont2", "phik/simulation.py:sim_2d_data_patefield"]}
{"id": "C79", "title": "a Z-value is the number of Gaussian standard deviations of its p-value", "statement": "Whenever the p-value is strictly between 0 and 1, the Z-value of significance_from_hist2d (all methods), poisson_obs_z, poisson_obs_mid_z and (where exp(logp) does not underflow) z_from_logp is the unique z with 1 - F(z) = p, F being the standard normal distribution function: the only function with derivative exp(-x^2/2)/sqrt(2 pi) and limits 0 and 1.", "quantifier": "all tables, methods, observed and expected counts", "why_tests_cant": "Continuum of p-values.", "anchors": ["phik/significance.py:significance_from_hist2d", "phik/outliers.py:poisson_obs_z", "phik/outliers.py:poisson_obs_mid_z", "phik/statistics.py:z_from_logp"]}
{"id": "C80", "title": "outlier matrices of two arrays", "statement": "outlier_significance_from_binned_array counts the categories as they are (NaN for fewer than two rows or columns, ValueError when an array has fewer than two distinct values and missing values are dropped) only if at least one of the arrays is not numeric. Two numeric arrays are binned again into 10 equal bins each, exactly as outlier_significance_from_array with bins=10 does, so integer bin numbers are merged and the matrix has at most 10 rows and columns (at most 13 with the NaN, UF and OF bins).", "quantifier": "all pairs of arrays with different names", "why_tests_cant": "All arrays.", "anchors": ["phik/outliers.py:outlier_significance_from_binned_array", "phik/outliers.py:outlier_significance_from_array"]}
{"id": "C81", "title": "phik is the correlation of a bivariate normal distribution", "statement": "With the true bivariate normal integral in place of mvnun: the assumptions made on mvnun (point symmetry, exchange symmetry, positivity without correlation, zero off the diagonal at full correlation) hold; the binned chi2 is a continuous function of the correlation on [0,1] for every number of bins; for equal numbers of bins, and for two bins on one axis and any number on the other (a 0/1 variable against anything), it is strictly increasing, so chi2_from_phik and phik_from_chi2 are inverse up to 1.01e-5 and phik is monotone in chi2 up to 2.02e-5. The value of phik_from_hist2d between pedestal and maximum is within 1.01e-5 of a correlation whose scaled binned chi2 is the observed one, the only one if the table is square or has two rows or two columns. The rescaling to the maximum (k-1 for k x k bins) changes chi2 by the square of the normal probability outside [-5,5] only.", "quantifier": "all correlations, all numbers of bins, all tables", "why_tests_cant": "A continuum of correlations and integrals; all table sizes.", "anchors": ["phik/bivariate.py:chi2_from_phik", "phik/bivariate.py:phik_from_chi2", "phik/bivariate.py:_mvn_array", "phik/phik.py:phik_from_hist2d"]}
{"id": "C82", "title": "the incomplete beta function is the distribution function of the beta law", "statement": "The continued fraction evaluated by contfractbeta converges, for all a,b>0 and 0<x<1, to the incomplete beta integral: times C x^a (1-x)^b / a it tends to the distribution function of the beta law with density C x^(a-1) (1-x)^(b-1), which exists for all a,b>0. For every EPS>0 some ITMAX suffices for contfractbeta to return. For EPS<=1/4 the value returned agrees with the limit to a relative precision EPS*max(1, x/(1-x)), although the stopping rule only looks at the last step; so incompbeta, with the right ln Gamma, has relative precision 1e-7*max(1,(a+1)/(b+1)) below its switching point, and one minus it has precision 1e-7*max(1,(b+1)/(a+1)) above. For a whole number of events the recurrence of ln Gamma is enough, and the logarithms of log_poisson_obs_p are those of the negative binomial tail (or of its complement) to that precision.", "quantifier": "all real a,b>0, 0<x<1, all EPS, ITMAX", "why_tests_cant": "Convergence of an infinite continued fraction and an error bound for every stopping point.", "anchors": ["phik/betainc.py:contfractbeta", "phik/betainc.py:incompbeta", "phik/betainc.py:log_incompbeta", "phik/outliers.py:log_poisson_obs_p"]}
{"id": "C83", "title": "false-positive rate of the Monte-Carlo p-value", "statement": "If there is no correlation, the test statistic of the data and those of the N simulated tables are N+1 exchangeable values. Among the N+1 choices of the one that belongs to the data, significance_from_chi2_MC returns p <= k/N for exactly k+1 if the values are distinct (so p=0, Z=+inf, for exactly one: the rate is 1/(N+1), not 0), and for at most 2(k+1) in general. With ties the rate 2(k+1)/(N+1), twice the nominal one, is reached: tied simulations are counted by half and the data itself is not counted.", "quantifier": "all numbers of simulations, all values of the statistics, all thresholds", "why_tests_cant": "A rate over all choices; tests use one seed.", "anchors": ["phik/significance.py:significance_from_chi2_MC"]}
{"id": "C84", "title": "no result depends on the order of the records", "statement": "Whatever sequence of analyses is run on whatever data frames (binning, histograms, phik, significance and outlier matrices, the global correlations, the correlation report; asymptotic, Monte-Carlo or hybrid), with the records of every frame in any other order the results, the exceptions and the state of the random generator afterwards are the same.", "quantifier": "all programs of calls, all frames, all permutations of the records; explicit bin edges, if given, ascending (C100)", "why_tests_cant": "A permutation of the records of every frame; a test tries a few shuffles.", "anchors": ["phik/phik.py:phik_matrix", "phik/significance.py:significance_matrix", "phik/outliers.py:outlier_significance_matrices", "phik/binning.py:bin_data", "phik/report.py:correlation_report"]}
{"id": "C85", "title": "the order of the columns and the names of the categories only move or rename the entries", "statement": "With the columns of the frame in another order phik_matrix and the asymptotic significance_matrix have the same entry for every pair of names and the global correlations have the same value for every name (or numpy.linalg raises both times), provided every bins entry is a number or a list of edges; with any other entry (None) the edges of the previous column are reused and the column order decides between a result and UnboundLocalError. Renaming the categories of a column leaves the asymptotic significances unchanged.", "quantifier": "all frames, all column orders, all one-to-one renamings", "why_tests_cant": "All permutations of the columns and all renamings.", "anchors": ["phik/phik.py:phik_matrix", "phik/phik.py:global_phik_array", "phik/significance.py:significance_matrix", "phik/binning.py:bin_data"]}
{"id": "C86", "title": "phik lies in [0,1] in floating-point arithmetic, but a chi2 one rounding error below the maximum can make it fail", "statement": "In binary64, whatever rounding errors the computed chi2 of the bivariate normal distribution has, scipy's brentq started on [0,1] never evaluates or returns a point outside [0,1], and where it stops the computed function vanishes or changes sign within 1e-5. So phik_from_chi2 returns a number in [0,1] or raises: RuntimeError if 100 iterations are not enough, and ValueError only if chi2 is less than a relative 2^-50 below n*min(nx-1,ny-1). The latter happens: with maximum 4, pedestal 1.248 and chi2(1)=5.468 the value chi2=3.9999999999999996 raises ValueError, because np.isclose protects only values above the maximum. For a chi2 above the maximum the result is 1, except that it is 0 if chi2 is at most the pedestal or the maximum is at most the pedestal and chi2 is close to the maximum by numpy's isclose, evaluated in binary64 with the floats nearest to 1e-14 and 1e-5.", "quantifier": "all computed objective functions without NaN, all finite chi2, maxima up to 2^200, pedestals", "why_tests_cant": "Floating-point rounding of an arbitrary function; failures need values one ulp from the maximum.", "anchors": ["phik/bivariate.py:phik_from_chi2", "phik/bivariate.py:chi2_from_phik"]}
{"id": "C87", "title": "resource files over every history of the file system", "statement": "fixture(n) returns <data directory>/n iff the directory had an entry n when phik.resources was first imported and has one now that resolves to something; notebook(n) likewise, and only for names ending in .ipynb. In every other case FileNotFoundError is raised (KeyError for an unknown kind), in particular for every name with a slash, so no request can leave the directory. Calls change nothing and importing again does not refresh the listing: a file that exists but was added after the import is not found.", "quantifier": "all histories of creating, removing and replacing directory entries, importing and asking", "why_tests_cant": "The outcome depends on the order of file-system events, the import and the call.", "anchors": ["phik/resources.py:_resource", "phik/resources.py:fixture", "phik/resources.py:notebook"]}
{"id": "C88", "title": "the chi2 statistic of a table of counts survives rounding", "statement": "For every table of counts with at least one record (up to 2^46 records and 2^20 cells), get_chi2_using_dependent_frequency_estimates(values, lambda_='pearson') computed in IEEE binary64 arithmetic never raises - in particular scipy's check that observed and expected sums agree within 1e-8 never fires on the rounded (and Yates-corrected) values - and returns a finite number >= 0 that differs from the exact statistic by at most 2^-53 * (51 * records + (2 * cells + 30) * chi2), whatever the order in which numpy performs its additions. Reordering rows and columns, adding empty ones, or transposing the table changes the result by at most twice that. An exactly independent table gives exactly 0 up to 94906265 records, and less than 1/2 up to 2^46; above 94906265 records the result for an exactly independent table can be positive. A table without records raises ValueError.", "quantifier": "all tables of counts up to 2^46 records and 2^20 cells, all orders and groupings of every floating-point summation", "why_tests_cant": "rounding errors depend on every cell value, and the summation order on memory layout and numpy version", "anchors": ["phik/statistics.py:get_chi2_using_dependent_frequency_estimates", "phik/statistics.py:estimate_simple_ndof"]}
{"id": "C89", "title": "phik of a contingency table in floating-point arithmetic", "statement": "For every table of counts with at least two rows and two columns and at least one record, phik_from_hist2d computed in IEEE binary64 arithmetic returns a number in [0, 1]: 0 exactly when the computed chi2 does not exceed the noise pedestal (or the maximum does not), 1 when it reaches the maximum, and otherwise a point where the computed equation vanishes or changes sign within 1e-5; pedestal and maximum are computed without error and the computed chi2 is within the rounding error of C88. The only exceptions are RuntimeError from brentq's iteration limit, and ValueError for tables whose exact chi2 is within rounding error of the maximum. Exactly independent tables give exactly 0 when the pedestal is at least 1 or there are at most 94906265 records.", "quantifier": "all tables of counts up to 2^46 records and 2^20 cells, both settings of noise_correction, all summation orders, all finite non-negative computed chi2 functions of the correlation that vanish at 0", "why_tests_cant": "the interplay of rounding in chi2, in the scale and in the root finder depends on every cell value", "anchors": ["phik/phik.py:phik_from_hist2d", "phik/bivariate.py:phik_from_chi2", "phik/bivariate.py:chi2_from_phik", "phik/statistics.py:estimate_simple_ndof"]}
{"id": "C90", "title": "Quantile edges in floating point: ascending, from the smallest to the largest value, accurate", "statement": "With numpy >= 1.20, the quantile edges that quantile binning starts from, computed in binary64, are n+1 finite numbers in ascending order; the first equals the smallest and the last the largest non-NaN value, so quantile binning gives every value one of the bins 1..n and NaN the NaN marker (except that the smallest value is lost to the underflow when it is so large that the 1e-14 by which the first edge is lowered is absorbed). Edge k differs from the exact k/n quantile (linear interpolation in the sorted values) by at most (N*2^-49 + 2^-50)*(max-min) + 2^-52*(|min|+|max|) + 2^-1073, N+1 being the number of values. With numpy 1.18 or 1.19, which the package also allows, the quantiles are accurate too (2^-50 and 2^-1072 in place of 2^-52 and 2^-1073) but need not ascend: seven quantile bins of the column (0.1, 0.1) get descending edges.", "quantifier": "every column of floats (NaNs included) whose non-NaN values are finite and at most 2^1022 in size, with at most 2^50 of them, every number of bins from 1 to 2^40, every edge", "why_tests_cant": "monotonicity of interpolated quantiles in floating point fails for innocent-looking formulas (it did in numpy before 1.20) on rare inputs only; a test samples a handful of columns", "anchors": ["phik/binning.py:bin_edges", "phik/binning.py:bin_array", "setup.py:install_requires"]}
{"id": "C91", "title": "Monte-Carlo and hybrid p-values in floating point", "statement": "With scipy 1.5 to 1.8 the p-value of the MC method, computed in binary64, is a number in [0,1] within 2^-51 of the exact fraction of simulated values above chi2 (ties counted by mid-rank), is 0 and 1 exactly when that fraction is, and never increases with chi2. With scipy 1.9 and later it is as accurate (5*2^-53) and monotone but is not a probability: for 11 simulations all below chi2 it is negative (so that Z is NaN), and for 97 it is positive although no simulated value reaches chi2. The mixture p-value of the hybrid method is in [0,1] and within 2^-51 of the exact mixture for every fitted fraction and every pair of tail probabilities in [0,1].", "quantifier": "every list of up to 2^40 finite simulated chi2 values, every finite chi2; every f, p, q in [0,1]", "why_tests_cant": "whether n*(50/n) rounds above 100 depends on the number of simulations: it does for about 5% of all n and not for the round numbers used in tests", "anchors": ["phik/significance.py:significance_from_chi2_MC", "phik/significance.py:significance_from_chi2_hybrid"]}
{"id": "C92", "title": "What the global correlation is in binary64, given whatever the matrix inversion returned", "statement": "global_phik computes sqrt(1 - 1/(V[i][i]*Vinv[i][i])) in float64. For a phi_K matrix with 1.0 on the diagonal and for every float w that np.linalg.inv may have put at Vinv[i][i]: if w is finite and >= 1, the result is a float in [0,1] whose square is within 2^-50 of 1 - 1/w, exactly 0 when w = 1, and at least 2^-27 when w > 1 (no smaller nonzero global correlation can be reported); if 0 < w < 1 the result is NaN; if w < 0 (an indefinite phi_K matrix) the result is >= 1 or infinite. Consequently a rounding error of a single ulp in the inverse turns the global correlation 0 of a column independent of all others into NaN or into 2^-26: the result is not stable under rounding.", "quantifier": "every matrix V with unit diagonal entry i, every matrix of binary64 floats as the computed inverse, every column index", "why_tests_cant": "The inverse ranges over all floats; tests on a few data sets see only the values LAPACK happened to produce there.", "anchors": ["phik/phik.py:global_phik_from_rebinned_df"]}
{"id": "C93", "title": "Outlier expectations, uncertainties and mid-p-values in binary64", "statement": "For a table of counts with at most 2^32 records, the outlier expectation of every cell as computed in float64 is within relative 2^-51 of (records of its row elsewhere) x (records of its column elsewhere) / (records in neither), and its 'poisson' uncertainty is within relative 2^-48 of the exact propagated error; both are NaN exactly when no record lies outside the row and column. The arguments b and x handed to the incomplete beta function are finite with b >= 1, 0 < x <= 1 and relative error 2^-46. The mid-p-value lies between P(n>=nobs+1) and P(n>=nobs), is 0 only if P(n>=nobs) is 0, and is within relative 2^-51 (plus 2^-1074) of their mean. One expectation fails: x < 1 exactly, but it can be rounded to 1 (B = C = 2^27, D = 1), where the p-value is 1 whatever was observed.", "quantifier": "every table of nonnegative integer counts of total at most 2^32 of any shape, every cell, every implementation of pow(x,2) that is accurate to 2^-52, all floats p >= p1 in [0,1]", "why_tests_cant": "The error bounds must hold for every table, and the zero/one branches of the mid-p-value for all floats including subnormals.", "anchors": ["phik/outliers.py:get_independent_frequency_estimates", "phik/outliers.py:get_poisson_uncertainty", "phik/outliers.py:poisson_obs_p", "phik/outliers.py:poisson_obs_mid_p"]}
{"id": "C94", "title": "Declared but unused categories of a category-dtype column enter the contingency table", "statement": "When at least one of two columns has pandas' category dtype, the contingency table of hist2d and phik_matrix has one row (column) per declared category, used or not, in the declared order; a column without category dtype contributes every non-missing value, also those that only occur where the other column is missing; the counts are those of the complete records. The chi2 is that of the used categories alone, but the degrees of freedom, the noise pedestal and the maximum chi2 are those of the padded table: with R, C levels of which r, c are used the simple ndof is max(0, (R-1)(C-1) - (RC - rc)). If every level is used, phik equals that of the same columns without category dtype, whatever the category order. If min(r,c) < min(R,C) the phik is 0 or (up to the solver tolerance) a correlation strictly below 1, even under perfect association, where the plain columns give exactly 1. The result is NaN exactly when one of the columns has fewer than two levels. An unused category can turn phik from 0 to a positive value. hist2d removes dropped underflow and overflow labels also from the declared categories and succeeds, except that with dropna=False it raises for a category-dtype column that does not declare the label 'NaN'.", "quantifier": "all pairs of columns (any declared categories, any cells, any missing pattern), all root finders within the contract", "why_tests_cant": "The set of possible declared categories and missing patterns is unbounded, and the refutation needs a bound on the exact bivariate normal integral rather than a numerical run.", "anchors": ["phik/binning.py:hist2d_from_rebinned_df", "phik/phik.py:_calc_phik", "phik/phik.py:phik_from_hist2d", "phik/statistics.py:estimate_simple_ndof", "phik/statistics.py:theoretical_ndof"]}
{"id": "C95", "title": "Merging or recoding categories never raises the chi2 - but it can raise phik", "statement": "Combining categories of either variable (adding rows of the contingency table to each other, adding columns to each other, or recoding the values of the two columns with any function that keeps missing values missing and present values present) never increases the chi2 that get_chi2_using_dependent_frequency_estimates returns, for the Pearson and for the log-likelihood statistic, with Yates' correction as scipy >= 1.7 applies it. It fails after recoding exactly when it failed before (no complete record). Two limits of this are real: with the correction of scipy < 1.7 (not limited to the difference) merging two rows of a 3 x 2 table of counts can increase the chi2; and phik itself is not monotone: merging pairs of identically behaving categories of a 6 x 3 table (48 records) lifts phik with noise correction from exactly 0 to above 0.001.", "quantifier": "for every non-negative table with records and every pair of maps of its rows and columns; for every list of records and every pair of recodings; both statistics", "why_tests_cant": "monotonicity over all tables and all partitions of the categories (a data-processing inequality, with Yates' correction switching on when the table becomes 2 x 2) cannot be established by sampling tables", "anchors": ["phik/statistics.py:get_chi2_using_dependent_frequency_estimates", "phik/binning.py:hist2d_from_rebinned_df", "phik/phik.py:phik_from_hist2d"]}
{"id": "C96", "title": "Changing the unit of an interval variable: which records change bin", "statement": "(a) With quantile bins and exact arithmetic any strictly increasing transformation of a column (a change of unit, a logarithm) leaves every record in the same bin: a value lies above edge k exactly when its image lies above edge k of the transformed column. A decreasing transformation does not (1,2,3 with two bins). In binary64 even the increasing case fails: four adjacent floats above 1 are split 3|1, the affinely equivalent values 1,2,3,4 are split 2|2. (b) With uniform bins in binary64, when arr' holds a*arr+b (a > 0, each value within d), a record keeps its bin unless it lies within edge_err + (2d + edge_err')/a of an interior ideal edge, edge_err = 2e-14 + (|lo|+|hi|)/2^49 (or it is the smallest value and gets lost, C04). (c) The 1e-14 offset is not scaled with the data: when every |value| is at most 2.4e-15/n, all records fall into the last of the n bins; so 1,2,3,4 and the same numbers in a unit 2^60 times larger give the bins 1,1,2,2 and 2,2,2,2: invariance under a change of unit is refuted.", "quantifier": "for all data sets, all increasing functions, all numbers of bins; for all pairs of binary64 columns related by an affine map up to an error d, 1 <= n <= 2^50", "why_tests_cant": "a statement about every data set and every transformation; the failing cases need values within 1e-14 of each other, which test data never has", "anchors": ["phik/binning.py:bin_edges", "phik/binning.py:bin_array"]}
{"id": "C97", "title": "integer overflow in the outlier expectations", "statement": "get_independent_frequency_estimates on a table of int64 counts gives what unbounded integers would give for up to 6074001000 records, and for up to 2^32 records expectation and uncertainty have the accuracy of C93. One record more and numpy's silent wrap-around can make an expectation negative: whenever the product of the counts in the rest of the row and in the rest of the column is in [2^63, 2^64) and D>0. A table with an empty cell made from a data frame has float64 counts, and is never affected (up to 2^53 records).", "quantifier": "all tables of counts, all cells", "why_tests_cant": "needs tables of more than six thousand million records", "anchors": ["phik/outliers.py:get_independent_frequency_estimates", "phik/binning.py:hist2d_from_rebinned_df"]}
{"id": "C98", "title": "Column labels that are numbers, mixed or repeated", "statement": "phik_matrix checks its columns before anything else, and what the check does with labels other than distinct strings is exactly this. If the non-interval columns carry both numbers and strings as labels it raises TypeError. Otherwise, if a label is repeated, or if a column labelled by a number would be dropped (too few values) or warned about (over 1000 values, not interval), it raises ValueError. Otherwise it keeps, in order, the columns with two values (or one value, if missing values count and the column is categorical), drops the rest, and warns about exactly the dropped and the large ones. The warnings come in a fixed order: the large columns by ascending name, then the dropped interval columns in the order the user gave them, then the other dropped columns by ascending name. When it does not raise, the result is the one for distinct string labels with the labels exchanged; with distinct strings it never raises here. So a constant column is dropped with a warning when its name is a string but is an error when its name is a number (such as the default labels of pandas). phik_from_rebinned_df makes no such check: with one label on all columns it returns a matrix of ones whatever the data, and with a repeated label beside another it raises.", "quantifier": "every frame (any number of columns, integer or string labels, repeated or not, any cells), every interval_cols, bins (number, edges or dictionary), every flag, every library satisfying nothing in particular", "why_tests_cant": "The outcome depends on the combination of label types, duplicates and value counts over all columns, and the failing branches are inside the formatting of warnings; tests use string labels", "anchors": ["phik/data_quality.py:dq_check_nunique_values", "phik/binning.py:bin_data", "phik/phik.py:phik_matrix", "phik/phik.py:phik_from_rebinned_df", "phik/phik.py:_calc_phik"]}
{"id": "C99", "title": "the phik matrix in binary64 arithmetic, end to end", "statement": "In binary64 arithmetic, phik_matrix and phik_from_rebinned_df return a matrix labelled by the remaining columns in order, square, symmetric bit for bit, exactly 1.0 on the diagonal. Off the diagonal each entry is the value phik_from_hist2d gives for the contingency table of the pair (as a number; the averaging of one value loses nothing): a finite number in [0, 1], or NaN exactly when the table has fewer than two rows or columns. No exception can occur except the binning errors, brentq's RuntimeError, and a ValueError for a pair whose chi2 is within rounding error of the largest chi2 its table allows. Permuting the records does not change a single bit of the result. Swapping two columns can: the table is transposed, its terms are added in another order, and the last bits of phik may differ.", "quantifier": "every data frame with distinct column names, ascending explicit bin edges (if given, see C100), up to 2^43 records and up to 1024 distinct values per column after binning; every order of summation in numpy and pandas (compensated or not); every special-function implementation that is finite, non-negative and correct at its two ends", "why_tests_cant": "symmetry and the unit range must survive rounding for every table, summation order and number of columns; tests compare a few tables to a tolerance", "anchors": ["phik/phik.py:phik_from_rebinned_df", "phik/phik.py:_calc_phik", "phik/phik.py:phik_matrix", "phik/phik.py:phik_from_hist2d", "phik/phik.py:create_correlation_overview_table"]}
{"id": "C100", "title": "numpy's bin search: sorted edges, unsorted edges, and the order of the records", "statement": "bin_array looks values up with numpy.searchsorted, which starts the search for each value where the search for the previous value ended. If the bin edges ascend this gives every value the bin that a separate search would give, so bin_data (uniform, explicit or quantile edges, any number of columns) does not depend on the order of the records. If the user passes edges that are not sorted, no error is raised: a value is still only put in a bin that contains it, or below the first or above the last edge, but which of these depends on the values before it: with edges [0, 20, 10] the value 20 is in bin 1 when it comes first and in the overflow when 15 comes before it, and the 2d histogram of the same two records counts two records in one order and one in the other.", "quantifier": "every array of values (including NaN and infinities), every list of NaN-free edges in any order, every frame, column list and bins argument", "why_tests_cant": "the search state is carried over from record to record, so only an invariant over every history of earlier values settles it; tests use sorted edges and sorted or short arrays", "anchors": ["phik/binning.py:bin_array", "phik/binning.py:bin_data", "phik/binning.py:bin_edges"]}
{"id": "C101", "title": "the number of bins bounds the tables; fewer than two bins make phik NaN", "statement": "For k bin edges, in any order, binning a value gives NaN, 'UF', 'OF' or one of the k-1 bin numbers. nbins asks for nbins+1 edges: -1 gives no edge (every value is underflow), 0 gives one edge (every value is underflow or overflow), less than -1 is a ValueError. When missing values, underflow and overflow are dropped, the contingency table of two binned columns has at most nbins rows and nbins columns; so an interval column with fewer than two bins (bins <= 1 or at most two explicit edges) has phik NaN with every other column of phik_matrix, without an error, while its diagonal entry is 1.", "quantifier": "every data frame with distinct column names, every list of edges (sorted or not), every number of bins, every library that meets the contract", "why_tests_cant": "the bound holds for every data set and edge list, including unsorted and empty ones", "anchors": ["phik/binning.py:bin_array", "phik/binning.py:bin_edges", "phik/binning.py:hist2d_from_rebinned_df", "phik/phik.py:phik_matrix", "phik/phik.py:_calc_phik"]}
{"id": "C102", "title": "the G statistic (the default of the significance functions) survives rounding", "statement": "For every table of counts with at least one record (up to 2^46 records and 2^20 cells), get_chi2_using_dependent_frequency_estimates(values) - i.e. with the default lambda_='log-likelihood', the statistic behind significance_from_hist2d and significance_matrix - computed in IEEE binary64 arithmetic never raises, and returns a finite number that differs from the exact G statistic by at most 2^-53 * ((8 * cells + 190) * records + (2 * cells + 32) * G), whatever the order in which numpy performs its additions and for every C library whose log is accurate to one unit in the last place. Reordering rows and columns, adding empty ones, transposing the table, another summation order or another C library change it by at most twice that. An exactly independent table gives exactly 0 up to 94906265 records. Unlike the exact statistic and unlike Pearson's (C88), the computed G of an exactly independent larger table can be negative: it is for [[496154484, 239820588, 531875484], [203473897, 98350879, 218123147]]. A table without records raises ValueError, and so does, with either statistic, any table with a negative cell.", "quantifier": "all tables of counts up to 2^46 records and 2^20 cells, all orders and groupings of every floating-point summation, all logarithm functions with relative error at most 2^-52", "why_tests_cant": "rounding errors depend on every cell value, on the C library and on the summation order; cancellation between positive and negative terms cannot be bounded by examples", "anchors": ["phik/statistics.py:get_chi2_using_dependent_frequency_estimates", "phik/significance.py:significance_from_hist2d"]}
{"id": "C103", "title": "the far-tail Z-value of z_from_logp in floating-point arithmetic", "statement": "Where exp(logp) underflows to 0 (and logp >= -2^1022), z_from_logp computed in binary64 with any logarithm accurate to one unit in the last place is finite, within 3*2^-53 (relative) of its formula in real numbers, never decreases as logp decreases (exactly, no tolerance), and down to logp = -10^14 stays below the true Z-value (the deviation of C74 is not made up by rounding). flip_sign changes the sign bit for bit in every case, logp = -inf gives +inf / -inf; but for finite logp <= -2^1023 doubling it overflows and the result is NaN.", "quantifier": "all finite log p-values whose exponential underflows, all logarithms off by at most 2^-52 relatively, all exponentials that underflow only below -740", "why_tests_cant": "Every float below -745; rounding of a logarithm that the language does not fix.", "anchors": ["phik/statistics.py:z_from_logp"]}
{"id": "C104", "title": "the Chernoff fallback in floating-point arithmetic", "statement": "When the p-value underflows, the fallback of significance_from_chi2_ndof and of the hybrid method (with the term -2 ln f of the fit), computed in binary64 for ndof <= chi2 <= 2^45, raises nothing whenever the exact exponent is at least 2, and its Z-value then satisfies |computed - exact| * exact <= 50*2^-53*(chi2 - 2 ln f); it raises ValueError when the exact exponent is below -27*2^-53*(chi2 - 2 ln f); nothing but ValueError is ever raised; it is monotone in chi2 up to twice that error; for chi2 = inf no error is raised but the Z-value is NaN.", "quantifier": "all finite chi2, ndof with 2^-100 <= ndof <= chi2, 1 <= chi2 <= 2^45, all fractions in (0,1], all logarithms off by at most 2^-52 relatively", "why_tests_cant": "Continuum of floats; cancellation between ndof*log(z) and ndof*(z-1) when ndof is large.", "anchors": ["phik/significance.py:significance_from_chi2_ndof", "phik/significance.py:significance_from_chi2_hybrid"]}
{"id": "C105", "title": "more data of the same distribution never lowers phik, and noise correction fades away", "statement": "Noise correction can only lower phik_from_hist2d. Multiplying every count of the table by k >= 1 (repeating every record k times) never lowers it, with or without noise correction, 2 x 2 tables and Yates' correction included (all up to the solver tolerance 2.02e-5); without noise correction and outside 2 x 2 tables it changes nothing. With noise correction the value tends to the uncorrected phik as k grows. The asymptotic p-value of significance_from_hist2d never rises (outside 2 x 2 tables, both statistics). For frames: repeating every record k times, in any order, leaves labels and NaN entries of phik_from_rebinned_df as they are and no entry of a square table or one with two categories on a side falls.", "quantifier": "all tables of non-negative counts whose grid is square or has two rows or columns (for phik), all real factors k >= 1, all frames of distinct column names and equal lengths, all root finders within brentq's contract; scipy >= 1.7 for phik", "why_tests_cant": "Ranges over all tables, factors and orders of the repeated records; the monotonicity rests on the shape of the binned bivariate normal chi2 for every correlation and the limit is about arbitrarily large k.", "anchors": ["phik/phik.py:phik_from_hist2d", "phik/phik.py:phik_from_rebinned_df", "phik/bivariate.py:phik_from_chi2", "phik/statistics.py:estimate_simple_ndof", "phik/significance.py:significance_from_hist2d"]}
{"id": "C106", "title": "simulated tables in floating-point arithmetic: accepted probabilities, number of records", "statement": "sim_chi2_distribution simulates from the floating-point expected frequencies of the table. For every table of counts (up to 2^46 records, up to 8192 cells, (2*cells+5)*records <= 2^53) and whatever the order of numpy's additions: numpy's multinomial generator accepts the probabilities (each is in [0,1] and the Kahan sum of all but the last never exceeds 1 + 1e-12, so no spurious ValueError), each probability equals the one of the independence hypothesis within (2*cells+10)*2^-53 relative, and the number of simulated records is the number of records or exactly one less: hist.sum() is truncated, not rounded. The product methods do the same per row or column, with totals that are right or one less. One less does happen: [[1,1],[3,1]] (6 records) is simulated with 5 records, and for six records with six different values in both variables 'col_product_multinominal' draws every row with 0 trials, so every simulated table is empty and its chi2 raises ValueError. The default method never simulates an empty table (at least one record is drawn, so the statistic exists); an empty row or column raises ValueError in the product methods. The hypergeometric method rounds and always gets the true totals; simulating from the table itself (alt_hypothesis=True) always draws the true number of records.", "quantifier": "all tables of counts within the stated sizes, all orders and groupings of every floating-point summation", "why_tests_cant": "the truncation depends on the last bit of a sum over the whole table, and numpy's acceptance test on accumulated rounding over all cells", "anchors": ["phik/simulation.py:sim_2d_data", "phik/simulation.py:sim_2d_product_multinominal", "phik/simulation.py:sim_2d_data_patefield", "phik/simulation.py:sim_chi2_distribution", "phik/statistics.py:get_dependent_frequency_estimates"]}
{"id": "C107", "title": "The Monte-Carlo p-value computed from the tables in floating point: bracketed by the clear comparisons, exact up to 5*2^-53 without near-ties, and decided by rounding errors on ties", "statement": "significance_from_hist2d(values, significance_method='MC') compares the floating-point test statistic of the observed table with the floating-point statistics of the simulated tables. For either statistic, for every table of counts and any 1 to 2^40 simulated tables of counts: the p-value exists, is finite, at most 1, and lies - up to 5*2^-53 - between the fraction of simulated tables whose exact statistic exceeds the observed one by more than the two rounding errors and the fraction of those that are not below it by more than the two errors. If no simulated table is that close to the observed one, the p-value is, up to 5*2^-53, the fraction of simulated tables with a larger exact statistic. The order in which the simulations are delivered (parallel workers) does not change one bit of it. A table without records, observed or simulated, makes the call raise. Exact ties are not recognised: the table [[1,0,0],[0,1,1]] and the same table with its rows swapped have the same statistic, 3, yet with one observed and n copies of the other simulated the p-value is 0, and exchanged it is 1, where the documented percentile of n ties is (n-1)/(2n) from above.", "quantifier": "all tables of counts with records (at most 2^46 in at most 2^20 cells), all lists of 1 to 2^40 simulated such tables, both statistics, both percentile formulas of scipy, every order of the additions, every logarithm accurate to 2 units", "why_tests_cant": "ties between simulated and observed statistics are frequent for small tables; whether rounding breaks them depends on every table and order of additions, and no sample of seeds bounds the effect", "anchors": ["phik/significance.py:131-151", "phik/significance.py:216-228", "phik/simulation.py:187-202", "phik/statistics.py:36-57"]}
{"id": "C108", "title": "Outlier matrix of selected rows of a binned frame with the binning dictionary of the whole frame: right labels, an error, or underflow rows labelled as intervals", "statement": "bin_data returns a binned frame and a dictionary of the non-empty bins; outlier_significance_matrix_from_rebinned_df takes both. For every selection of rows of the binned frame (in any order, with repetitions) passed with the original dictionary, when the resulting table is at least 2 x 2: if all bins of the interval variables still occur among the selected rows, the labels of the axes are the intervals of the respective bins; if more bins of a variable are lost than its axis has underflow, overflow and NaN entries, the call raises ValueError; otherwise it succeeds silently and exactly as many of the underflow, overflow and NaN rows as bins were lost carry the label of an interval.", "quantifier": "all frames and binnings that bin_data accepts, all row selections, all drop options, all formats", "why_tests_cant": "the number of lost bins and of marker rows depends on every combination of selection and options; the silent case looks like a normal result", "anchors": ["phik/outliers.py:384-428", "phik/binning.py:57-104", "phik/binning.py:142-168"]}
{"id": "C109", "title": "number and repeated column names in the significance functions", "statement": "Renaming the columns of a frame (by any one-to-one map to strings or whole numbers) renames the result of significance_from_rebinned_df and significance_matrix and leaves the random state and all values the same, except: significance_matrix raises TypeError if the categorical columns mix numbers and strings and ValueError if a column called by a number would be dropped or warned about (as phik_matrix does), and both functions have no result (ValueError, or an exception raised with string names too) if some pair of columns, a column with itself included, has no table of at least 2 by 2 and one of the two is called by a number: the warning that should accompany the NaN cannot be composed. With string names nothing is refused. A repeated name never gets a result, also when all names are equal (where phik_from_rebinned_df returns ones).", "quantifier": "all frames, one-to-one renamings, binnings, methods, random states and worker states", "why_tests_cant": "All label types and all frames; the tests use string names only.", "anchors": ["phik/significance.py:significance_from_rebinned_df", "phik/significance.py:significance_matrix", "phik/data_quality.py:dq_check_nunique_values"]}
{"id": "C110", "title": "number and repeated column names in the outlier functions", "statement": "Binning (bin_data with retbins) does not depend on what the columns are called. outlier_significance_matrix of renamed columns gives the same matrix and the renamed bin dictionary, except TypeError / ValueError from the column check as for phik_matrix, and ValueError instead of NaN when the two columns have no table of at least 2 by 2 and one is called by a number. outlier_significance_matrices_from_rebinned_df likewise, pair by pair. outlier_significance_matrices has a result only if every name in the pairs it computes is a string: with a number among them (in particular for every frame with the default labels 0, 1, ... of which two columns are kept) all matrices are computed and then TypeError is raised. With string names nothing is refused.", "quantifier": "all frames, one-to-one renamings, binnings, combinations, CI methods", "why_tests_cant": "All label types and all frames; the tests use string names only.", "anchors": ["phik/outliers.py:outlier_significance_matrix_from_rebinned_df", "phik/outliers.py:outlier_significance_matrix", "phik/outliers.py:outlier_significance_matrices", "phik/binning.py:bin_data"]}
{"id": "C111", "title": "the default significance method from the tables, in floating point", "statement": "With the hybrid method, computed in binary64 from an observed table of counts (up to 2^46 records and 2^20 cells) and 1 to 2^40 simulated ones, with either statistic, for every order of the additions: the choice between the low- and high-statistics formula is exactly that of N*c <= 4*r for an r x c table with N records, never decided by rounding; the effective number of degrees of freedom is the mean of the exact statistics of the simulated tables up to the mean of their errors and (2n+3)*2^-53; the p-value is a number in [0,1], with few records within 2^-51 of the mixture of the two survival functions with the fitted fraction, otherwise chi2.sf itself; the Z-value is -norm.ppf of it unless it is zero, when the Chernoff formula is used (with the term for the fraction exactly when the mixture was). Nothing but ValueError is raised, and always for a table without records. 'The result does not depend on the order of the simulations' is false in the last bits (unlike for the MC method): three 2x3 tables give two different means. If all simulated tables are independent the number of degrees of freedom is exactly 0.", "quantifier": "all count tables within the size limits, all lists of simulated tables, all orders of summation, all logarithms with relative error up to 2^-52, all survival functions and fits with values in [0,1]", "why_tests_cant": "Rounding errors of unboundedly long computations over all tables; the boundary cases of the switch (exact equality) are the ones a test misses.", "anchors": ["phik/significance.py:significance_from_chi2_hybrid", "phik/significance.py:significance_from_hist2d", "phik/statistics.py:estimate_ndof", "phik/simulation.py:sim_chi2_distribution"]}
{"id": "C112", "title": "The significance matrix in floating point, end to end, for all three methods", "statement": "With real float64 arithmetic, significance_matrix and significance_from_rebinned_df return a matrix whose rows and columns are the columns of the frame in their order, symmetric to the last bit; each entry off the diagonal is, as a number, the Z-value that significance_from_hist2d gives for the contingency table of the two columns (infinities included), or NaN when that table has fewer than two rows or columns, and on the diagonal the Z-value of the column with itself. For the asymptotic method the test statistic is the exact one up to the stated rounding error and the number of degrees of freedom is exactly (rows-1)*(columns-1). The only exception after binning is the ValueError of the formula for p-values of zero; the MC method raises none. The order of the records does not change a single bit (given the same simulated tables); exchanging two columns changes the statistic by at most twice the rounding error, but can change the last bits. A column with two records of different values has Z = -infinity or NaN (depending on pandas) with itself.", "quantifier": "all frames of up to 2^43 records and 1024 different values per column, all options, all summation orders of numpy, all logarithms accurate to 2 units in the last place, all scipy distributions and fits, all simulated tables, both ways pandas adds up a mean", "why_tests_cant": "Whether rounding can break symmetry, move an entry or make the result depend on the order of the records depends on all frames; tests compare a few matrices to a few decimals.", "anchors": ["phik/significance.py:significance_from_hist2d", "phik/significance.py:significance_from_rebinned_df", "phik/significance.py:significance_matrix", "phik/statistics.py:theoretical_ndof", "phik/binning.py:create_correlation_overview_table"]}
{"id": "C113", "title": "Outlier p-values, Z-values and matrices in floating point, and the continued fraction behind them", "statement": "In float64 arithmetic: contfractbeta returns a value exactly when, within ITMAX+1 steps, two successive values of the fraction agree to the relative tolerance EPS, and returns the first such value; it is finite and not 0, a larger ITMAX does not change it, and otherwise ValueError is raised (with Python floats also ZeroDivisionError); a NaN argument gives ValueError. The outlier matrix of a table has one p-value and one Z-value per cell; only ValueError can be raised, and only if some mid-p-value is exactly 0 or 1; with any other p-value, Z is -ppf(p), and for p = 0 or 1 it comes from log(1/2) + log p + log(1 + p1/p) (p1: one more record) or the same for 1-p, where the logarithms are those of the fraction, of its complement, or of poisson.sf. A cell with no records outside its row and column gets NaN. With records outside both, and some in either, the p-value is built from betainc at n and n+1 with arguments within 2^-46 of Linnemann's exact ones (up to 2^32 records). Exchanging or reordering rows and columns exchanges or reorders the values bit for bit (or raises the same error); the same holds for the labelled matrix of two columns when the columns are exchanged, and the order of the records never matters. Two defects are proved: one or more records in a cell that is alone in its row and column get p = 0 but Z = NaN instead of +inf, and there is a 2x2 table of fewer than 2^32 records where Linnemann's x rounds to 1.0, so p = 1 and Z = NaN.", "quantifier": "all float64 arguments a, b, x, all ITMAX, all finite EPS in [0,1]; all tables of counts (totals up to 2^32 where accuracy is claimed); all frames, interval dictionaries, flags; all library functions with the stated properties", "why_tests_cant": "The float values, the number of iterations, the tables and the libraries range over sets that cannot be enumerated; agreement bit for bit under permutations is a statement about all tables.", "anchors": ["phik/betainc.py: contfractbeta, incompbeta, log_incompbeta", "phik/outliers.py: poisson_obs_p, poisson_obs_mid_p, log_poisson_obs_mid_p, poisson_obs_mid_z, get_outlier_significances, outlier_significance_matrix_from_hist2d, outlier_significance_matrix_from_rebinned_df, outlier_significance_matrix"]}
{"id": "C114", "title": "An infinite value (or a range that overflows) in an interval column makes its automatic bins useless", "statement": "If an interval column contains +infinity or -infinity, or two finite values whose difference is not a finite double, then the uniform edges that bin_edges / bin_data compute from a number of bins are each NaN, +infinity or the largest value of the column: no value lies above any edge, every non-missing record of the column becomes underflow ('UF'), whatever the other values are, and no warning or error is raised by the binning itself. With the default dropna/drop_underflow/drop_overflow the contingency tables of that column with any other column have no rows, and phik_matrix gives NaN for every pair with it (1 on the diagonal). With explicit finite edges infinite values are only overflow ('OF') or underflow, and the other records are unaffected.", "quantifier": "all columns (any length, order, mixture of missing, finite and infinite values), any number of bins up to 2^50, all frames, all positions of the bad value, all behaviours of the quantile and special function libraries", "why_tests_cant": "A test shows one frame with one infinite value; that a single infinite or extreme value silences all other records of its column, for every number of bins and every position of that value, is a statement about floating point infinities, NaN and overflow in all of linspace and the search.", "anchors": ["phik/binning.py: bin_edges, bin_array, bin_data, hist2d_from_rebinned_df", "phik/phik.py: phik_matrix, phik_from_rebinned_df"]}
{"id": "C115", "title": "Infinite values with quantile bins: +infinity is harmless, -infinity silently drops the lowest bin", "statement": "With quantile=True, a column that contains +infinity (and at least two finite values) gets edges of which the first p (1 <= p <= nbins) are exactly those of the column with 2^1022 in place of +infinity and the others NaN or +infinity; every record is in the same bin as in that column, except that all bins from p on are one bin, which holds the infinite values: nothing is lost (up to the smallest value when 1e-14 is absorbed, as without infinities). A column that contains -infinity, however, gets NaN as its first edge: bin 1 does not exist, and every record that is not above one of the later edges becomes underflow - the -infinity records and all records of the lowest quantile - and is dropped from the contingency tables by default, without a warning.", "quantifier": "all columns of up to 2^50 values of any order and multiplicity with missing values (for +infinity: the other values of magnitude below 2^1022, at least two of them; for -infinity: any other values), all numbers of bins up to 2^40, numpy's search per key and with its cached bounds", "why_tests_cant": "A test shows one column; that no position, number or combination of infinite values ever loses a record on the upper side but always loses the lowest bin on the lower side is a statement about every interpolation between order statistics in floating point, including inf*0 and inf-inf, and about the bisection among NaN edges.", "anchors": ["phik/binning.py: bin_edges, bin_array, bin_data"]}
{"id": "C116", "title": "All outlier matrices in floating point: each equals the analysis of its two columns alone", "statement": "In float64 arithmetic, the entry 'a:b' of outlier_significance_matrices is, bit for bit, what outlier_significance_matrix returns for the two columns a and b alone with the same arguments (the other columns of the frame have no influence, provided the bins entries of a and b are numbers or edges), with the same bin edges for a and b; if two requested pairs share a key, this holds for the last of them. Without ':' in the names there is one entry per requested pair (or per pair of columns surviving the data-quality check), in that order. The order of the records does not matter. Exchanging the two columns (or two named arrays in outlier_significance_from_array and outlier_significance_from_binned_array) exchanges the index and the columns of the matrix bit for bit, and with both pairs requested the two entries are transposes of one another. outlier_significance_from_array is outlier_significance_matrix on the frame of its arrays, and outlier_significance_from_binned_array bins two number arrays once more, into 10 uniform bins. A requested pair with an unknown or dropped column always makes the call fail; the only errors are those of the binning, ValueError, and KeyError, the last only for such a pair.", "quantifier": "all frames, interval columns given or guessed (column names distinct if guessed), bins, requested pairs, flags; all library functions (order-free quantiles for the record order); all pairs of named arrays", "why_tests_cant": "Frames, pairs and library functions range over sets that cannot be enumerated; bit-for-bit agreement between two entry points is a statement about all inputs.", "anchors": ["phik/outliers.py: outlier_significance_matrices, outlier_significance_matrices_from_rebinned_df, outlier_significance_matrix, outlier_significance_from_array, outlier_significance_from_binned_array", "phik/data_quality.py: dq_check_nunique_values", "phik/binning.py: bin_data"]}
{"id": "C117", "title": "Two columns' phik and significance are their own: the other columns have no influence, bit for bit", "statement": "In float64 arithmetic, the entries of the phik matrix (phik_matrix) for two columns a and b of a frame, a before b - the two diagonal ones and the two off-diagonal ones - are, bit for bit, those that phik_matrix returns for the frame with the columns a and b only, with the same arguments. Consequently two frames with the same columns a and b, in this order, give the same values for them whatever else they contain. The same holds for significance_matrix, if the tables simulated for the pair are the same. The condition is that the column names are distinct and the bins entries of a and b, where they are interval columns, are numbers or edges: with an entry that is neither (e.g. None), the edges of another column are used, and taking that column away turns the answer into an UnboundLocalError (machine-checked refutation).", "quantifier": "all frames with distinct column names, interval columns given or guessed, bins, flags, pairs of columns of the result; all library functions (sums, quantiles, chi2 and normal distribution, root finder), significance methods and simulated tables", "why_tests_cant": "Frames of any width, the other columns' values and the library functions range over sets that cannot be enumerated; tests compare a few matrices to a tolerance.", "anchors": ["phik/phik.py: phik_matrix, phik_from_rebinned_df", "phik/significance.py: significance_matrix, significance_from_rebinned_df", "phik/data_quality.py: dq_check_nunique_values", "phik/binning.py: bin_data"]}
{"id": "C118", "title": "interval_cols is a set of names: order, repetitions and unknown names do not matter - unless a bins entry is unsupported", "statement": "If two lists interval_cols name the same columns of a frame (names the frame does not have count for nothing; None stands for the list of its numeric columns), phik_matrix and significance_matrix return, bit for bit, the same matrix for both in float64 arithmetic (significance_matrix given the same simulated tables), and outlier_significance_matrices the same dictionary of matrices and the same bin edges per column: if one call succeeds so does the other. bin_data too depends only on which columns are listed, the frame and each column's labels being the same for every order and with repetitions, but an unknown name is a KeyError there. Condition: distinct column names, and bins entries of the interval columns that are numbers or edges. With an entry that is neither (e.g. None) the order of the list decides between an answer and an UnboundLocalError (machine-checked refutation).", "quantifier": "all frames with distinct column names, all pairs of lists (or None) naming the same columns of the frame, all bins with supported entries, flags, significance methods, requested pairs; all library functions", "why_tests_cant": "Lists with any order, repetitions and foreign names, and frames of any size, cannot be enumerated; tests pass one list.", "anchors": ["phik/data_quality.py: dq_check_nunique_values", "phik/binning.py: bin_data", "phik/phik.py: phik_matrix", "phik/significance.py: significance_matrix", "phik/outliers.py: outlier_significance_matrices"]}
{"id": "C119", "title": "Of the bins argument only what it says about each surviving interval column matters", "statement": "Two calls of phik_matrix, significance_matrix or outlier_significance_matrices in float64 arithmetic that differ only in bins (and the quantile flag) give, bit for bit, the same matrices (and the same bin edges per column) if for each interval column with at least two different values both ask for the same: the same number of bins with the same quantile flag, or the same list of edges. So the order of a bins dictionary and its entries for other columns (absent, non-interval or dropped ones, even unsupported values) do not matter, a number of bins for all columns is the same as a dictionary with this number for each interval column, and the quantile flag is ignored where edges are given. bin_data likewise. A dictionary without an entry for an interval column that has at least two different values is always a ValueError in phik_matrix, whatever the rest of the input; columns with fewer values need no entry.", "quantifier": "all frames with distinct column names, interval columns given or guessed, all pairs of bins arguments and quantile flags asking for the same per interval column, flags, methods, requested pairs; all library functions", "why_tests_cant": "Frames, dictionaries and library functions range over sets that cannot be enumerated; tests pass a few fixed bins arguments.", "anchors": ["phik/binning.py: bin_data", "phik/data_quality.py: dq_check_nunique_values", "phik/phik.py: phik_matrix", "phik/significance.py: significance_matrix", "phik/outliers.py: outlier_significance_matrices"]}
