#!/usr/bin/env python3
"""DESIGN.md (and ASSUMPTIONS.md when /tmp/pa/pa.json from tools/assumptions.py is present)."""
import json, os, re, glob
HERE = os.path.dirname(os.path.abspath(__file__)); V = os.path.join(HERE, '..')
props = [json.loads(l) for l in open(f'{V}/properties.jsonl')]
man = {c['property']: c for c in json.load(open(f'{V}/MANIFEST.json'))['claims']}
where = {}
for f in glob.glob(f'{V}/rocq/theories/*.v'):
    for m in re.finditer(r'^\s*(?:Theorem|Lemma|Corollary)\s+(\w+)', open(f).read(), re.M): where.setdefault(m.group(1), os.path.basename(f))

METHOD = {
'C01': 'bin_array on binary64; invariant of the bisection of searchsorted', 'C02': 'same model; filtered index list compared with the sorted set of populated bins',
'C03': 'np.linspace bit by bit with Flocq; relative-error lemmas give order, end points and spacing', 'C04': 'rounding of min - 1e-14 analysed by exponent ranges; the two regimes are separate theorems',
'C05': 'exact-real quantile interpolation (order statistics); a second theorem in binary64 with np.quantile as a parameter', 'C06': 'induction over the loop on columns', 'C07': 'the Python local xbins is an explicit optional state',
'C08': 'groupby/count/unstack as sorted distinct keys and counts; characterised by is_table_of', 'C09': 'cell-wise cleaning compared with counted_as', 'C10': 'is_table_of is a function of the multiset of records and determines the table',
'C11': 'frames are objects in a heap; induction over any sequence of calls', 'C12': 'same heap model: frame condition of every program', 'C13': 'case analysis on the number of columns',
'C14': 'scipy chi2_contingency in exact reals incl. Yates; algebra of finite sums', 'C15': 'permutation/transposition of sums', 'C16': 'Cauchy-Schwarz style bound on sums', 'C17': 'sum of squares is zero', 'C18': 'sums', 'C19': 'integer arithmetic on zero patterns',
'C20': 'symmetry of the rectangle probabilities of the bivariate normal (contract of mvnun)', 'C21': 'branch analysis with the root-finder contract (proved for a model of brentq in BrentProofs.v)', 'C22': 'bracket argument on the monotone chi2(rho)', 'C23': 'bracket argument', 'C24': 'explicit evaluation', 'C25': 'algebra of the grid',
'C26': 'composition of C14-C22', 'C27': 'permutation invariance of each step', 'C28': 'closed form of chi2 for perfect association', 'C29': 'C17 composed with the clipping', 'C30': 'homogeneity of chi2 and of the scale',
'C31': 'pivot/reindex assembly of the pair results', 'C32': 'sorting of keys makes assembly permutation invariant', 'C33': 'sums over lists', 'C34': 'commutation of every step with record permutations and renamings', 'C35': 'array cleaning vs frame cleaning, cell by cell', 'C36': 'string splitting by induction', 'C37': 'positive definite matrices: inverse diagonal at least 1 (quadratic forms)',
'C38': 'list filtering', 'C39': 'case analysis', 'C40': 'contracts of the scipy tails; percentile rank in [0,1]', 'C41': 'counting', 'C42': 'integer inequality', 'C43': "convexity of u - ln u; Chernoff's bound for the true chi2 law and Mills' bounds for the normal law (Coquelicot integrals)", 'C44': 'all strings by string equality', 'C45': 'assembly as in C31, random state threaded',
'C46': "Schrage's decomposition in 32-bit arithmetic; order of 16807 modulo the Mersenne prime (trial division and modular powers evaluated by the kernel, order argument by Bezout)", 'C47': 'weakest preconditions for every loop of asa159.cpp, for all floating-point comparisons', 'C48': 'same, plus a variant for the search loop; explicit fuel', 'C49': 'int32 range checks are part of the semantics', 'C50': 'index arithmetic', 'C51': 'dispatch on the seed', 'C52': 'contract of numpy multinomial', 'C53': 'sums over rows and columns; witnesses', 'C54': 'sequential and parallel maps over an abstract random state',
'C55': 'finite sums; derivatives with Coq Reals', 'C56': 'algebra', 'C57': 'contracts of the tails; with the true laws the tails are identified (series of the negative binomial, incomplete gamma/beta integrals)', 'C58': 'algebra of logarithms over R extended by NaN/inf', 'C59': 'monotone inverse', 'C60': 'sorted labels vs positions', 'C61': 'fold of dict updates', 'C62': 'case analysis', 'C63': 'loop invariant: the numerators and denominators are those of the convergents; positivity of tails', 'C64': 'algebra', 'C65': 'branches; Garwood interval through the chi2/Poisson identity',
'C66': 'fold over pairs', 'C67': 'positions and flips of lists', 'C68': 'string lengths', 'C69': 'integer arithmetic', 'C70': 'case analysis', 'C71': 'histogram counting, exact reals', 'C72': 'permutation of sums', 'C73': 'table characterisation as in C08', 'C74': "monotone function u - ln u; Mills' bounds", 'C75': 'length of linspace', 'C76': 'two equal rows are singular', 'C77': 'C28 lifted to frames', 'C78': 'the same program run on reals: the set of variates leading to a table is a box whose volume is computed by induction over cells and rows', 'C79': 'uniqueness of functions with given derivative and limits (mean value theorem); Gaussian integral', 'C80': 'frame of two arrays; bin numbers bounded by the number of edges', 'C81': 'iterated Riemann integral of the density (Coquelicot); derivative in rho is the mixed difference of the density (Plackett), which is a positive semidefinite kernel (power series of exp), so the slope of chi2 is a sum of squares; for 2 x c bins the slope is summed by parts over the bins, conditional probabilities being unimodal (BvnProofs4, BvnProofs5); explicit bounds for rho -> 1', 'C83': 'counting ranks', 'C84': 'every step commutes with permutations of the records; induction over programs', 'C85': 'uniqueness of inverses and of reassembled tables', 'C86': 'sign algebra of binary64 operations; bracket invariant; relative rounding errors', 'C87': 'state machine over histories; invariant: an entry is in the file system iff its last touching event created it; injectivity of path joining for slash-free names', 'C88': 'Chi2FModel (binary64 model, summation order a parameter); standard error analysis with Flocq: sums in any order, quotient and square errors per cell, Cauchy-style summation of the cell errors; comparison with the exact model StatsModel', 'C89': 'Chi2FModel on top of C88, C86 and exactness of the pedestal and of the maximum', 'C90': 'np.quantile (linear) on IEEE binary64 (Flocq): linspace points are within 2^-50 of k/n, hence the virtual indices are at least 2^-41 apart; the two-sided interpolation lies between its end points and is monotone across such gaps (case split on t < 1/2, Sterbenz, monotone rounding); accuracy by a Lipschitz argument on the exact quantile.', 'C91': 'Binary64 (Flocq) evaluation of rank*50/n resp. rank*(50/n), /100, 1-: relative error of each rounding, monotonicity of rounding, exact counts; the counts are those of the real-valued model (C41).', 'C92': "Model phik.py:249 with Flocq's correctly rounded operations; bound each rounding (1/w, 1-z, sqrt) and use monotonicity of rounding for the range; the neighbours of 1 give the jump 2^-27 and the NaN case.", 'C93': 'A calculus of relative errors (value, exponent range, k units of 2^-52) closed under *, /, +, sqrt, pow; instantiate with the integers B, C, D. The mid-p-value uses monotone rounding, exactness of small subtractions (Flocq FLT_format_plus_small) and the case of the smallest subnormal.', 'C94': "a model of groupby/unstack on columns with declared categories; the padded table is a rearrangement of the plain one (C15), the pedestal is C19, the strict bound is the chi2 maximum over the used part (C16), the refutation bounds the exact 3x3 grid chi2 by 26244 rho^2 through Plackett's derivative", 'C95': 'Log-sum inequality / Cauchy-Schwarz for one cell, summed over the cells of the merged table; 2 x 2 tables via |expected - observed| equal in all four cells and convexity; a recoded table is shown to be the merged table; rows via induction-free sum exchange, columns via transposition. The two limits are concrete tables.', 'C96': 'Sorting commutes with increasing maps, an interpolated quantile separates the same neighbours; the binary64 edges are within edge_err of the ideal ones (C03), so a record farther away is on the same side of the edge in both units; the collapse from the same bound on edge n-1; concrete cases by computation in the binary64 model.', 'C97': 'int64 wrap-around model of the ABCD estimate compared with the unbounded one; AM-GM bound on the product; the wrapped product bounded away from 0 for the sign', 'C98': "LabelModel.v models the column check, binning and matrix with labels in {integers, strings}, including sorted() on labels, df[col] on a repeated label and the ':s' format; C98_check by analysis of the three loops; C98_rename by commuting every function with an injective renaming", 'C99': 'compose the binary64 model of phik_from_hist2d (C89) with the model of the matrix assembly; the group mean of one value in [0,1] (or of two ones) is shown exact with and without Kahan compensation; the refutation of column-order independence is computed in the kernel', 'C100': 'an invariant of the search over all keys (the found place fits the last key) proved by induction; for ascending edges the fitting place is unique, which gives equality with the per-value search; order dependence computed in the kernel', 'C101': 'the index found by bisection is at most the number of edges, whatever their order; a duplicate-free list of row labels inside 1..k-1 has at most k-1 elements; phik_matrix via C31', 'C102': 'forward error analysis of every operation of expected_freq, the continuity correction, xlogy and the signed sum in any order, using o*|ln(o/e)| <= o*ln(o/e) + 2e to bound the absolute sum by G + 4 records', 'C103': "binary64 model operation by operation; error analysis with PI bounded to 1e-17 by the standard library's arctan series; monotonicity from the gap between neighbouring floats", 'C104': 'binary64 model operation by operation; linear error propagation with an abstract unit roundoff', 'C105': "the equation solved is G(rho)/G(1) = (chi2-pedestal)/(max-pedestal); the right side grows with k (Yates' correction takes a smaller share) and falls with the pedestal; G strictly increasing (C81)", 'C106': "error analysis of rounded sums in any order and of Kahan's summation (loop invariant); the counterexamples are computed in binary64 by the kernel", 'C107': 'the error bounds of C88/C102 for each statistic, the count of comparisons bracketed term by term, C91 for the percentile; the refutation computes the two statistics and uses invariance of the exact statistic under row swaps', 'C108': 'the labels are the dictionary entries less the positions of missing bins; counting distinct bins of the frame, the selection and the axis', 'C109': 'renaming lemma for the monadic map over pairs; the column check from C98', 'C110': 'renaming lemmas, as for C98 and C109', 'C111': 'HybFModel.v over F64 (Flocq binary64); composition of C88/C102 (statistics), added_signed (mean), C91_mixture; the switch by exact rounding analysis around 4', 'C112': 'The grid of pandas means is reduced to the one or two values of each group (mean of one value exact for every float, of two equal values exact up to 2^1022); statistic by C88/C102, errors by C104/C111; record order by invariance of the contingency table; refutations by evaluation.', 'C113': 'Operation-by-operation model in binary64 (Flocq). The stopping test is shown equivalent to a real inequality between rounded values (no overflow for EPS <= 1); the loop by induction on the remaining iterations against the sequence of convergents. Cells through the estimates of C93; transposition by commutativity of float addition (proved) and exact integer sums.', 'C114': 'the width stop - start is NaN or +infinity (case analysis on the floats, monotonicity of rounding for the overflow), hence all edges but the last are; none is below any value, so the bisection ends at 0 for every key; counted_as then drops the record and the table is empty (C31 for the matrix).', 'C115': 'replacing +infinity by 2^1022 commutes with the sort (order isomorphism), the two neighbours of a quantile depend on the number of values only and their positions ascend with the quantile, so there is a threshold p: before it both neighbours are finite and the edges agree, from it on the interpolation is NaN or +infinity; NaN and +infinity are below no value, so the index found is min(index, p). For -infinity the first position is 0 and -inf + inf*0 is NaN.', 'C116': 'OutMatsFModel on top of OutMatFModel; the data-quality check and the binning are shown to act column by column, so a frame reduced to two columns is cleaned and binned as before (asks_for is functional); exchange from C113_column_order', 'C117': "Both functions are an instance of one scheme (clean, bin, table over pairs); the two-column run of the cleaning and binning is related to the full run through C116's lemmas, and the grouped mean of an entry only sees the rows of its pair.", 'C118': "The data-quality check is characterised by membership in the list, a frame with distinct names is determined by its keys and its columns, and bin_data's result is characterised per column (BinDataProofs).", 'C119': "bin_data's result is characterised per column (BinDataProofs); the data-quality check by membership and number of distinct values (C116's dq_form).", 'C82': 'contiguous relations of the hypergeometric series give the exact tails of the fraction; truncated tails contract geometrically; the error of a convergent is expressed by its last step and the tail (chain sequences bound the denominators); the series solves the differential equation of the incomplete beta integral',
}

HEAD = open(f'{HERE}/design_head.md').read()
out = HEAD + '\n## Per property\n\n| id | property | how it is proved | status | theorem files |\n|---|---|---|---|---|\n'
for p in props:
    c = man[p['id']]
    fs = sorted({where[t] for t in c['theorems']})
    out += f"| {p['id']} | {p['title']} | {METHOD[p['id']]} | {c['status']} | {', '.join(fs)} |\n"
open(f'{V}/DESIGN.md', 'w').write(out)
if os.path.exists('/tmp/pa/pa.json'):
    pa = json.load(open('/tmp/pa/pa.json'))['res']
    short = lambda a: a.split('.')[-1]
    t = '# Print Assumptions of every claimed theorem\n\nGenerated by tools/assumptions.py and tools/gen_design.py. Axioms: F = FunctionalExtensionality.functional_extensionality_dep, D = ClassicalDedekindReals.sig_forall_dec, N = ClassicalDedekindReals.sig_not_dec, C = Classical_Prop.classic; "-" = closed under the global context.\n\n| theorem | axioms |\n|---|---|\n'
    code = {'functional_extensionality_dep': 'F', 'sig_forall_dec': 'D', 'sig_not_dec': 'N', 'classic': 'C'}
    for n in sorted(pa): t += f"| {n} | {' '.join(sorted(code.get(short(a), a) for a in pa[n])) or '-'} |\n"
    open(f'{V}/ASSUMPTIONS.md', 'w').write(t)
