"""Seeded bugs: realistic edits of the model and the claim each one breaks."""
MUTANTS = []
def m(file, defn, old, new, edit, claim, theorem, nth=None):
    n = sum(1 for x in MUTANTS if x['file'] == file + '.v') + 1
    MUTANTS.append(dict(id=f'{file}-{n:02d}', file=file + '.v', defn=defn, old=old, new=new, edit=edit, claim=claim, theorem=theorem, nth=nth))

# ---- BinModel
m('BinModel','bin_array','if ceqb c (CInt 0) then CStr UFs','if ceqb c (CInt 1) then CStr UFs','first bin labelled UF instead of bin 0','C01','C01_bin_array')
m('BinModel','bin_array','(CInt (Z.of_nat (length edges))) then CStr OFs','(CInt (Z.of_nat (length edges - 1))) then CStr OFs','last bin labelled OF (len(bin_edges)-1)','C01','C01_bin_array')
m('BinModel','bin_array','if fisnan (fst p) then CNaN else snd p','snd p','NaN values are not reset to NaN','C01','C01_bin_array')
m('BinModel','bin_array','(seq 1 (length edges - 1))','(seq 1 (length edges))','label list also loops over index len(edges)','C02','C02_labels')
m('BinModel','bin_array','(seq 1 (length edges - 1))','(seq 0 (length edges - 1))','label loop starts at 0','C02','C02_labels')
m('BinModel','bin_array','(nth (i - 1) edges fnan, nth i edges fnan)','(nth i edges fnan, nth (i + 1) edges fnan)','labels shifted by one bin','C02','C02_labels')
m('BinModel','bin_array','filter (fun i => existsb (Nat.eqb i) idx) (seq','filter (fun i => true) (seq','labels for unpopulated bins too','C02','C02_labels')
m('BinModel','npless','flt a b ||','fle a b ||',"searchsorted side='right'",'C01','C01_bin_array')
m('BinModel','bin_edges','fminus (fminl vals) tiny','fminl vals','1e-14 offset dropped','C03','C03_uniform_edges')
m('BinModel','bin_edges','fminus (fminl vals) tiny','fplus (fminl vals) tiny','offset added instead of subtracted','C03','C03_uniform_edges')
m('BinModel','bin_edges','(fmaxl vals) (nbins + 1)','(fmaxl vals) nbins','nbins edges instead of nbins+1','C03','C03_uniform_edges')
m('BinModel','bin_edges','(fmaxl vals) (nbins + 1)','(fminus (fmaxl vals) tiny) (nbins + 1)','largest value falls out of the last bin','C03','C03_uniform_edges')
m('BinModel','bin_edges','filter (fun v => negb (fisnan v)) arr','arr','NaN not removed before min/max','C04','C04_uniform_binning')
m('BinModel','fmin2','if flt b a then b else a','if flt a b then b else a','min computes max','C03','C03_uniform_edges')
m('BinModel','tiny','6338253001141147 (-99)','6338253001141147 (-96)','offset 8e-14','C04','C03_offset')
m('BinModel','bin_edges','Ok (fminus x0 tiny :: xs)','Ok (x0 :: xs)','quantile edges without offset','C05','C05_bin_edges_quantile')
m('BinModel','linspace','if 1 <? num then set_last y stop else y','y','last edge not reset to stop','C03','C03_uniform_edges')
m('BinModel','linspace','else fmult (ofZ i) step','else fmult (ofZ i) (fmult step step)','edges not equally spaced','C03','C03_equal_width')
m('BinModel','bin_cols','(set_assoc c (mkCol false b) acc)','acc','binned column not written back','C06','C06_bin_data')
m('BinModel','bin_cols','(dict_set c labels dict)','dict','bin edges of the column not returned','C06','C06_bin_data')
m('BinModel','bin_cols','| BOne (BNum n) => rmap Some (bin_edges arr n quantile)','| BOne (BNum n) => rmap Some (bin_edges arr n false)','quantile ignored for a common number of bins','C06','C06_bin_data')
m('BinModel','bin_cols','| Some BOther => Ok xbins','| Some BOther => Raise ValueError','unsupported entry rejected (repaired program)','C07','C07_unsupported_reuses_previous_edges')
m('BinModel','bin_data','if forallb (fun c => mem c (keys d)) cols','if existsb (fun c => mem c (keys d)) cols','missing key check uses any instead of all','C07','C07_missing_key')
m('BinModel','bin_cols','| None => Raise KeyError\n                end','| None => Ok xbins\n                end','missing key falls through','C06','(equivalent: the check before the loop already rejects)')
# ---- HistModel
m('HistModel','clean1','if dropna then c else repl CNaN','if dropna then repl CNaN (CStr NaNs) c else repl CNaN','NaN always becomes a category','C09','C08_hist2d_from_rebinned_df')
m('HistModel','clean1','if uf then repl (CStr UFs) CNaN c else c','if of then repl (CStr UFs) CNaN c else c','drop_overflow drops underflow','C09','C08_hist2d_from_rebinned_df')
m('HistModel','clean1','if of then repl (CStr OFs) CNaN c else c','c','drop_overflow ignored','C09','C08_hist2d_from_rebinned_df')
m('HistModel','crosstab','map (fun a => map (fun b => length (filter (paireqb a b) ok)) cols) rows','map (fun a => map (fun b => length (filter (paireqb b a) ok)) cols) rows','row and column key swapped','C08','C08_hist2d_from_rebinned_df')
m('HistModel','crosstab','let ok := filter complete recs in','let ok := recs in','records with a missing key counted','C08','C08_hist2d_from_rebinned_df')
m('HistModel','complete','negb (isna (fst r)) && negb (isna (snd r))','negb (isna (fst r)) || negb (isna (snd r))','record dropped only if both are missing','C08','C08_hist2d_from_rebinned_df')
m('HistModel','hist2d','if negb (Nat.eqb (length df) 2) then Raise ValueError','if Nat.ltb (length df) 2 then Raise ValueError','only fewer than two columns rejected','C13','C13_hist2d_two_columns')
m('HistModel','dq_check_nunique_values','filter (fun c => Nat.ltb (nu c) 2) ic','filter (fun c => Nat.ltb (nu c) 1) ic','constant interval column kept','C38','C38_surviving_columns')
m('HistModel','dq_check_nunique_values','Nat.eqb (nu c) 1 && dropna','Nat.eqb (nu c) 1 && negb dropna','dropna condition inverted','C38','C38_surviving_columns')
m('HistModel','dq_check_nunique_values','filter (fun c => negb (mem c drop)) ic)','ic)','dropped columns stay in interval_cols','C38','C38_surviving_columns')
m('HistModel','nunique','filter (fun x => negb (isna x)) (c_cells c)','c_cells c','nunique counts missing values','C38','C38_nunique_counts_distinct_values')
m('HistModel','dq_check_hist2d','(Nat.eqb nr 1 || Nat.eqb nc 1)','(Nat.eqb nr 1 && Nat.eqb nc 1)','single row accepted','C39','C39_accepts')
m('HistModel','dq_check_hist2d','if Nat.ltb 1000 nc then [WLargeY nr]','if Nat.ltb 1000 nc then [WLargeY nc]','warning repaired','C39','C39_y_warning_reports_x')
m('HistModel','dq_check_hist2d','if Nat.ltb 1000 nr then [WLargeX nr]','if Nat.ltb 100 nr then [WLargeX nr]','x warning threshold','C39','C39_x_warning')
m('HistModel','guess_interval_cols','filter (fun p => c_num (snd p)) f','filter (fun p => negb (c_num (snd p))) f','guesses the non-numeric columns','C31','C31_guessed_columns')
m('HistModel','hist2d','bin_data npq df ic bins quantile','bin_data npq df ic bins false','quantile not passed on','C08','C08_hist2d')
# ---- QuantileModel
m('QuantileModel','quantile_edges','(x0 - off) :: xs','x0 :: xs','offset dropped','C05','C05_quantile_edges')
m('QuantileModel','np_quantile1','let n1 := (length vals - 1)%nat in','let n1 := length vals in','virtual index uses n','C05','C05_quantile_edges')
m('QuantileModel','quantile_points','(seq 0 (nbins + 1))','(seq 0 nbins)','nbins edges','C05','C05_quantile_edges')
m('QuantileModel','np_quantile1','lo + g * (hi - lo)','hi + g * (hi - lo)','interpolates from the upper neighbour','C05','C05_quantile_edges')
# ---- StatsModel
m('StatsModel','expected','rowsum m i * colsum m j / matsum m','rowsum m i * colsum m j','not divided by the total','C18','C18_expected_product')
m('StatsModel','expected','rowsum m i * colsum m j / matsum m','rowsum m j * colsum m i / matsum m','margins swapped','C18','C18_expected_product')
m('StatsModel','pd_term','(o - e) * (o - e) / e','(o - e) * (o - e) / o','Neyman instead of Pearson','C14','C14_chi2_value')
m('StatsModel','pd_term','2 * xlogy o (o / e)','xlogy o (o / e)','factor 2 missing in the G-test','C14','C14_chi2_value')
m('StatsModel','yates','Rmin (1/2) (Rabs (e - o))','(1/2)','correction overshoots (new scipy)','C16','C16_chi2_max')
m('StatsModel','yates','rsign (e - o)','rsign (o - e)','correction moves away from the expectation','C16','C16_chi2_max')
m('StatsModel','yates','if clamp then Rmin (1/2)','if clamp then Rmin (1/4)','correction 1/4','C14','C14_chi2_value_2x2')
m('StatsModel','chi2_contingency','if Z.eqb dof 1 then yates','if Z.leb dof 2 then yates','correction also for 2x3','C14','C14_chi2_value')
m('StatsModel','chi2_contingency','if Z.eqb dof 0 then Ok 0','if Z.leb dof 1 then Ok 0','2x2 gives 0','C14','C14_chi2_value_2x2')
m('StatsModel','get_chi2','let m1 := submat m (nz_rows m) (idx (nc m)) in','let m1 := m in','empty rows not removed','C14','C14_chi2_defined_nonneg')
m('StatsModel','nz_cols','negb (forallb (fun i','(forallb (fun i','keeps the empty columns','C14','C14_chi2_defined_nonneg')
m('StatsModel','theoretical_ndof','(Z.of_nat (nr m * nc m) - Z.of_nat (nr m + nc m) + 2 - 1)%Z.\n\n(** statistics.py:74','(Z.of_nat (nr m * nc m) - Z.of_nat (nr m + nc m) + 2)%Z.\n\n(** statistics.py:74','ndof one too large','C19','C19_theoretical')
m('StatsModel','estimate_simple_ndof','if (endof <? 0)%Z then 0%Z else endof','endof','negative ndof not clipped','C19','C19_simple')
m('StatsModel','estimate_simple_ndof','- Z.of_nat (zero_expected m))%Z in','+ Z.of_nat (zero_expected m))%Z in','zero cells added','C19','C19_simple')
m('StatsModel','chi2_contingency','if existsb (fun c => rltb (el m (fst c) (snd c)) 0) cells then Raise ValueError\n  else','','negative entries accepted','C14','C14_chi2_raises_iff')
# ---- BivModel
m('BivModel','half_ranges','list_prod (zrange (n1 / 2)) (zrange n2)','list_prod (zrange (n1 / 2)) (zrange (n2 / 2))','only a quarter of the cells','C20','C20_half_table')
m('BivModel','half_ranges','++ [(n1 / 2, n2 / 2)%Z], true)','++ [(n1 / 2, n2 / 2)%Z], false)','centre cell counted twice','C20','C20_half_table')
m('BivModel','half_ranges','(n1 mod 2 =? 1)%Z','(n1 mod 2 =? 0)%Z','odd/even inverted','C20','C20_half_table')
m('BivModel','cell_prob','py_get sy (j + 1)','py_get sy j','zero-height cells','C20','C20_half_table')
m('BivModel','cell_prob','Ok (mvn rho a b a\' b\')','Ok (mvn rho b a b\' a\')','x and y edges swapped','C20','C20_half_table')
m('BivModel','linspace5','10 / IZR n','10 / IZR (n + 1)','edges do not reach 5','C20','C20_default_edges')
m('BivModel','ratio_sum','(x - x0) ^ 2 / x0','(x - x0) ^ 2 / x','wrong denominator','C22','C22_value')
m('BivModel','chi2_from_phik','- subtract)','+ subtract)','sign of subtract_from_chi2','C22','C22_value')
m('BivModel','chi2_from_phik','Ok ((chi2_max - pedestal) / chi2_one)','Ok (chi2_max / chi2_one)','scale ignores the pedestal','C22','C22_endpoints')
m('BivModel','chi2_from_phik','IZR (Z.min (nx - 1) (ny - 1))','IZR (Z.max (nx - 1) (ny - 1))','max instead of min',"C22",'C22_endpoints',0)
m('BivModel','phik_from_chi2','let chi2_max := n * IZR (Z.min (nx - 1) (ny - 1)) in\n    let scale','let chi2_max := n * IZR (Z.min nx ny) in\n    let scale','maximum without the -1','C21','C21_cases')
m('BivModel','phik_from_chi2','if rleb chi2 pedestal then Ok 0','if rltb chi2 0 then Ok 0','no zero below the pedestal','C21','C21_cases')
m('BivModel','phik_from_chi2','else if rleb chi2_max chi2 then Ok 1','else if rltb chi2_max chi2 then Ok 1','boundary at the maximum','C21','C21_cases')
m('BivModel','phik_from_chi2','if rltb pedestal 0 then Raise ValueError','if rltb pedestal (-1) then Raise ValueError','negative pedestal accepted','C21','C21_errors')
m('BivModel','phik_from_chi2','bq (solver_fun mvn n chi2 corr0 scale sx sy pedestal) 0 1 phik_xtol','bq (solver_fun mvn n chi2 corr0 scale sx sy 0) 0 1 phik_xtol','pedestal not passed to the solver','C22','C22_roundtrip')
m('BivModel','phik_xtol','1 / 10 ^ 5.','1 / 10 ^ 2.','coarse tolerance','C22','C22_roundtrip')
m('BivModel','edges_checked','if (n <=? 1)%Z','if (n <? 1)%Z','one bin accepted with explicit edges','C21','C21_errors')
m('BivModel','isclose','1 / 10 ^ 14 + 1 / 10 ^ 5 * Rabs b','1 / 10 ^ 14 + 1 / 10 * Rabs b','isclose tolerance 10%','C21','(equivalent: both branches return 1 above the maximum)')
m('BivModel','phik_from_chi2','let chi2 := if andb (rltb chi2_max chi2) (isclose chi2 chi2_max) then chi2_max else chi2 in','let chi2 := if isclose chi2 chi2_max then chi2_max else chi2 in','values just below the maximum are rounded up to it','C21','C21_cases')
m('BivModel','bivariate_normal_theory','* n else 0','else 0','not multiplied by n','C25','C25_table')
m('BivModel','bivariate_normal_theory','if rltb v eps64 then eps64 else v','v','no floor at eps','C25','C25_table')
m('BivModel','bivariate_normal_theory','if rltb n 1 then Raise ValueError','if rltb n 0 then Raise ValueError','n between 0 and 1 accepted','C25','C25_rejects')
m('BivModel','bivariate_normal_theory','mkMat (Z.to_nat ny) (Z.to_nat nx)','mkMat (Z.to_nat nx) (Z.to_nat ny)','shape transposed','C25','C25_table')
# ---- BrentModel
m('BrentModel','b_loop','rltb (Rabs (b_sbis s)) (b_delta xtol rtol s)','rltb (Rabs (b_sbis s)) (xtol * 100)','stops too early','C21','scipy_brentq_is_root_finder')
m('BrentModel','b_move','else if rltb 0 sbis then xcur s + delta else xcur s - delta','else if rltb 0 sbis then xcur s - delta else xcur s + delta','minimal step away from the bracket','C21','scipy_brentq_is_root_finder')
m('BrentModel','b_swap','rltb (Rabs (fblk s)) (Rabs (fcur s))','rltb (Rabs (fcur s)) (Rabs (fblk s))','keeps the worse point','C21','(efficiency only: any choice of the current end keeps the bracket)')
m('BrentModel','brent_iter','if reqb (f a) 0 then Ok a else if reqb (f b) 0 then Ok b','if reqb (f a) 0 then Ok b else if reqb (f b) 0 then Ok a','ends interchanged','C21','scipy_brentq_is_root_finder')
m('BrentModel','b_steps','rltb (2 * Rabs (b_stry s))','rltb (Rabs (b_stry s) / 4)','interpolation step accepted outside the bracket','C21','scipy_brentq_is_root_finder')
# ---- PhikModel
m('PhikModel','phik_from_hist2d','if noise_correction then estimate_simple_ndof m else 0%Z','if noise_correction then 0%Z else estimate_simple_ndof m','noise flag inverted','C30','C30_sample_size')
m('PhikModel','phik_from_hist2d','if noise_correction then estimate_simple_ndof m else 0%Z','if noise_correction then theoretical_ndof m else 0%Z','pedestal ignores structural zeros','C26','C26_value')
m('PhikModel','phik_from_hist2d','(Z.of_nat (nr m)) (Z.of_nat (nc m)) None None pedestal','(Z.of_nat (nr m)) (Z.of_nat (nr m)) None None pedestal','nx used for ny','C27','C27_transpose')
m('PhikModel','phik_from_hist2d','get_chi2 (l_clamp L) m Pearson','get_chi2 (l_clamp L) m LogLikelihood','G-test instead of Pearson','C26','C26_value')
m('PhikModel','calc_phik','then Ok (c0, c1, Fin 1)','then Ok (c0, c1, NaN)','diagonal NaN','C31','C31_phik_from_rebinned_df')
m('PhikModel','calc_phik','if is01 (length (h_rows h)) || is01 (length (h_cols h))','if is01 (length (h_rows h)) && is01 (length (h_cols h))','single-row table not NaN','C31','C31_phik_from_rebinned_df')
m('PhikModel','calc_phik','phik_from_hist2d L (hmat h) noise','phik_from_hist2d L (hmat h) true','noise_correction not passed on','C31','C31_phik_from_rebinned_df')
m('PhikModel','combos','map (fun b => (a, b)) (a :: l\')','map (fun b => (a, b)) l\'','combinations without replacement','C31','C31_phik_from_rebinned_df')
m('PhikModel','long_rows','[(a, b, x); (b, a, x)]','[(a, b, x)]','mirror entry missing','C33','C33_overview')
m('PhikModel','nmean','ndivp (fold_left nadd l\' x) (INR (length l))','fold_left nadd l\' x','sum instead of mean (diagonal doubled)','C33','C33_overview')
m('PhikModel','overview','map (fun b => nmean (group rows a b)) lc','map (fun b => nmean (group rows b b)) lc','wrong group','C33','C33_overview')
m('PhikModel','reindex','mkT order order (map (fun a => map (fun b => tval t a b) order) order)','mkT order order (t_cells t)','labels set without reordering','C31','C31_phik_from_rebinned_df')
m('PhikModel','phik_from_rebinned_df','| [] => mkT order order (map (fun _ => map (fun _ => NaN) order) order)','| [] => mkT [] [] []','(equivalent: no pairs only for an empty frame)','C31','(equivalent)')
m('PhikModel','phik_matrix','dq_check_nunique_values df ic dropna','(df, ic)','data quality check skipped','C31','C31_phik_matrix')
m('PhikModel','phik_matrix','bin_data npq clean_df ic\' bins quantile','bin_data npq clean_df ic bins quantile','dropped interval column still binned','C31','C31_phik_matrix')
# ---- ArrayModel
m('ArrayModel','clean_array','let x := if uf then map (repl (CStr UFs) CNaN) x else x in','','underflow kept','C35','C35_arrays_agree_with_matrix')
m('ArrayModel','clean_array','if dropna then x else map tostr (map (repl CNaN (CStr NaNs)) x)','if dropna then x else map tostr x','missing becomes nan instead of NaN','C35','C35_counted_records')
m('ArrayModel','clean_array','if uf || of then','if uf && of then','flags handled only together','C35','C35_arrays_agree_with_matrix')
m('ArrayModel','phik_from_binned_array','then Ok NaN','then Ok (Fin 0)','degenerate table gives 0','C35','C35_arrays_agree_with_matrix')
m('ArrayModel','phik_from_array','phik_from_binned_array L (c_cells bx) (c_cells by\') noise','phik_from_binned_array L (c_cells bx) (c_cells bx) noise','x used twice','C35','C35_phik_from_array')
m('ArrayModel','array_like_to_dataframe','(yn, mkCol false (map tostr (a_cells y)))','(yn, mkCol false (map tostr (a_cells x)))','y column filled with x','C35','C35_array_frame')
m('ArrayModel','array_like_to_dataframe','| None => "y"%string','| None => "x"%string','both columns named x','C35','C35_array_frame')
# ---- SparkModel
m('SparkModel','split_colon','then EmptyString :: split_colon s\'','then EmptyString :: [s\']','splits only once','C36','C36_misattributed')
m('SparkModel','phik_from_row','phik_from_hist2d L grid true','phik_from_hist2d L grid false','no noise correction','C36','C36_named_histograms')
m('SparkModel','phik_from_row','if String.eqb c0 c1 then Ok (c0, c1, Fin 1) else rest','rest','diagonal computed from the table','C36','C36_named_histograms')
m('SparkModel','phik_from_row','| c0 :: c1 :: _ => Ok (c0, c1, v)','| c0 :: c1 :: _ => Ok (c1, c0, v)','(equivalent: the overview is symmetric)','C36','(equivalent)') if False else None
m('SparkModel','spark_phik_matrix','HOther => true','HOther => false','non-arrays accepted','C36','C36_other_values_rejected')
m('SparkModel','global_value','1 - 1 / (a * b)','1 - 1 / b','diagonal of V ignored','C37','C37_value')
m('SparkModel','global_value','1 - 1 / (a * b)','1 / (a * b)','1 minus missing','C37','C37_positive_definite')
m('SparkModel','global_phik_from_rebinned_df','(nth i (nth i W []) NaN)','(nth i (nth 0 W []) NaN)','first row of the inverse instead of the diagonal','C37','C37_positive_definite')
# ---- RcontModel
m('RcontModel','r8_uniform_01','16807 * d','16806 * d','multiplier','C46','C46_generator')
m('RcontModel','r8_uniform_01','k * 2836','k * 2835','remainder constant','C46','C46_generator')
m('RcontModel','r8_uniform_01','if s <? 0 then ck (s + 2147483647) else COk s','COk s','negative state not wrapped','C46','C46_generator')
m('RcontModel','unif_const','4503599629229928 (-83)','4503599629229928 (-84)','variate in (0,1/2)','C46','C46_variate')
m('RcontModel','dec_loop','ck (nll - 1)','ck nll','no decrement','C48','C48_patefield_terminates')
m('RcontModel','dec_loop','if j =? 0 then COk (DEnd nll y sumprb true)','if j =? -1 then COk (DEnd nll y sumprb true)','lower end not detected','C47','C47_patefield_totals')
m('RcontModel','inc_loop','if j =? 0 then\n        if lsm','if j =? -1 then\n        if lsm','upper end not detected','C47','C47_patefield_totals')
m('RcontModel','inc_loop','do d <- dec_loop dfuel ia id ii r true nll y sumprb;','do d <- dec_loop dfuel ia id ii r false nll y sumprb;','lower part not exhausted after the upper end','C48','C48_patefield_terminates')
m('RcontModel','nlm_start','fplus (fdiv (ofZ p) (ofZ ie)) fhalf','fdiv (ofZ p) (ofZ ie)','start value truncated instead of rounded','C47','(not observable in the totals; see C78)')
m('RcontModel','attempts','f5) f6) f7) f8) f9)','f5) f6) f7) f8) f8)','wrong factorial in the probability','C78','C78_cell_probability')
m('RcontModel','attempts','do f2 <- rd fact ib;','do f2 <- rd fact ia;','wrong factorial in the probability','C78','C78_cell_probability')
m('RcontModel','dec_loop','do a <- ck (id - nll\');','do a <- ck (id - nll);','recurrence of the probabilities off by one','C78','C78_cell_probability')
m('RcontModel','fact_from','fplus x (libm_log (ofZ i))','fplus x (libm_log (ofZ (i + 1)))','log-factorials shifted','C78','C78_cell_probability')
m('RcontModel','col_loop','do ia\' <- ck (ia - fst a);','do ia\' <- ck ia;','row remainder not updated','C47','C47_patefield_totals')
m('RcontModel','col_loop','do jm <- ck (id - fst a);','do jm <- ck id;','column remainder not updated','C47','C47_patefield_totals')
m('RcontModel','col_loop','COk (mkC 0 ic ib (c_jwork st)','COk (mkC ia ic ib (c_jwork st)','row remainder not zeroed when nothing is left','C47','(equivalent: the remainder is already 0 there)')
m('RcontModel','zero_rest','do mt <- wr matrix i 0;','do mt <- wr matrix i 1;','rest of the row set to 1','C47','C47_patefield_totals')
m('RcontModel','row_loop','do mt <- wr (c_mat c) i (c_ia c);','do mt <- wr (c_mat c) i (c_ic c);','last entry of the row','C47','C47_patefield_totals')
m('RcontModel','rcont2','do mt <- last_row (ncol - 1) nrow 0','do mt <- last_row (ncol - 2) nrow 0','last row one entry short','C47','C47_patefield_totals')
m('RcontModel','rcont2','do w <- ck (r_ib st - v);','do w <- ck (r_ib st);','last entry not reduced','C47','C47_patefield_totals')
m('RcontModel','rcont2','if existsb (fun t => t <=? 0) nrowt','if existsb (fun t => t <? 0) nrowt','zero row totals accepted','C48','C48_which_code')
m('RcontModel','rcont2','if negb (sc =? sr) then CErr (IErr 6)\n    else','','unequal sums accepted','C48','C48_error_codes')
m('RcontModel','rcont2','if (nrow <=? 1)%nat then CErr (IErr 1)','if (nrow <=? 1)%nat then CErr (IErr 2)','error codes mixed up','C48','C48_which_code')
m('RcontModel','midx','Z.of_nat m * Z.of_nat nrow','Z.of_nat m * Z.of_nat (nrow + 1)','wrong stride','C48','C48_patefield_memory_safe')
# ---- SimModel
m('SimModel','sim_flat','if (ndata <=? 0)%Z then total else IZR ndata','total','ndata ignored','C52','C52_total_kept')
m('SimModel','sim_flat','map (fun x => (x / total)%R) hist','map (fun x => (1 / INR (length hist))%R) hist','uniform probabilities','C52','C52_probabilities')
m('SimModel','sim_flat','if rleb n 0 then mraise ValueError\n  else','','(equivalent for tables: an empty table is rejected by the next test)','C52','(equivalent for non-negative tables)')
m('SimModel','sim_2d_data','reshape (nr hist) (nc hist) l','reshape (nc hist) (nr hist) l','reshaped transposed','C52','C52_total_kept')
m('SimModel','sim_2d_data_patefield','rmap (reshape (nc data) (nr data))','rmap (reshape (nr data) (nc data))','shape repaired','C50','C50_wrong_shape')
m('SimModel','sim_2d_data_patefield','if (z =? 0)%Z then (fun s','if (z =? 1)%Z then (fun s','seed 1 ignored instead of 0','C51','C51_seed_determines')
m('SimModel','sim_2d_data_patefield','(call_patefield (nr data) (nc data) nrowt ncolt sd)','(call_patefield (nr data) (nc data) ncolt nrowt sd)','totals swapped','C50','C50_transposed')
m('SimModel','sim_2d_data_patefield','if negb CPP_SUPPORT then mraise NotImplementedError','if CPP_SUPPORT then mraise NotImplementedError','support flag inverted','C54','C44_no_extension')
m('SimModel','sim_2d_product_multinominal','if (axis =? 1)%Z then mbind','if (axis =? 0)%Z then mbind','axis repaired','C53','C53_row_product_fixes_columns')
m('SimModel','sim_2d_product_multinominal','ret (transp (of_rows (nr data) rs))','ret (of_rows (nr data) rs)','not transposed back','C53','C53_row_product_fixes_columns')
m('SimModel','sim_data','"hypergeometric" then sim_2d_data_patefield data None','"hypergeometric" then sim_2d_data data 0','hypergeometric replaced by multinominal','C54','C54_distribution')
m('SimModel','sim_data','"multinominal" then sim_2d_data data 0','"multinominal" then sim_2d_data data 1','one record simulated','C54','C54_distribution')
m('SimModel','simulate_and_fit','lift (get_chi2 clamp t l)','lift (get_chi2 clamp t Pearson)','lambda_ ignored','C54','C54_distribution')
m('SimModel','simulate_and_fit','lift (get_chi2 clamp t l)','lift (get_chi2 clamp exp_dep l)','chi2 of the estimate instead of the simulated table','C54','C54_distribution')
m('SimModel','sim_chi2_distribution','if alt_hypothesis then values else get_dependent_frequency_estimates values','if alt_hypothesis then get_dependent_frequency_estimates values else values','hypotheses interchanged','C54','C54_distribution')
m('SimModel','sim_chi2_distribution','(w k))) tasks','(w 0%nat))) tasks','all workers share one random state','C54','C54_workers')
m('SimModel','sim_chi2_distribution','seq 0 (Z.to_nat nsim)','seq 0 (Z.to_nat nsim - 1)','one simulation missing','C54','C54_distribution')
m('SimModel','to_int32','(z + 2 ^ 31) mod 2 ^ 32 - 2 ^ 31','(z + 2 ^ 15) mod 2 ^ 16 - 2 ^ 15','int16 totals','C50','C50_transposed')
# ---- SigModel
m('SigModel','hfunc','f * chi2_pdf SL x k + (1 - f) * norm_pdf SL x k sigma','f * chi2_pdf SL x k + f * norm_pdf SL x k sigma','weights','C71','C71_objective')
m('SigModel','residual','INR y * ln f + ln (INR (fact y))','INR y * ln f','log factorial missing','C71','C71_residuals')
m('SigModel','fit_test_statistic_distribution','let lsigma := sqrt kmean in','let lsigma := kmean in','sigma','C71','C71_fit_result')
m('SigModel','fit_test_statistic_distribution','least_squares SL gtest 1','least_squares SL gtest (-1)','start outside the bounds','C71','C71_objective')
m('SigModel','fit_test_statistic_distribution','(nsim * bw) f kmean','nsim f kmean','bin width missing','C71','C71_objective')
m('SigModel','in_hbin','(Nat.eqb (S i) n && rleb x (hbound l n (S i)))','false','last bin open: the maximum is lost','C71','C71_histogram')
m('SigModel','chernoff','- ln (2 * PI) - ndof * lz','- 2 * ln (2 * PI) - ndof * lz','ln(2 pi) subtracted twice','C43','C43_fallback')
m('SigModel','chernoff','if rltb (u - lu) 0 then Raise ValueError else Ok (Fin (sqrt (u - lu)))','Ok (Fin (sqrt (u + lu)))','u + ln u','C43','C43_fallback')
m('SigModel','significance_from_chi2_ndof','Ok (p_value, nneg (norm_ppf SL p_value))','Ok (p_value, norm_ppf SL p_value)','sign of Z','C40','C40_sign')
m('SigModel','significance_from_chi2_asymptotic','theoretical_ndof values','estimate_simple_ndof values','effective instead of theoretical ndof','C72','C72_empty_row_counts')
m('SigModel','percentileofscore','filter (fun x => rleb x score) a','filter (fun x => rltb x score) a','ties ignored','C41','C41_exact')
m('SigModel','percentileofscore','if Nat.ltb left right then 1%nat else 0%nat','0%nat','rank correction for ties missing','C41','C41_exact')
m('SigModel','MC_of_chi2s','in (p, nneg (norm_ppf SL p)).','in (p, norm_ppf SL p).','sign of Z','C41','C41_extremes')
m('SigModel','avg_per_bin','matsum values / INR (nr values) * INR (nc values)','matsum values / (INR (nr values) * INR (nc values))','repaired average','C42','C42_switch')
m('SigModel','hybrid_of_chi2s','if rleb (avg_per_bin values) 4','if rltb (avg_per_bin values) 4','boundary of the switch','C42','C42_switch')
m('SigModel','hybrid_of_chi2s','nmix f (chi2_sf SL chi2 endof) (1 - f)','nmix (1 - f) (chi2_sf SL chi2 endof) f','weights swapped','C42','C42_switch')
m('SigModel','hybrid_of_chi2s','chernoff chi2 endof (- (2 * lf))','chernoff chi2 endof (2 * lf)','sign of ln f','C43','C43_hybrid_fallback')
m('SigModel','hybrid_of_chi2s','fit_test_statistic_distribution chi2s 50','fit_test_statistic_distribution chi2s 5','number of bins','C71','C71_objective')
m('SigModel','significance_from_hist2d','lift St (get_chi2 clamp values l)','lift St (get_chi2 clamp values Pearson)','lambda_ ignored','C40','C40_value')
m('SigModel','significance_from_hist2d','"MC" then significance_from_chi2_MC','"MC" then significance_from_chi2_hybrid','MC calls hybrid','C40','C40_value')
m('SigModel','get_chi2s','l method false workers','l method true workers','simulates the alternative hypothesis','C40','C40_value')
m('SigModel','calc_signif','ret St (c0, c1, snd pz)','ret St (c0, c1, fst pz)','p-value instead of Z','C45','C45_layout')
m('SigModel','significance_matrix','bin_data npq df_clean ic\' bins false','bin_data npq df_clean ic\' bins true','quantile binning','C45','C45_significance_matrix')
m('SigModel','significance_from_binned_array','then ret St (NaN, NaN)','then ret St (Fin 1, Fin 0)','degenerate table','C73','C73_binned_array')
m('SigModel','significance_from_array','num_vars bins quantile)) (fun bd','num_vars bins false)) (fun bd','quantile not passed on','C73','C73_significance_from_array')
# ---- BetaModel
m('BetaModel','cf_start','(a + b) * x','a * x','start value','C63','C63_continued_fraction')
m('BetaModel','cf_step','em * (b - em) * x','em * (b + em) * x','even coefficient','C63','C63_continued_fraction')
m('BetaModel','cf_step','- (a + em) * (a + b + em) * x','(a + em) * (a + b + em) * x','sign of the odd coefficient','C63','C63_continued_fraction')
m('BetaModel','cf_step','let app := ap + d\' * az s in','let app := ap + d\' * am s in','wrong predecessor','C63','C63_continued_fraction')
m('BetaModel','cf_loop','EPS * Rabs (az s\')','EPS','absolute tolerance','C63','C63_continued_fraction')
m('BetaModel','contfractbeta','(S ITMAX) 0 s','ITMAX 0 s','one iteration less','C63','C63_continued_fraction')
m('BetaModel','lbeta','+ a * lx + b * ly','+ a * ly + b * lx','x and 1-x swapped','C64','C64_example_b1')
m('BetaModel','incompbeta','if reqb x 0 then Ok (Fin 0)','if reqb x 0 then Ok (Fin 1)','I_0 = 1','C64','C64_logarithms',0)
m('BetaModel','incompbeta','rdiv cf b in\n      Ok (one_minus (exp_times (lbeta a b x) t))','rdiv cf b in\n      Ok (exp_times (lbeta a b x) t)','1 - missing in the second branch','C64','C64_reflection')
m('BetaModel','log_incompbeta','nsub (nadd (lbeta a b x) (nlog cf)) (nlog b)','nadd (lbeta a b x) (nlog cf)','division by b missing','C64','C64_logarithms')
m('BetaModel','cf_default','N.to_nat 5000','N.to_nat 4999','default ITMAX','C63','C63_defaults')
# ---- OutModel
m('OutModel','linnemann','nexpalt / (nexperr * nexperr)','nexpalt / nexperr','tau','C58','C58_linnemann')
m('OutModel','linnemann','(nexpalt * tau + 1, 1 / (1 + tau))','(nexpalt * tau, 1 / (1 + tau))','+1 missing','C58','C58_linnemann')
m('OutModel','linnemann','if rltb 0 m then m else nexperr','m','zero expectation not replaced','C57','C57_mid_p')
m('OutModel','poisson_obs_p','poisson_sf L k nexp\n      end','poisson_sf L (S k) nexp\n      end','P(n > nobs)','C58','C58_which_function')
m('OutModel','poisson_obs_p','| O => Fin 1\n','| O => Fin 0\n','nobs = 0','C57','C57_mid_p')
m('OutModel','z_from_logp','if flip_sign then MInf else PInf','PInf','flip ignored at -inf','C59','C59_flip')
m('OutModel','z_from_logp','- 2 * ln (2 * PI) - 2 * l','- ln (2 * PI) - 2 * l','formula repaired','C74','C74_below_asymptotic_value')
m('OutModel','poisson_obs_mid_z','z_from_logp (snd t) true)\n  else Ok (nneg (o_ppf L p)).\n\n(** outliers.py:304','z_from_logp (snd t) false)\n  else Ok (nneg (o_ppf L p)).\n\n(** outliers.py:304','no flip for p = 1','C59','C59_extreme')
m('OutModel','poisson_obs_mid_p','nscale (1/2) (nsub p pplus1)','nsub p pplus1','mid-p becomes P(n > nobs)','C57','C57_mid_p')
m('OutModel','log_mean','ln (1/2)','ln 2','log 2','C58','C58_logs_of_mid_p')
m('OutModel','log_poisson_obs_mid_p','log_mean (snd tlogpp1) (snd tlogp)','log_mean (fst tlogpp1) (fst tlogp)','log(1-p) replaced by log p','C58','C58_logs_of_mid_p')
m('OutModel','get_poisson_uncertainty','if rleb 1 x then sqrt x else 1','sqrt x','no floor','C65','C65_poisson_uncertainty')
m('OutModel','get_exact_poisson_uncertainty','2 * (x + 1)','2 * x','upper limit','C65','C65_exact_value')
m('OutModel','get_uncertainty','"poisson" then Ok (get_poisson_uncertainty x)','"poisson" then Ok (get_exact_poisson_uncertainty x)','methods mixed up','C65','C65_zero_uncertainty')
m('OutModel','estimate','let D := matsum values - B - C - Aobs in','let D := matsum values - B - C in','own count in D','C55','C55_prediction')
m('OutModel','estimate','if rltb 0 D then','if rleb 0 D then','division by zero','C55','C55_prediction')
m('OutModel','estimate','let e := B * C / D in','let e := rowsum values i * colsum values j / matsum values in','dependent estimate','C55','C55_prediction')
m('OutModel','estimate','+ (sD * e / D) ^ 2','','uncertainty of D ignored','C55','C55_uncertainty')
m('OutModel','get_outlier_significances','combine (fst re) (snd re)','combine (fst re) (rev (snd re))','expectations reversed','C59','C59_matrix_entry')
m('OutModel','axis_labels','vals ++ skipn (length vals) axis','axis','labels not replaced','C60','C60_labels')
m('OutModel','axis_labels','filter (fun i => negb (existsb (Nat.eqb i) imissing)) (seq 0 (length edges))','seq 0 (length edges)','labels of dropped bins kept','C60','C60_labels')
m('OutModel','axis_labels','filter (fun c => negb (marker c)) cells','cells','markers counted as bins','C60','C60_labels')
m('OutModel','outlier_significance_matrix_from_rebinned_df','relabel ndecimals dict c1 (c_cells y) (h_cols h)','relabel ndecimals dict c0 (c_cells y) (h_cols h)','row edges on the columns','C60','C60_labels')
m('OutModel','outlier_significance_matrix','if negb (Nat.eqb (length df) 2) then Raise ValueError\n  else','','number of columns not checked','C13','C13_outlier_two_columns')
m('OutModel','pairs','map (fun b => (a, b)) l\' ++ pairs l\'','map (fun b => (a, b)) (a :: l\') ++ pairs l\'','pairs with itself','C61','C61_all_pairs')
m('OutModel','outlier_significance_matrices_from_rebinned_df','match combinations with [] => pairs (keys f) | _ => combinations end','pairs (keys f)','requested combinations ignored','C61','C61_no_collision')
m('OutModel','colon_key','(c0 ++ ":" ++ c1)','(c1 ++ ":" ++ c0)','key order','C61','C61_no_collision')
m('OutModel','two_columns','| Some x, Some y => Ok [(fst c, x); (snd c, y)]','| Some x, Some y => Ok [(fst c, y); (snd c, x)]','columns swapped','C61','C61_no_collision')
m('OutModel','outlier_significance_from_binned_array','None CI_method 1 (BOne (BNum 10)) false dropna','None CI_method 1 (BOne (BNum 5)) false dropna','5 bins','C80','C80_numbers_are_binned')
# ---- HeapModel
m('HeapModel','dq_h','hbind (hcopy l) (fun l\' =>\n  match drop','hbind (hret l) (fun l\' =>\n  match drop','no copy before dropping columns','C12','C12_user_frame_unchanged')
m('HeapModel','bin_data_h','hbind (hcopy l) (fun l\' => hbind (bin_cols_h l l\' cols','hbind (hret l) (fun l\' => hbind (bin_cols_h l l\' cols','no copy before binning','C12','C12_user_frame_unchanged')
m('HeapModel','hist2d_reb_h','else hbind (clean_h l dropna uf of)','else hbind (clean_h l dropna of uf)','flags swapped','C11','C11_history')
m('HeapModel','outliers_reb_h','hbind (hnew f2) (fun l2 =>\n    hbind (outlier_reb_h l2','hbind (hret l) (fun l2 =>\n    hbind (outlier_reb_h l2','no copy of the two columns','C12','C12_user_frame_unchanged')
m('HeapModel','clean_h','if of then hwrite l (replace_all (CStr OFs) CNaN) else hret tt','if of then hwrite l (replace_all (CStr OFs) (CStr NaNs)) else hret tt','overflow becomes a category','C11','C11_history')
m('HeapModel','phik_matrix_h','hbind (prepare_h l ic bins q d) (fun bd => phik_reb_h (fst bd) noise d u o)','hbind (prepare_h l ic bins q d) (fun bd => phik_reb_h l noise d u o)','analyses (and overwrites) the user frame','C12','C12_user_frame_unchanged')
# ---- ReportModel
m('ReportModel','n_cores','(64 <=? cpu_count)','(60 <=? cpu_count)','threshold','C69','C69_cores')
m('ReportModel','resource','if exists_ p then Ok p else Raise FileNotFoundError','Ok p','existence not checked','C70','C70_resource')
m('ReportModel','tick','substring 0 17 s','substring 0 20 s','20 characters kept','C68','C68_length')
m('ReportModel','tick','if (top <? Z.of_nat (String.length s))','if (top <=? Z.of_nat (String.length s))','boundary','C68','C68_short')
m('ReportModel','plot_correlation_matrix','if identity_layout then rev x_labels else x_labels','x_labels','labels not reversed','C67','C67_layout')
m('ReportModel','plot_correlation_matrix','if identity_layout then flip (fst nb) else fst nb','fst nb','numbers not flipped','C67','C67_layout')
m('ReportModel','plot_correlation_matrix','if snd nb then [numbers\'; colors\']','if snd nb then [colors\'; numbers\']','order of the two numbers','C67','C67_layout')
m('ReportModel','ticks','(map (fun k => 2 * k + 1)%nat','(map (fun k => 2 * k)%nat','labels at the edges','C67','C67_layout')
m('ReportModel','white','nle (Fin (0.7 * vmax)) c','nle (Fin (0.5 * vmax)) c','text colour threshold','C67','C67_text_colour')
m('ReportModel','plot_hist_edges','length data / 50 + 1','length data / 50','number of default edges','C75','C75_default')
m('ReportModel','report_outliers','nlt (tval pm (fst c) (snd c)) (Fin cthr)','nlt (Fin cthr) (tval pm (fst c) (snd c))','correlation threshold inverted','C66','C66_selection')
m('ReportModel','report_outliers','(Fin sthr) || nlt','(Fin sthr) && nlt','skipped only if both are below','C66','C66_selection')
m('ReportModel','report_outliers','nlt (nabs (tval sm','nlt ((tval sm','|significance| without abs','C66','C66_selection')
m('ReportModel','report_key','underscores (colon_key (fst c) (snd c))','colon_key (fst c) (snd c)','spaces not replaced','C66','C66_keys_collide')
m('ReportModel','correlation_report','pairs (keys f)) []','combos (keys f)) []','diagonal pairs included','C66','C66_selection')
m('ReportModel','correlation_report','if do_outliers then','if negb do_outliers then','flag inverted','C66','C66_selection')
# ---- second round: theorems about period, variates, codes, laws and arrays
m('RcontModel','r8_uniform_01','k * 127773','k * 127772','Schrage quotient','C46','C46_generator')
m('RcontModel','rcont2','else if existsb (fun t => t <=? 0) nrowt then CErr (IErr 3)\n  else if existsb (fun t => t <=? 0) ncolt then CErr (IErr 4)','else if existsb (fun t => t <=? 0) ncolt then CErr (IErr 4)\n  else if existsb (fun t => t <=? 0) nrowt then CErr (IErr 3)','order of the checks','C48','C48_which_code')
m('RcontModel','rcont2','(ncol <=? 1)%nat then CErr (IErr 2)','(ncol <=? 2)%nat then CErr (IErr 2)','two columns rejected','C48','C48_which_code')
m('OutModel','estimate','(sB * C / D) ^ 2','(sB * B / D) ^ 2','wrong derivative','C55','C55_uncertainty')
m('OutModel','estimate','let* sC := get_uncertainty C CI_method','let* sC := get_uncertainty B CI_method','uncertainty of the wrong sum','C55','C55_uncertainty')
m('OutModel','z_from_logp','let u := - 2 * ln (2 * PI) - 2 * l in','let u := - ln (2 * PI) - 2 * l in','the repaired formula (claim describes the defect)','C74','C74_below_true_value')
m('OutModel','z_from_logp','if rltb (u - lu) 0 then NaN else Fin (sqrt (u - lu))','if rltb (u - lu) 0 then NaN else Fin (u - lu)','root missing','C74','C74_below_true_value')
m('OutModel','get_exact_poisson_uncertainty','let pl := norm_cdf L (-1) in','let pl := norm_cdf L (-2) in','two sigma below','C65','C65_exact_value')
m('OutModel','get_exact_poisson_uncertainty','chi2_ppf L pl (2 * x) / 2','chi2_ppf L pl (2 * x)','factor two','C65','C65_exact_value')
m('OutModel','poisson_obs_mid_z','else Ok (nneg (o_ppf L p)).','else Ok (o_ppf L p).','sign of Z','C79','C79_mid_z',nth=1)
m('OutModel','poisson_obs_z','else Ok (nneg (o_ppf L p)).','else Ok (o_ppf L p).','sign of Z','C79','C79_obs_z',nth=0)
m('OutModel','outlier_significance_from_array','bins quantile dropna uf of).','bins false dropna uf of).','quantile flag ignored','C80','C80_from_array')
m('OutModel','outlier_significance_from_array','df num_vars CI_method','df None CI_method','num_vars ignored','C80','C80_from_array')
m('OutModel','outlier_significance_from_binned_array','(BOne (BNum 10)) false dropna uf of)','(BOne (BNum 10)) false dropna of uf)','flags swapped','C80','C80_not_numeric')
m('ReportModel','white','nlt c (Fin (0.7 * vmin))','nle c (Fin (0.7 * vmin))','boundary of the text colour','C67','C67_text_colour')
m('BetaModel','cf_default','(1 / 10000000)','(1 / 1000000)','default EPS','C63','C63_defaults')
# ---- MCFModel
m('MCFModel','stat64','match lam with Pearson => get_chi2_64 add_up m | LogLikelihood => get_g_64 add_up flog m end','match lam with Pearson => get_g_64 add_up flog m | LogLikelihood => get_chi2_64 add_up m end','the two statistics exchanged','C107','C107_p_value')
m('MCFModel','sim_chi2s64','mapM (simulate_and_fit64 lam) sims','mapM (simulate_and_fit64 lam) (tl sims)','first simulation dropped','C107','C107_p_value')
m('MCFModel','simulate_and_fit64',':= stat64 lam simdata.',':= stat64 Pearson simdata.','lambda_ not passed on to the simulations','C107','C107_p_value')
m('MCFModel','mc_from_tables64','Ok (mc_p64 percentile c cs)','Ok (percentile cs c)','percentile returned instead of 1 - percentile / 100','C107','C107_p_value')
m('MCFModel','mc_from_tables64','match stat64 lam values with\n  | Raise e => Raise e','match stat64 lam values with\n  | Raise e => Ok fone','table without records gives p = 1','C107','C107_no_records')
# ---- HybFModel
m('HybFModel','avg_per_bin64','(ofZ (Z.of_nat (fr values)))) (ofZ (Z.of_nat (fc values)))','(ofZ (Z.of_nat (fc values)))) (ofZ (Z.of_nat (fr values)))','shape[0] and shape[1] exchanged','C111','C111_switch')
m('HybFModel','avg_per_bin64','fmult (fdiv (ftot add_up values) (ofZ (Z.of_nat (fr values)))) (ofZ (Z.of_nat (fc values)))','fdiv (fdiv (ftot add_up values) (ofZ (Z.of_nat (fr values)))) (ofZ (Z.of_nat (fc values)))','the average per bin that the documentation describes','C111','C111_switch')
m('HybFModel','hybrid64','mix64 f (fsf chi2 endof) (fnsf chi2 endof (fsqrt endof))','mix64 f (fnsf chi2 endof (fsqrt endof)) (fsf chi2 endof)','the two components of the mixture exchanged','C111','C111_hybrid')
m('HybFModel','hybrid64','(fnsf chi2 endof (fsqrt endof))','(fnsf chi2 endof endof)','width of the gaussian is ndof, not sqrt(ndof)','C111','C111_hybrid')
m('HybFModel','hybrid64','if low then Some f else None','if low then None else Some f','term for the fraction added in the wrong branch','C111','C111_hybrid')
m('HybFModel','hybrid64','Ok (p, fopp (fppf p))','Ok (p, fppf p)','sign of the Z-value','C111','C111_hybrid')
m('HybFModel','estimate_ndof64','(ofZ (Z.of_nat (length chi2s)))','(ofZ (Z.of_nat (length chi2s) - 1))','divides by n - 1','C111','C111_endof')
m('HybFModel','hybrid_from_tables64','hybrid64 c values cs end','hybrid64 c values [c] end','observed instead of simulated statistics','C111','C111_hybrid')
