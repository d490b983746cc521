(** Model of phik/outliers.py and phik/statistics.py:108-138.  Floating-point results are [num]; scipy functions are parameters. *)
From Coq Require Import String ZArith List Bool Reals.
Import ListNotations.
From Verif Require Import F64 Base Cells BinModel HistModel RSum StatsModel BivModel Num PhikModel ArrayModel BetaModel.
Open Scope list_scope.
Open Scope R_scope.

(** scipy.special.betainc and gammaln, scipy.stats.poisson.sf(k, mu) for a natural number k, norm.ppf, norm.cdf, chi2.ppf;
    np.exp of a finite float (which underflows to 0) *)
Record olib := mkOlib {
  betainc : R -> R -> R -> num;
  gammaln : R -> R;
  poisson_sf : nat -> num -> num;
  o_ppf : num -> num;
  norm_cdf : R -> R;
  chi2_ppf : R -> R -> R;
  np_exp : R -> R }.

Definition nscale (c : R) (x : num) : num := match x with Fin r => Fin (c * r) | _ => x end.
(** np.exp, exact *)
Definition nexpn (x : num) : num := match x with Fin r => Fin (exp r) | MInf => Fin 0 | PInf => PInf | NaN => NaN end.

Section Lib.
Variable L : olib.

(** outliers.py:65-68, 109-112: the arguments b and x of the incomplete beta function *)
Definition linnemann (nexp : num) (nexperr : R) : R * R :=
  let nexpalt := match nexp with Fin m => if rltb 0 m then m else nexperr | _ => nexperr end in
  let tau := nexpalt / (nexperr * nexperr) in
  (nexpalt * tau + 1, 1 / (1 + tau)).
Definition err_positive (nexperr : num) : option R :=
  match nexperr with Fin e => if rltb 0 e then Some e else None | _ => None end.

(** outliers.py:33-73 [poisson_obs_p]; an infinite nexp or nexperr is not modelled *)
Definition poisson_obs_p (nobs : nat) (nexp nexperr : num) : num :=
  match nobs with
  | O => Fin 1
  | S k =>
      match err_positive nexperr with
      | Some e => let '(b, x) := linnemann nexp e in betainc L (INR nobs) b x
      | None => poisson_sf L k nexp
      end
  end.

(** outliers.py:76-119 [log_poisson_obs_p]; stats.poisson.logsf is the logarithm of stats.poisson.sf *)
Definition log_poisson_obs_p (nobs : nat) (nexp nexperr : num) : res (num * num) :=
  match nobs with
  | O => Ok (Fin 0, MInf)
  | S k =>
      match err_positive nexperr with
      | Some e => let '(b, x) := linnemann nexp e in log_incompbeta (gammaln L) (INR nobs) b x
      | None => let p := poisson_sf L k nexp in Ok (nlogn p, nlogn (one_minus p))
      end
  end.

(** statistics.py:108-138 [z_from_logp] *)
Definition z_from_logp (logp : num) (flip_sign : bool) : num :=
  match logp with
  | MInf => if flip_sign then MInf else PInf
  | Fin l =>
      let p_value := np_exp L l in
      let z :=
        if reqb p_value 0 then
          let u := - 2 * ln (2 * PI) - 2 * l in
          match nlog u with
          | Fin lu => if rltb (u - lu) 0 then NaN else Fin (sqrt (u - lu))
          | MInf => PInf
          | _ => NaN
          end
        else nneg (o_ppf L (Fin p_value)) in
      if flip_sign then nneg z else z
  | _ => let z := nneg (o_ppf L logp) in if flip_sign then nneg z else z
  end.

(** outliers.py:122-152 [poisson_obs_z] *)
Definition poisson_obs_z (nobs : nat) (nexp nexperr : num) : res num :=
  let p := poisson_obs_p nobs nexp nexperr in
  if neqb p (Fin 0) then let* t := log_poisson_obs_p nobs nexp nexperr in Ok (z_from_logp (fst t) false)
  else if neqb p (Fin 1) then let* t := log_poisson_obs_p nobs nexp nexperr in Ok (z_from_logp (snd t) true)
  else Ok (nneg (o_ppf L p)).

(** outliers.py:155-174 [poisson_obs_mid_p] *)
Definition poisson_obs_mid_p (nobs : nat) (nexp nexperr : num) : num :=
  let p := poisson_obs_p nobs nexp nexperr in
  let pplus1 := poisson_obs_p (S nobs) nexp nexperr in
  let mid_p := nscale (1/2) (nsub p pplus1) in
  nsub p mid_p.

(** outliers.py:198, 205: log(0.5) + l + log(1 + exp(m - l)) *)
Definition log_mean (l m : num) : num :=
  nadd (nadd (Fin (ln (1/2))) l) (nlogn (nadd (Fin 1) (nexpn (nsub m l)))).
(** outliers.py:177-207 [log_poisson_obs_mid_p] *)
Definition log_poisson_obs_mid_p (nobs : nat) (nexp nexperr : num) : res (num * num) :=
  let* tlogp := log_poisson_obs_p nobs nexp nexperr in
  let* tlogpp1 := log_poisson_obs_p (S nobs) nexp nexperr in
  Ok (log_mean (fst tlogp) (fst tlogpp1), log_mean (snd tlogpp1) (snd tlogp)).

(** outliers.py:210-241 [poisson_obs_mid_z] *)
Definition poisson_obs_mid_z (nobs : nat) (nexp nexperr : num) : res num :=
  let p := poisson_obs_mid_p nobs nexp nexperr in
  if neqb p (Fin 0) then let* t := log_poisson_obs_mid_p nobs nexp nexperr in Ok (z_from_logp (fst t) false)
  else if neqb p (Fin 1) then let* t := log_poisson_obs_mid_p nobs nexp nexperr in Ok (z_from_logp (snd t) true)
  else Ok (nneg (o_ppf L p)).

(** outliers.py:304-312 [get_poisson_uncertainty] *)
Definition get_poisson_uncertainty (x : R) : R := if rleb 1 x then sqrt x else 1.
(** outliers.py:315-339 [get_exact_poisson_uncertainty] with nsigmas=1 *)
Definition get_exact_poisson_uncertainty (x : R) : R :=
  let pl := norm_cdf L (-1) in
  let pu := norm_cdf L 1 in
  let lb := if negb (reqb x 0) then chi2_ppf L pl (2 * x) / 2 else 0 in
  let ub := chi2_ppf L pu (2 * (x + 1)) / 2 in
  (ub - lb) / 2.
(** outliers.py:280-301 [get_uncertainty] *)
Definition get_uncertainty (x : R) (CI_method : string) : res R :=
  if String.eqb CI_method "exact_poisson" then Ok (get_exact_poisson_uncertainty x)
  else if String.eqb CI_method "poisson" then Ok (get_poisson_uncertainty x)
  else Raise NotImplementedError.

(** outliers.py:261-275: one cell; counts are exact (int64 overflow of B*C is not modelled) *)
Definition estimate (values : mat) (CI_method : string) (i j : nat) : res (num * num) :=
  let Aobs := el values i j in
  let B := rowsum values i - Aobs in
  let C := colsum values j - Aobs in
  let D := matsum values - B - C - Aobs in
  if rltb 0 D then
    let e := B * C / D in
    let* sB := get_uncertainty B CI_method in
    let* sC := get_uncertainty C CI_method in
    let* sD := get_uncertainty D CI_method in
    Ok (Fin e, Fin (sqrt ((sB * C / D) ^ 2 + (sC * B / D) ^ 2 + (sD * e / D) ^ 2)))
  else Ok (NaN, NaN).
(** outliers.py:244-277 [get_independent_frequency_estimates] *)
Definition get_independent_frequency_estimates (values : mat) (CI_method : string) : res (list (list (num * num))) :=
  mapM (fun i => mapM (fun j => estimate values CI_method i j) (idx (nc values))) (idx (nr values)).

(** outliers.py:342-363 [get_outlier_significances]; (p-value, Z-value) per cell *)
Definition cell_significance (o : nat) (e : num * num) : res (num * num) :=
  let* z := poisson_obs_mid_z o (fst e) (snd e) in Ok (poisson_obs_mid_p o (fst e) (snd e), z).
Definition get_outlier_significances (obs : list (list nat)) (est : list (list (num * num))) : res (list (list (num * num))) :=
  mapM (fun re => mapM (fun oe => cell_significance (fst oe) (snd oe)) (combine (fst re) (snd re))) (combine obs est).

(** outliers.py:366-381 [outlier_significance_matrix_from_hist2d] of a contingency table *)
Definition outlier_significance_matrix_from_hist2d (h : htable) (CI_method : string) : res (list (list (num * num))) :=
  let* est := get_independent_frequency_estimates (hmat h) CI_method in
  get_outlier_significances (h_cnt h) est.

(** the result: a labelled matrix of Z-values, or the float NaN *)
Inductive oresult := ONaN | OMat (rows cols : list cell) (z : list (list num)).

(** '{1:.{0}f}_{2:.{0}f}'.format(ndecimals, lo, hi) *)
Variable fmt : Z -> f64 * f64 -> string.

Fixpoint position (v : cell) (l : list cell) : nat :=
  match l with [] => 0%nat | a :: l' => if ceqb a v then 0%nat else S (position v l') end.
Definition marker (c : cell) : bool := ceqb c (CStr UFs) || ceqb c (CStr OFs) || ceqb c (CStr NaNs).
(** outliers.py:411-422: the new labels of one axis. [cells]: the column after cleaning *)
Definition axis_labels (ndecimals : Z) (edges : list (f64 * f64)) (cells axis : list cell) : list cell :=
  let orig_vals := dsort (filter (fun c => negb (isna c)) (filter (fun c => negb (marker c)) cells)) in
  let missing := filter (fun v => negb (existsb (ceqb v) axis)) orig_vals in
  let imissing := map (fun v => position v orig_vals) missing in
  let vals := map (fun i => CStr (fmt ndecimals (nth i edges (fnan, fnan))))
                  (filter (fun i => negb (existsb (Nat.eqb i) imissing)) (seq 0 (length edges))) in
  vals ++ skipn (length vals) axis.
(** outliers.py:409-423: setattr of an axis; pandas rejects a wrong number of labels *)
Definition relabel (ndecimals : Z) (dict : list (string * list (f64 * f64))) (c : string) (cells axis : list cell) : res (list cell) :=
  match assoc c dict with
  | None => Ok axis
  | Some edges =>
      let l := axis_labels ndecimals edges cells axis in
      if Nat.eqb (length l) (length axis) then Ok l else Raise ValueError
  end.

(** outliers.py:384-428 [outlier_significance_matrix_from_rebinned_df]; also returns the frame as it is left behind *)
Definition outlier_significance_matrix_from_rebinned_df (f : frame) (dict : list (string * list (f64 * f64))) (CI_method : string) (ndecimals : Z)
    (dropna uf of : bool) : res oresult * frame :=
  match f with
  | [(c0, _); (c1, _)] =>
      let '(h, f') := hist2d_from_rebinned_df f dropna uf of in
      (let* h := h in
       if is01 (length (h_rows h)) || is01 (length (h_cols h)) then Ok ONaN
       else
         match f' with
         | [(_, x); (_, y)] =>
             let* rows := relabel ndecimals dict c0 (c_cells x) (h_rows h) in
             let* cols := relabel ndecimals dict c1 (c_cells y) (h_cols h) in
             let* pz := outlier_significance_matrix_from_hist2d h CI_method in
             Ok (OMat rows cols (map (map snd) pz))
         | _ => Raise ValueError
         end, f')
  | _ => (Raise ValueError, f)
  end.

Variable npq : list f64 -> Z -> list f64.

(** outliers.py:431-473 [outlier_significance_matrix] (retbins=True form) *)
Definition outlier_significance_matrix (df : frame) (interval_cols : option (list string)) (CI_method : string) (ndecimals : Z)
    (bins : bins_arg) (quantile dropna uf of : bool) : res (oresult * list (string * list (f64 * f64))) :=
  if negb (Nat.eqb (length df) 2) then Raise ValueError
  else
    let ic := match interval_cols with Some l => l | None => guess_interval_cols df end in
    let '(df_clean, ic') := dq_check_nunique_values df ic dropna in
    let* bd := bin_data npq df_clean ic' bins quantile in
    let* m := fst (outlier_significance_matrix_from_rebinned_df (fst bd) (snd bd) CI_method ndecimals dropna uf of) in
    Ok (m, snd bd).

(** itertools.combinations(l, 2) *)
Fixpoint pairs {A} (l : list A) : list (A * A) := match l with [] => [] | a :: l' => map (fun b => (a, b)) l' ++ pairs l' end.
(** data_binned[[c0, c1]].copy(); selecting one name twice makes groupby fail with ValueError ("Grouper not 1-dimensional") *)
Definition two_columns (f : frame) (c : string * string) : res frame :=
  if String.eqb (fst c) (snd c) then (match assoc (fst c) f with Some _ => Raise ValueError | None => Raise KeyError end)
  else match assoc (fst c) f, assoc (snd c) f with
  | Some x, Some y => Ok [(fst c, x); (snd c, y)]
  | _, _ => Raise KeyError
  end.
(** outliers.py:476-515 [outlier_significance_matrices_from_rebinned_df]; the copies protect the caller's frame *)
Definition outlier_significance_matrices_from_rebinned_df (f : frame) (dict : list (string * list (f64 * f64))) (CI_method : string) (ndecimals : Z)
    (combinations : list (string * string)) (dropna uf of : bool) : res (list (string * string * oresult)) :=
  let cs := match combinations with [] => pairs (keys f) | _ => combinations end in
  mapM (fun c =>
    let* f2 := two_columns f c in
    let* m := fst (outlier_significance_matrix_from_rebinned_df f2 dict CI_method ndecimals dropna uf of) in
    Ok (fst c, snd c, m)) cs.

(** outliers.py:518-564 [outlier_significance_matrices] (retbins=True form): a dict with keys "c0:c1" *)
Definition colon_key (c0 c1 : string) : string := (c0 ++ ":" ++ c1)%string.
Definition outlier_significance_matrices (df : frame) (interval_cols : option (list string)) (CI_method : string) (ndecimals : Z)
    (bins : bins_arg) (quantile : bool) (combinations : list (string * string)) (dropna uf of : bool)
    : res (list (string * oresult) * list (string * list (f64 * f64))) :=
  let ic := match interval_cols with Some l => l | None => guess_interval_cols df end in
  let '(df_clean, ic') := dq_check_nunique_values df ic dropna in
  let* bd := bin_data npq df_clean ic' bins quantile in
  let* ms := outlier_significance_matrices_from_rebinned_df (fst bd) (snd bd) CI_method ndecimals combinations dropna uf of in
  Ok (fold_left (fun d m => dict_set (colon_key (fst (fst m)) (snd (fst m))) (snd m) d) ms [], snd bd).

Variable str : cell -> string.
(** outliers.py:567-602 [outlier_significance_from_array] *)
Definition outlier_significance_from_array (x y : arr) (num_vars : option (list string)) (bins : bins_arg) (quantile : bool) (ndecimals : Z)
    (CI_method : string) (dropna uf of : bool) : res oresult :=
  let df := array_like_to_dataframe str x y in
  rmap fst (outlier_significance_matrix df num_vars CI_method ndecimals bins quantile dropna uf of).
(** outliers.py:605-629 [outlier_significance_from_binned_array]: no interval_cols, bins=10, ndecimals=1 are passed *)
Definition outlier_significance_from_binned_array (x y : arr) (CI_method : string) (dropna uf of : bool) : res oresult :=
  let df := array_like_to_dataframe str x y in
  rmap fst (outlier_significance_matrix df None CI_method 1 (BOne (BNum 10)) false dropna uf of).
End Lib.
