(** phik/outliers.py:476-629 (CI_method='poisson') in binary64 arithmetic: the outlier matrices of all or of the requested pairs of columns,
    and the functions for two arrays. *)
From Coq Require Import String ZArith List Bool.
From Verif Require Import F64 Base Cells BinModel HistModel PhikModel ArrayModel OutModel OutMatFModel.
Import ListNotations.
Open Scope list_scope.

Section L.
Variable fbetainc : f64 -> f64 -> f64 -> f64.
Variable fgammaln : f64 -> f64.
Variables fpsf fplogsf : f64 -> f64 -> f64.
Variable fppf : f64 -> f64.
Variables flog fexpo pow2 : f64 -> f64.
Variable fmt : Z -> f64 * f64 -> string.
(** outliers.py:506-515: the body of the loop of [outlier_significance_matrices_from_rebinned_df]: select two columns, compute, append *)
Definition outlier_pair_64 (f : frame) (dict : list (string * list (f64 * f64))) (ndecimals : Z) (dropna uf of : bool) (c : string * string)
    : res (string * string * oresult64) :=
  let* f2 := two_columns f c in
  let* m := outlier_rebinned_64 fbetainc fgammaln fpsf fplogsf fppf flog fexpo pow2 fmt f2 dict ndecimals dropna uf of in
  Ok (fst c, snd c, m).
(** outliers.py:476-515 [outlier_significance_matrices_from_rebinned_df] *)
Definition outlier_pairs_64 (f : frame) (dict : list (string * list (f64 * f64))) (ndecimals : Z) (combinations : list (string * string)) (dropna uf of : bool)
    : res (list (string * string * oresult64)) :=
  mapM (outlier_pair_64 f dict ndecimals dropna uf of) (match combinations with [] => pairs (keys f) | _ => combinations end).
Variable npq : list f64 -> Z -> list f64.
(** outliers.py:518-564 [outlier_significance_matrices] (retbins=True form): a dict with keys "c0:c1" *)
Definition outlier_matrices_64 (df : frame) (interval_cols : option (list string)) (ndecimals : Z) (bins : bins_arg) (quantile : bool)
    (combinations : list (string * string)) (dropna uf of : bool) : res (list (string * oresult64) * list (string * list (f64 * f64))) :=
  let ic := match interval_cols with Some l => l | None => guess_interval_cols df end in
  let '(df_clean, ic') := dq_check_nunique_values df ic dropna in
  let* bd := bin_data npq df_clean ic' bins quantile in
  let* ms := outlier_pairs_64 (fst bd) (snd bd) ndecimals combinations dropna uf of in
  Ok (fold_left (fun d m => dict_set (colon_key (fst (fst m)) (snd (fst m))) (snd m) d) ms [], snd bd).
Variable str : cell -> string.
(** outliers.py:567-602 [outlier_significance_from_array] *)
Definition outlier_array_64 (x y : arr) (num_vars : option (list string)) (bins : bins_arg) (quantile : bool) (ndecimals : Z) (dropna uf of : bool) : res oresult64 :=
  rmap fst (outlier_matrix_64 fbetainc fgammaln fpsf fplogsf fppf flog fexpo pow2 fmt npq (array_like_to_dataframe str x y) num_vars ndecimals bins quantile dropna uf of).
(** outliers.py:605-629 [outlier_significance_from_binned_array]: no interval_cols, bins=10, ndecimals=1 are passed *)
Definition outlier_binned_array_64 (x y : arr) (dropna uf of : bool) : res oresult64 :=
  rmap fst (outlier_matrix_64 fbetainc fgammaln fpsf fplogsf fppf flog fexpo pow2 fmt npq (array_like_to_dataframe str x y) None 1 (BOne (BNum 10)) false dropna uf of).
End L.
