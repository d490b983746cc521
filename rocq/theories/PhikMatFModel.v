(** phik/phik.py:103-223 [phik_from_rebinned_df], [_calc_phik], [phik_matrix] and binning.py:122-139 with the numbers in binary64. *)
From Coq Require Import String ZArith List Bool.
From Verif Require Import F64 Base Cells BinModel HistModel StatsModel PhikModel BrentFModel Chi2FModel.
Import ListNotations.
Open Scope list_scope.

(** datahist.values as float64 (an int64 table gives the same numbers: scipy's expected_freq converts to float64, and sums of counts below
    2^53 are exact either way) *)
Definition hmat64 (h : htable) : fmat := mkF (length (h_rows h)) (length (h_cols h)) (fun i j => ofZ (Z.of_nat (nth j (nth i (h_cnt h) []) 0%nat))).

(** the mean of a group as pandas computes it: compensated summation from 0 (pandas >= 1.2, [comp] = true) or plain summation from 0, then a
    division by the number of values; NaN for no values *)
Definition sum_step (comp : bool) (st : f64 * f64) (v : f64) : f64 * f64 :=
  let '(s, c) := st in
  if comp then let y := fminus v c in let t := fplus s y in (t, fminus (fminus t s) y) else (fplus s v, c).
Definition fmean (comp : bool) (l : list f64) : f64 :=
  match l with [] => fnan | _ => fdiv (fst (fold_left (sum_step comp) l (fzero, fzero))) (ofZ (Z.of_nat (length l))) end.
(** binning.py:122-139 followed by the two reindex calls (phik.py:155-156): the entry at (a, b) is the mean of the values given for (a, b) in the
    long table that are not NaN (the sorting of the labels by pivot_table and the reindexing cancel: OverviewProofs.tval_overview) *)
Definition flong (vals : list (string * string * f64)) : list (string * string * f64) :=
  flat_map (fun v => let '(a, b, x) := v in [(a, b, x); (b, a, x)]) vals.
Definition fgroup (rows : list (string * string * f64)) (a b : string) : list f64 :=
  map snd (filter (fun r => String.eqb (fst (fst r)) a && String.eqb (snd (fst r)) b && negb (fisnan (snd r))) rows).
Record ftable := mkFT { ft_index : list string; ft_columns : list string; ft_cells : list (list f64) }.

Section M.
Variable add_up : site -> list f64 -> f64.
Variable chi2_rho : f64 -> nat -> nat -> f64 -> f64.
Variable comp : bool.
(** phik.py:161-184 [_calc_phik] *)
Definition calc_phik_64 (noise : bool) (p q : string * col) : res (string * string * f64) :=
  let '(c0, x) := p in let '(c1, y) := q in
  if String.eqb c0 c1 then Ok (c0, c1, fone)
  else
    let h := crosstab (combine (c_cells x) (c_cells y)) in
    if is01 (length (h_rows h)) || is01 (length (h_cols h)) then Ok (c0, c1, fnan)
    else let* v := phik_from_hist2d_64 add_up chi2_rho (hmat64 h) noise in Ok (c0, c1, v).
(** phik.py:103-158 [phik_from_rebinned_df] *)
Definition phik_rebinned_64 (f : frame) (noise dropna uf of : bool) : res ftable :=
  let f' := clean dropna uf of f in
  let order := keys f' in
  let* vals := mapM (fun pq => calc_phik_64 noise (fst pq) (snd pq)) (combos f') in
  Ok (mkFT order order (map (fun a => map (fun b => fmean comp (fgroup (flong vals) a b)) order) order)).
(** phik.py:187-223 [phik_matrix] *)
Definition phik_matrix_64 npq (df : frame) (interval_cols : option (list string)) (bins : bins_arg) (quantile noise dropna uf of : bool) : res ftable :=
  let ic := match interval_cols with Some l => l | None => guess_interval_cols df end in
  let '(clean_df, ic') := dq_check_nunique_values df ic dropna in
  let* bd := bin_data npq clean_df ic' bins quantile in
  phik_rebinned_64 (fst bd) noise dropna uf of.
End M.
