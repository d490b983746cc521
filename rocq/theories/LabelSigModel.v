(** The significance and outlier functions with the label handling made explicit: labels that are whole numbers, repeated labels.
    significance.py:242-338, outliers.py:384-564, binning.py:78-119 (with the returned dictionary). Companion of LabelModel.v. *)
From Coq Require Import String ZArith List Bool Reals.
From Verif Require Import F64 Base Cells BinModel HistModel RSum StatsModel BivModel Num PhikModel SimModel SigModel OutModel LabelModel.
Import ListNotations.
Open Scope list_scope.

Section Sig.
Variable SL : slib.
Variable St : Type.
Variable multinomial : Z -> list R -> St -> res (list Z) * St.
Variable randint : Z -> Z -> St -> Z * St.
Variables (libm_exp libm_log : f64 -> f64) (uninit : nat -> list Z) (ib0 : Z) (fuel : nat) (cpp : bool).
Variable clamp : bool.
Variable npq : list f64 -> Z -> list f64.
Notation M := (SimModel.M St).

(** one pair of columns (significance.py:274-289). groupby([c0, c1]) raises ValueError for a repeated label; the warning about a table with
    fewer than two rows or columns is composed with '{0:s}' and '{2:s}', which raise ValueError for a number. (The warning itself is
    not part of the result.) *)
Definition calc_signif_l nsim l simm sigm (workers : label -> label -> option (nat -> St)) (f : lframe) (c0 c1 : label) : M (label * label * num) :=
  match filter (fun p => label_eqb c0 (fst p)) f, filter (fun p => label_eqb c1 (fst p)) f with
  | [(_, x)], [(_, y)] =>
      let h := crosstab (combine (c_cells x) (c_cells y)) in
      if is01 (length (h_rows h)) || is01 (length (h_cols h)) then
        mbind St (lift St (fmt_s c0)) (fun _ => mbind St (lift St (fmt_s c1)) (fun _ => ret St (c0, c1, NaN)))
      else mbind St (significance_from_hist2d SL St multinomial randint libm_exp libm_log uninit ib0 fuel cpp clamp (hmat h) nsim l simm sigm (workers c0 c1))
             (fun pz => ret St (c0, c1, snd pz))
  | _, _ => mraise St ValueError
  end.
(** significance.py:242-299 [significance_from_rebinned_df] (for the assembly of the table see lentry in LabelModel.v) *)
Definition signif_rebinned_l (f : lframe) (l : lambda) simm (nsim : Z) sigm (dropna uf of : bool) workers : M ltable :=
  let f' := lclean dropna uf of f in
  let order := labels f' in
  mbind St (mmap St (fun pq => calc_signif_l nsim l simm sigm workers f' (fst pq) (snd pq)) (combos order)) (fun vals =>
  ret St (mkLT order order (map (fun a => map (fun b => lentry vals a b) order) order))).
(** significance.py:302-338 [significance_matrix] *)
Definition significance_matrix_l (f : lframe) (interval_cols : option (list label)) (l : lambda) simm (nsim : Z) sigm (bins : lbins)
    (dropna uf of : bool) workers : M (ltable * list dqwarning) :=
  let ic := match interval_cols with Some c => c | None => guess_l f end in
  mbind St (lift St (dq_check_l f ic dropna)) (fun d =>
  mbind St (lift St (bin_data_l npq (fst (fst d)) (snd (fst d)) bins false)) (fun b =>
  mbind St (signif_rebinned_l b l simm nsim sigm dropna uf of workers) (fun t => ret St (t, snd d)))).
End Sig.

Section Bin.
Variable npq : list f64 -> Z -> list f64.
(** bins_dict[col] = ... *)
Definition ldict_set {B} (k : label) (b : B) (l : list (label * B)) : list (label * B) :=
  if lmem k (labels l) then lset k b l else l ++ [(k, b)].
(** binning.py:103-119, as bin_cols with labels; only reached with distinct labels *)
Fixpoint bin_cols_ld (data : lframe) (cols : list label) (bins : lbins) (quantile : bool) (xbins : option (list f64)) (acc : lframe)
    (dict : list (label * list (f64 * f64))) : res (lframe * list (label * list (f64 * f64))) :=
  match cols with
  | [] => Ok (acc, dict)
  | c :: cols' =>
      match lassoc c data with
      | None => Raise KeyError
      | Some column =>
          let* arr := mapM to_float (c_cells column) in
          let* xb :=
            match bins with
            | LOne (BNum n) => rmap Some (bin_edges npq arr n quantile)
            | LOne _ => Ok xbins
            | LDict d =>
                match lassoc c d with
                | Some (BNum n) => rmap Some (bin_edges npq arr n quantile)
                | Some (BEdges l) => Ok (Some l)
                | Some BOther => Ok xbins
                | None => Raise KeyError
                end
            end in
          match xb with
          | None => Raise UnboundLocalError
          | Some edges =>
              let (b, ls) := bin_array arr edges in
              bin_cols_ld data cols' bins quantile xb (lset c (mkCol false b) acc) (ldict_set c ls dict)
          end
      end
  end.
(** binning.py:78-119 [bin_data] with retbins=True *)
Definition bin_data_ld (data : lframe) (cols : list label) (bins : lbins) (quantile : bool) : res (lframe * list (label * list (f64 * f64))) :=
  match bins with
  | LDict d => if forallb (fun c => lmem c (labels d)) cols then bin_cols_ld data cols bins quantile None data [] else Raise ValueError
  | LOne (BEdges l) => bin_cols_ld data cols bins quantile (Some l) data []
  | LOne _ => bin_cols_ld data cols bins quantile None data []
  end.

Variable OL : olib.
Variable fmt : Z -> f64 * f64 -> string.
(** outliers.py:409-423 *)
Definition relabel_axis_l (ndecimals : Z) (dict : list (label * list (f64 * f64))) (c : label) (cells axis : list cell) : res (list cell) :=
  match lassoc c dict with
  | None => Ok axis
  | Some edges =>
      let l := axis_labels fmt ndecimals edges cells axis in
      if Nat.eqb (length l) (length axis) then Ok l else Raise ValueError
  end.
(** outliers.py:384-428 [outlier_significance_matrix_from_rebinned_df]: groupby raises ValueError if both columns carry the same label *)
Definition outlier_rebinned_l (f : lframe) (dict : list (label * list (f64 * f64))) (CI_method : string) (ndecimals : Z) (dropna uf of : bool) : res oresult :=
  match lclean dropna uf of f with
  | [(c0, x); (c1, y)] =>
      if label_eqb c0 c1 then Raise ValueError
      else
        let h := crosstab (combine (c_cells x) (c_cells y)) in
        if is01 (length (h_rows h)) || is01 (length (h_cols h)) then
          let* _ := fmt_s c0 in let* _ := fmt_s c1 in Ok ONaN
        else
          let* rows := relabel_axis_l ndecimals dict c0 (c_cells x) (h_rows h) in
          let* cols := relabel_axis_l ndecimals dict c1 (c_cells y) (h_cols h) in
          let* pz := outlier_significance_matrix_from_hist2d OL h CI_method in
          Ok (OMat rows cols (map (map snd) pz))
  | _ => Raise ValueError
  end.
(** outliers.py:431-473 [outlier_significance_matrix] (retbins=True form) *)
Definition outlier_matrix_l (f : lframe) (interval_cols : option (list label)) (CI_method : string) (ndecimals : Z) (bins : lbins)
    (quantile dropna uf of : bool) : res (oresult * list (label * list (f64 * f64))) :=
  if negb (Nat.eqb (length f) 2) then Raise ValueError
  else
    let ic := match interval_cols with Some l => l | None => guess_l f end in
    let* d := dq_check_l f ic dropna in
    let* bd := bin_data_ld (fst (fst d)) (snd (fst d)) bins quantile in
    let* m := outlier_rebinned_l (fst bd) (snd bd) CI_method ndecimals dropna uf of in
    Ok (m, snd bd).
(** data_binned[[c0, c1]]: every column with one of the labels, in the order of the list; KeyError if a label does not occur *)
Definition two_columns_l (f : lframe) (c : label * label) : res lframe :=
  match filter (fun p => label_eqb (fst c) (fst p)) f, filter (fun p => label_eqb (snd c) (fst p)) f with
  | [], _ | _, [] => Raise KeyError
  | x, y => Ok (x ++ y)
  end.
(** outliers.py:476-515 [outlier_significance_matrices_from_rebinned_df] *)
Definition outlier_matrices_rebinned_l (f : lframe) (dict : list (label * list (f64 * f64))) (CI_method : string) (ndecimals : Z)
    (combinations : list (label * label)) (dropna uf of : bool) : res (list (label * label * oresult)) :=
  let cs := match combinations with [] => pairs (labels f) | _ => combinations end in
  mapM (fun c =>
    let* f2 := two_columns_l f c in
    let* m := outlier_rebinned_l f2 dict CI_method ndecimals dropna uf of in
    Ok (fst c, snd c, m)) cs.
(** ":".join([c0, c1]): TypeError if one is a number *)
Definition join_l (c0 c1 : label) : res string := match c0, c1 with LStr a, LStr b => Ok (colon_key a b) | _, _ => Raise TypeError end.
(** outliers.py:518-564 [outlier_significance_matrices] (retbins=True form) *)
Definition outlier_matrices_l (f : lframe) (interval_cols : option (list label)) (CI_method : string) (ndecimals : Z) (bins : lbins)
    (quantile : bool) (combinations : list (label * label)) (dropna uf of : bool) : res (list (string * oresult) * list (label * list (f64 * f64))) :=
  let ic := match interval_cols with Some l => l | None => guess_l f end in
  let* d := dq_check_l f ic dropna in
  let* bd := bin_data_ld (fst (fst d)) (snd (fst d)) bins quantile in
  let* ms := outlier_matrices_rebinned_l (fst bd) (snd bd) CI_method ndecimals combinations dropna uf of in
  let* kv := mapM (fun m => let* k := join_l (fst (fst m)) (snd (fst m)) in Ok (k, snd m)) ms in
  Ok (fold_left (fun d m => dict_set (fst m) (snd m) d) kv [], snd bd).
End Bin.
