(** Columns of pandas' category dtype: phik/binning.py:142-168 and phik/phik.py:125-132,161-184 on such columns.
    groupby is called with pandas' default observed=False. *)
From Coq Require Import String ZArith List Bool Reals.
Import ListNotations.
From Verif Require Import F64 Base Cells BinModel HistModel RSum StatsModel BivModel Num PhikModel.
Open Scope list_scope.

(** a column: its declared categories, in their order, if it is of category dtype; its cells *)
Record ccol := mkCC { cc_cats : option (list cell); cc_cells : list cell }.

(** Series.fillna(v): a categorical column only accepts its own categories (ValueError, TypeError since pandas 1.3) *)
Definition fillna_c (err : exn) (v : cell) (c : ccol) : res ccol :=
  match cc_cats c with
  | Some cats => if existsb (ceqb v) cats then Ok (mkCC (Some cats) (map (repl CNaN v) (cc_cells c))) else Raise err
  | None => Ok (mkCC None (map (repl CNaN v) (cc_cells c)))
  end.
(** Series.replace(v, np.nan): a replaced category is removed *)
Definition replace_c (v : cell) (c : ccol) : ccol :=
  mkCC (option_map (filter (fun x => negb (ceqb x v))) (cc_cats c)) (map (repl v CNaN) (cc_cells c)).
(** binning.py:157-162 (on each column) *)
Definition clean_c (err : exn) (dropna uf of : bool) (c : ccol) : res ccol :=
  let* c := if dropna then Ok c else fillna_c err (CStr NaNs) c in
  let c := if uf then replace_c (CStr UFs) c else c in
  Ok (if of then replace_c (CStr OFs) c else c).

(** the keys groupby uses for one column when one of the two is categorical: the declared categories, or all values that occur
    (also in records where the other column is missing) *)
Definition levels (c : ccol) : list cell :=
  match cc_cats c with Some cats => cats | None => dsort (filter (fun x => negb (isna x)) (cc_cells c)) end.
Definition categorical (c : ccol) : bool := match cc_cats c with Some _ => true | None => false end.
(** groupby([c0,c1])[c0].count().to_frame().unstack().fillna(0): with a categorical key every combination of keys becomes a group *)
Definition crosstab_c (x y : ccol) : htable :=
  let recs := combine (cc_cells x) (cc_cells y) in
  if categorical x || categorical y then
    let ok := filter complete recs in
    mkH (levels x) (levels y) (map (fun a => map (fun b => length (filter (paireqb a b) ok)) (levels y)) (levels x))
  else crosstab recs.
(** binning.py:142-168 [hist2d_from_rebinned_df] *)
Definition hist2d_c (err : exn) (dropna uf of : bool) (x y : ccol) : res htable :=
  let* x := clean_c err dropna uf of x in
  let* y := clean_c err dropna uf of y in
  Ok (crosstab_c x y).
(** phik.py:161-184 [_calc_phik] for two different columns of the cleaned frame *)
Definition table_phik (L : lib) (noise : bool) (h : htable) : res num :=
  if is01 (length (h_rows h)) || is01 (length (h_cols h)) then Ok NaN
  else let* v := phik_from_hist2d L (hmat h) noise in Ok (Fin v).
Definition calc_phik_c (L : lib) (noise : bool) (x y : ccol) : res num := table_phik L noise (crosstab_c x y).
