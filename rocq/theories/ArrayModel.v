(** Model of the array-level entry points: phik/utils.py:7-17, phik/binning.py:209-228, phik/phik.py:286-379.
    [str] is Python's str() of a cell (pandas astype(str)). *)
From Coq Require Import String ZArith List Bool Reals.
Import ListNotations.
From Verif Require Import F64 Base Cells BinModel HistModel RSum StatsModel BivModel Num PhikModel.
Open Scope list_scope.

(** an array-like argument: the element type numpy gives it (number, object, string) and its elements; [a_name] is the name
    of a pandas Series, [None] for lists and arrays *)
Inductive akind := ANum | AObj | AStr.
Record arr := mkArr { a_kind : akind; a_name : option string; a_cells : list cell }.

Section Str.
Variable str : cell -> string.
Definition tostr (c : cell) : cell := CStr (str c).

(** a number widened to float, as np.array does when integers and floats meet *)
Definition widen (c : cell) : cell := match c with CInt z => CFlt (mkK (let v := ofZ z in if kf_ok v then v else fzero)
    (match kf_ok (ofZ z) as b return (kf_ok (ofZ z) = b -> kf_ok (if b then ofZ z else fzero) = true) with true => fun e => e | false => fun _ => eq_refl end eq_refl)) | _ => c end.
Definition is_int (c : cell) : bool := match c with CInt _ => true | _ => false end.

(** utils.py:7-17 [array_like_to_dataframe]: np.array([x, y]) has one element type for both arrays: numbers stay numbers (integers
    become floats if the other array has floats or missing values), one object array makes both object (elements unchanged), otherwise
    one string array turns every element of the other one into its str().  Equal lengths (numpy would raise or build objects). *)
Definition array_like_to_dataframe (x y : arr) : frame :=
  let xn := match a_name x with Some s => s | None => "x"%string end in
  let yn := match a_name y with Some s => s | None => "y"%string end in
  match a_kind x, a_kind y with
  | ANum, ANum =>
      if forallb is_int (a_cells x ++ a_cells y) then [(xn, mkCol true (a_cells x)); (yn, mkCol true (a_cells y))]
      else [(xn, mkCol true (map widen (a_cells x))); (yn, mkCol true (map widen (a_cells y)))]
  | AObj, _ | _, AObj => [(xn, mkCol false (a_cells x)); (yn, mkCol false (a_cells y))]
  | _, _ => [(xn, mkCol false (map tostr (a_cells x))); (yn, mkCol false (map tostr (a_cells y)))]
  end.

(** binning.py:209-228 [hist2d_from_array] *)
Definition hist2d_from_array npq (x y : arr) (interval_cols : option (list string)) (bins : bins_arg) (quantile dropna uf of : bool) :=
  hist2d npq (array_like_to_dataframe x y) interval_cols bins quantile dropna uf of.

(** phik.py:356-368 (identical in significance.py:415-427): the two arrays as handed to crosstab. astype(str) of a missing value
    is the string 'nan'. *)
Definition clean_array (dropna uf of : bool) (x : list cell) : list cell :=
  let x := if dropna then x else map tostr (map (repl CNaN (CStr NaNs)) x) in
  if uf || of then
    let x := map tostr x in
    let x := if uf then map (repl (CStr UFs) CNaN) x else x in
    if of then map (repl (CStr OFs) CNaN) x else x
  else x.

(** phik.py:336-379 [phik_from_binned_array]. pd.crosstab(x, y) counts pairs like groupby: pairs with a missing value are left
    out; x and y have equal length (pandas would raise) *)
Definition phik_from_binned_array (L : lib) (x y : list cell) (noise dropna uf of : bool) : res num :=
  let h := crosstab (combine (clean_array dropna uf of x) (clean_array dropna uf of y)) in
  if negb (fst (dq_check_hist2d (length (h_rows h)) (length (h_cols h)))) then Ok NaN
  else let* v := phik_from_hist2d L (hmat h) noise in Ok (Fin v).

(** phik.py:290-333 [phik_from_array]; num_vars already a list. [x, y = bin_data(...).T.values] takes the two columns in order *)
Definition phik_from_array npq (L : lib) (x y : arr) (num_vars : list string) (bins : bins_arg) (quantile noise dropna uf of : bool) : res num :=
  match num_vars with
  | [] => phik_from_binned_array L (a_cells x) (a_cells y) noise dropna uf of
  | _ =>
      let* bd := bin_data npq (array_like_to_dataframe x y) num_vars bins quantile in
      match fst bd with
      | [(_, bx); (_, by')] => phik_from_binned_array L (c_cells bx) (c_cells by') noise dropna uf of
      | _ => Raise ValueError
      end
  end.
End Str.
