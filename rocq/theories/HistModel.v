(** Model of the contingency table code: phik/binning.py:142-228, phik/utils.py:20-33, phik/data_quality.py. *)
From Coq Require Import String ZArith List Bool Sorting.Permutation.
Import ListNotations.
From Verif Require Import F64 Base Cells BinModel.
Open Scope list_scope.

Definition isna (c : cell) : bool := ceqb c CNaN.

(** DataFrame.replace(a, b, inplace=True) on one cell; [fillna(v)] is [repl CNaN v] *)
Definition repl (a b : cell) (c : cell) : cell := if ceqb c a then b else c.

(** binning.py:157-162 (identical in phik.py:125-132, significance.py:264-269): the in-place replacements, on one cell *)
Definition clean1 (dropna uf of : bool) (c : cell) : cell :=
  let c := if dropna then c else repl CNaN (CStr NaNs) c in
  let c := if uf then repl (CStr UFs) CNaN c else c in
  if of then repl (CStr OFs) CNaN c else c.
(** ... and on the whole frame *)
Definition clean (dropna uf of : bool) (f : frame) : frame :=
  map (fun p => (fst p, mkCol (c_num (snd p)) (map (clean1 dropna uf of) (c_cells (snd p))))) f.

(** a contingency table: row labels, column labels, counts *)
Record htable := mkH { h_rows : list cell; h_cols : list cell; h_cnt : list (list nat) }.

Definition complete (r : cell * cell) : bool := negb (isna (fst r)) && negb (isna (snd r)).
Definition paireqb (a b : cell) (r : cell * cell) : bool := ceqb (fst r) a && ceqb (snd r) b.

(** binning.py:165-166 (also phik.py:173-180): groupby([c0,c1])[c0].count().to_frame().unstack().fillna(0).
    groupby drops records with a missing key and sorts the keys; count counts the records of a group.
    No categorical dtype (which would add unobserved groups); no records gives shape (0,0). *)
Definition crosstab (recs : list (cell * cell)) : htable :=
  let ok := filter complete recs in
  let rows := dsort (map fst ok) in
  let cols := dsort (map snd ok) in
  mkH rows cols (map (fun a => map (fun b => length (filter (paireqb a b) ok)) cols) rows).

(** binning.py:142-168 [hist2d_from_rebinned_df]; returns the table and the frame as it is left behind *)
Definition hist2d_from_rebinned_df (f : frame) (dropna uf of : bool) : res htable * frame :=
  match f with
  | [_; _] =>
      let f' := clean dropna uf of f in
      match f' with
      | [(_, x); (_, y)] => (Ok (crosstab (combine (c_cells x) (c_cells y))), f')
      | _ => (Raise ValueError, f')
      end
  | _ => (Raise ValueError, f)
  end.

(** utils.py:20-33 [guess_interval_cols] *)
Definition guess_interval_cols (f : frame) : list string := map fst (filter (fun p => c_num (snd p)) f).

(** binning.py:171-206 [hist2d] (retbins=True form) *)
Definition hist2d npq (df : frame) (interval_cols : option (list string)) (bins : bins_arg) (quantile dropna uf of : bool)
    : res (htable * list (string * list (f64 * f64))) :=
  if negb (Nat.eqb (length df) 2) then Raise ValueError
  else
    let ic := match interval_cols with Some l => l | None => guess_interval_cols df end in
    let* bd := bin_data npq df ic bins quantile in
    let* h := fst (hist2d_from_rebinned_df (fst bd) dropna uf of) in
    Ok (h, snd bd).

(** Series.nunique() *)
Definition nunique (c : col) : nat := length (dsort (filter (fun x => negb (isna x)) (c_cells c))).

(** data_quality.py:24-90 [dq_check_nunique_values] (warnings omitted; the order in which non-interval columns are visited
    only affects the warnings) *)
Definition dq_check_nunique_values (df : frame) (interval_cols : list string) (dropna : bool) : frame * list string :=
  let ic := filter (fun c => mem c (keys df)) interval_cols in
  let nu c := match assoc c df with Some x => nunique x | None => 0%nat end in
  let drop1 := filter (fun c => Nat.ltb (nu c) 2) ic in
  let others := filter (fun c => negb (mem c ic)) (keys df) in
  let drop2 := filter (fun c => Nat.eqb (nu c) 0 || (Nat.eqb (nu c) 1 && dropna)) others in
  let drop := drop1 ++ drop2 in
  match drop with
  | [] => (df, ic)
  | _ => (filter (fun p => negb (mem (fst p) drop)) df, filter (fun c => negb (mem c drop)) ic)
  end.

(** data_quality.py:93-124 [dq_check_hist2d] *)
Inductive warning := WTooFew (x y : nat) | WLargeX (n : nat) | WLargeY (n : nat).
Definition dq_check_hist2d (nr nc : nat) : bool * list warning :=
  if (Nat.eqb nr 0 || Nat.eqb nc 0) || (Nat.eqb nr 1 || Nat.eqb nc 1) then (false, [WTooFew nr nc])
  else (true, (if Nat.ltb 1000 nr then [WLargeX nr] else []) ++ (if Nat.ltb 1000 nc then [WLargeY nr] else [])).
