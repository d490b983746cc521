(** Column labels other than distinct strings: whole numbers (the default labels of pandas) and repeated labels.
    data_quality.py:24-90, binning.py:78-139, phik.py:103-223 with the label handling made explicit. *)
From Coq Require Import String ZArith List Bool Reals.
From Verif Require Import F64 Base Cells BinModel HistModel RSum StatsModel BivModel Num PhikModel.
Import ListNotations.
Open Scope list_scope.

Inductive label := LInt (z : Z) | LStr (s : string).
Definition label_eqb (a b : label) : bool :=
  match a, b with LInt x, LInt y => Z.eqb x y | LStr x, LStr y => String.eqb x y | _, _ => false end.
Definition lframe := list (label * col).
Definition labels {B} (f : list (label * B)) : list label := map fst f.
Definition lmem (a : label) (l : list label) : bool := existsb (label_eqb a) l.
Definition is_lint (a : label) : bool := match a with LInt _ => true | _ => false end.
Definition is_lstr (a : label) : bool := negb (is_lint a).

(** the distinct elements of a list of labels (set(...)), in the order of their first occurrence *)
Fixpoint distinct (l : list label) : list label :=
  match l with [] => [] | a :: l' => a :: filter (fun b => negb (label_eqb a b)) (distinct l') end.
(** a < b; a number and a string cannot be compared *)
Definition lless (a b : label) : bool :=
  match a, b with LInt x, LInt y => (x <? y)%Z | LStr x, LStr y => match scmp x y with Lt => true | _ => false end | _, _ => false end.
Fixpoint linsert (a : label) (l : list label) : list label :=
  match l with [] => [a] | b :: l' => if lless b a then b :: linsert a l' else a :: l end.
(** sorted(list(set(...))): TypeError as soon as a number has to be compared with a string, which every sorting algorithm must do
    somewhere if both occur *)
Definition lsorted (l : list label) : res (list label) :=
  if existsb is_lint l && existsb is_lstr l then Raise TypeError else Ok (fold_right linsert [] (distinct l)).

(** df[col].nunique() used as a condition: with several columns of that label it is a Series and bool() raises ValueError *)
Definition col_nunique (f : lframe) (a : label) : res nat :=
  match filter (fun p => label_eqb a (fst p)) f with
  | [(_, c)] => Ok (nunique c)
  | _ => Raise ValueError
  end.
(** '{0:s}'.format(col): ValueError for a number *)
Definition fmt_s (a : label) : res string := match a with LStr s => Ok s | LInt _ => Raise ValueError end.
Inductive dqwarning := WMany (s : string) (n : nat) | WFew (s : string) (n : nat).

(** data_quality.py:52-58: the warning about many values *)
Fixpoint many_loop (f : lframe) (l : list label) : res (list dqwarning) :=
  match l with
  | [] => Ok []
  | a :: l' =>
      let* n := col_nunique f a in
      let* w := (if Nat.ltb 1000 n then let* s := fmt_s a in Ok [WMany s n] else Ok []) in
      let* ws := many_loop f l' in Ok (w ++ ws)
  end.
(** data_quality.py:62-80: the two loops that collect the columns to be dropped; [bad] is the condition on the number of values *)
Fixpoint few_loop (f : lframe) (bad : nat -> bool) (l : list label) : res (list label * list dqwarning) :=
  match l with
  | [] => Ok ([], [])
  | a :: l' =>
      let* n := col_nunique f a in
      let* w := (if bad n then let* s := fmt_s a in Ok ([a], [WFew s n]) else Ok ([], [])) in
      let* r := few_loop f bad l' in Ok (fst w ++ fst r, snd w ++ snd r)
  end.
(** data_quality.py:24-90 [dq_check_nunique_values] *)
Definition dq_check_l (f : lframe) (interval_cols : list label) (dropna : bool) : res (lframe * list label * list dqwarning) :=
  let ic := filter (fun c => lmem c (labels f)) interval_cols in
  let* others := lsorted (filter (fun c => negb (lmem c ic)) (labels f)) in
  let* w1 := many_loop f others in
  let* d1 := few_loop f (fun n => Nat.ltb n 2) ic in
  let* d2 := few_loop f (fun n => Nat.eqb n 0 || (Nat.eqb n 1 && dropna)) others in
  let drop := fst d1 ++ fst d2 in
  Ok (match drop with
      | [] => (f, ic)
      | _ => (filter (fun p => negb (lmem (fst p) drop)) f, filter (fun c => negb (lmem c drop)) ic)
      end, w1 ++ snd d1 ++ snd d2).

(** binning.py:103-114, as bin_cols with labels; only reached with distinct labels *)
Fixpoint lassoc {B} (k : label) (l : list (label * B)) : option B :=
  match l with [] => None | (k', b) :: l' => if label_eqb k k' then Some b else lassoc k l' end.
Fixpoint lset {B} (k : label) (b : B) (l : list (label * B)) : list (label * B) :=
  match l with [] => [] | (k', b') :: l' => if label_eqb k k' then (k', b) :: l' else (k', b') :: lset k b l' end.
Inductive lbins := LOne (b : bspec) | LDict (d : list (label * bspec)).
Section Bin.
Variable npq : list f64 -> Z -> list f64.
Fixpoint bin_cols_l (data : lframe) (cols : list label) (bins : lbins) (quantile : bool) (xbins : option (list f64)) (acc : lframe) : res lframe :=
  match cols with
  | [] => Ok acc
  | c :: cols' =>
      match lassoc c data with
      | None => Raise KeyError
      | Some column =>
          let* arr := mapM to_float (c_cells column) in
          let* xb :=
            match bins with
            | LOne (BNum n) => rmap Some (bin_edges npq arr n quantile)
            | LOne _ => Ok xbins
            | LDict d =>
                match lassoc c d with
                | Some (BNum n) => rmap Some (bin_edges npq arr n quantile)
                | Some (BEdges l) => Ok (Some l)
                | Some BOther => Ok xbins
                | None => Raise KeyError
                end
            end in
          match xb with
          | None => Raise UnboundLocalError
          | Some edges => bin_cols_l data cols' bins quantile xb (lset c (mkCol false (fst (bin_array arr edges))) acc)
          end
      end
  end.
(** binning.py:78-119 [bin_data] (without the returned dictionary) *)
Definition bin_data_l (data : lframe) (cols : list label) (bins : lbins) (quantile : bool) : res lframe :=
  match bins with
  | LDict d => if forallb (fun c => lmem c (labels d)) cols then bin_cols_l data cols bins quantile None data else Raise ValueError
  | LOne (BEdges l) => bin_cols_l data cols bins quantile (Some l) data
  | LOne _ => bin_cols_l data cols bins quantile None data
  end.

(** phik.py:161-184 [_calc_phik] on data_binned[[c0, c1]]: a repeated label makes groupby raise ValueError (grouper not 1-dimensional) *)
Definition calc_phik_l (L : lib) (noise : bool) (f : lframe) (c0 c1 : label) : res (label * label * num) :=
  if label_eqb c0 c1 then Ok (c0, c1, Fin 1)
  else match filter (fun p => label_eqb c0 (fst p)) f, filter (fun p => label_eqb c1 (fst p)) f with
       | [(_, x)], [(_, y)] =>
           let h := crosstab (combine (c_cells x) (c_cells y)) in
           if is01 (length (h_rows h)) || is01 (length (h_cols h)) then Ok (c0, c1, NaN)
           else let* v := phik_from_hist2d L (hmat h) noise in Ok (c0, c1, Fin v)
       | _, _ => Raise ValueError
       end.
(** binning.py:122-139 and the two reindex calls of phik.py:155-156: the entry at (a, b) is the mean of the values given for that pair that
    are not NaN. (pivot_table sorts its labels, numbers before strings, without raising; reindex undoes the order and repeats repeated labels.) *)
Definition lgroup (rows : list (label * label * num)) (a b : label) : list num :=
  map snd (filter (fun r => label_eqb (fst (fst r)) a && label_eqb (snd (fst r)) b && negb (isnan (snd r))) rows).
Definition lentry (vals : list (label * label * num)) (a b : label) : num :=
  nmean (lgroup (flat_map (fun v => let '(a, b, x) := v in [(a, b, x); (b, a, x)]) vals) a b).
Record ltable := mkLT { lt_index : list label; lt_columns : list label; lt_cells : list (list num) }.
Definition lclean (dropna uf of : bool) (f : lframe) : lframe :=
  map (fun p => (fst p, mkCol (c_num (snd p)) (map (clean1 dropna uf of) (c_cells (snd p))))) f.
(** phik.py:103-158 [phik_from_rebinned_df] *)
Definition phik_rebinned_l (L : lib) (f : lframe) (noise dropna uf of : bool) : res ltable :=
  let f' := lclean dropna uf of f in
  let order := labels f' in
  let* vals := mapM (fun pq => calc_phik_l L noise f' (fst pq) (snd pq)) (combos order) in
  Ok (mkLT order order (map (fun a => map (fun b => lentry vals a b) order) order)).
(** phik.py:187-223 [phik_matrix] *)
Definition guess_l (f : lframe) : list label := labels (filter (fun p => c_num (snd p)) f).
Definition phik_matrix_l (L : lib) (f : lframe) (interval_cols : option (list label)) (bins : lbins) (quantile noise dropna uf of : bool)
    : res (ltable * list dqwarning) :=
  let ic := match interval_cols with Some l => l | None => guess_l f end in
  let* d := dq_check_l f ic dropna in
  let* b := bin_data_l (fst (fst d)) (snd (fst d)) bins quantile in
  let* t := phik_rebinned_l L b noise dropna uf of in Ok (t, snd d).
End Bin.
