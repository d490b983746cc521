(** Model of phik/phik.py and of the overview table (phik/binning.py:122-139). *)
From Coq Require Import String ZArith List Bool Reals.
Import ListNotations.
From Verif Require Import F64 Base Cells BinModel HistModel RSum StatsModel SpecSolver BivModel Num.
Open Scope list_scope.

(** The numerical library: which continuity correction scipy applies, the bivariate normal integral, the root finder *)
Record lib := mkLib { l_clamp : bool; l_mvn : mvn_fun; l_bq : root_finder }.

(** phik.py:76-100 [phik_from_hist2d]; pedestal < 0 cannot happen (estimate_simple_ndof is never negative) but the
    test is kept *)
Definition phik_from_hist2d (L : lib) (m : mat) (noise_correction : bool) : res R :=
  let* chi2 := get_chi2 (l_clamp L) m Pearson in
  let endof := if noise_correction then estimate_simple_ndof m else 0%Z in
  let pedestal := if (endof <? 0)%Z then 0%R else IZR endof in
  phik_from_chi2 (l_mvn L) (l_bq L) chi2 (matsum m) (Z.of_nat (nr m)) (Z.of_nat (nc m)) None None pedestal.

(** datahist.values: the counts of a contingency table as a matrix *)
Definition hmat (h : htable) : mat :=
  mkMat (length (h_rows h)) (length (h_cols h)) (fun i j => INR (nth j (nth i (h_cnt h) []) 0%nat)).

Definition is01 (n : nat) : bool := Nat.eqb n 0 || Nat.eqb n 1.

(** phik.py:161-184 [_calc_phik]: (c0, c1, value) *)
Definition calc_phik (L : lib) (noise : bool) (p q : string * col) : res (string * string * num) :=
  let '(c0, x) := p in let '(c1, y) := q in
  if String.eqb c0 c1 then Ok (c0, c1, Fin 1)
  else
    let h := crosstab (combine (c_cells x) (c_cells y)) in
    if is01 (length (h_rows h)) || is01 (length (h_cols h)) then Ok (c0, c1, NaN)
    else let* v := phik_from_hist2d L (hmat h) noise in Ok (c0, c1, Fin v).

(** itertools.combinations_with_replacement(l, 2) *)
Fixpoint combos {A} (l : list A) : list (A * A) :=
  match l with [] => [] | a :: l' => map (fun b => (a, b)) (a :: l') ++ combos l' end.

(** sorted list of the distinct strings *)
Fixpoint insert_s (x : string) (l : list string) : list string :=
  match l with
  | [] => [x]
  | y :: l' => match scmp x y with Lt => x :: l | Eq => l | Gt => y :: insert_s x l' end
  end.
Definition sort_s (l : list string) : list string := fold_right insert_s [] l.

(** a DataFrame of numbers with labels *)
Record ntable := mkT { t_index : list string; t_columns : list string; t_cells : list (list num) }.

(** binning.py:130-133: the rows of the long table *)
Definition long_rows (vals : list (string * string * num)) : list (string * string * num) :=
  flat_map (fun v => let '(a, b, x) := v in [(a, b, x); (b, a, x)]) vals.
(** the values of the group (a, b) that are not NaN *)
Definition group (rows : list (string * string * num)) (a b : string) : list num :=
  map snd (filter (fun r => String.eqb (fst (fst r)) a && String.eqb (snd (fst r)) b && negb (isnan (snd r))) rows).
(** mean, skipping NaN; NaN if nothing is left *)
Definition nmean (l : list num) : num :=
  match l with [] => NaN | x :: l' => ndivp (fold_left nadd l' x) (INR (length l)) end.
(** binning.py:122-139 [create_correlation_overview_table]: pivot_table(aggfunc='mean', dropna=True) drops the groups
    whose mean is NaN and spreads the rest over sorted labels *)
Definition overview (vals : list (string * string * num)) : ntable :=
  let rows := long_rows vals in
  let ok := filter (fun r => negb (isnan (nmean (group rows (fst (fst r)) (snd (fst r)))))) rows in
  let li := sort_s (map (fun r => fst (fst r)) ok) in
  let lc := sort_s (map (fun r => snd (fst r)) ok) in
  mkT li lc (map (fun a => map (fun b => nmean (group rows a b)) lc) li).

(** value at a pair of labels; a label that does not occur gives NaN, as after reindex *)
Fixpoint pos (s : string) (l : list string) : option nat :=
  match l with [] => None | a :: l' => if String.eqb s a then Some 0%nat else option_map S (pos s l') end.
Definition tval (t : ntable) (a b : string) : num :=
  match pos a (t_index t), pos b (t_columns t) with
  | Some i, Some j => nth j (nth i (t_cells t) []) NaN
  | _, _ => NaN
  end.
(** DataFrame.reindex(columns=order) followed by reindex(index=order) *)
Definition reindex (t : ntable) (order : list string) : ntable :=
  mkT order order (map (fun a => map (fun b => tval t a b) order) order).

(** phik.py:103-158 [phik_from_rebinned_df], sequential branch (the parallel branch returns the same list: joblib keeps
    the order of the tasks). Returns the matrix and the frame as it is left behind. *)
Definition phik_from_rebinned_df (L : lib) (f : frame) (noise dropna uf of : bool) : res ntable * frame :=
  let f' := clean dropna uf of f in
  let order := keys f' in
  (let* vals := mapM (fun pq => calc_phik L noise (fst pq) (snd pq)) (combos f') in
   Ok (match vals with
       | [] => mkT order order (map (fun _ => map (fun _ => NaN) order) order)
       | _ => reindex (overview vals) order
       end), f').

Section Npq.
Variable npq : list f64 -> Z -> list f64.
(** phik.py:187-223 [phik_matrix] *)
Definition phik_matrix (L : lib) (df : frame) (interval_cols : option (list string)) (bins : bins_arg)
    (quantile noise dropna uf of : bool) : res ntable :=
  let ic := match interval_cols with Some l => l | None => guess_interval_cols df end in
  let '(clean_df, ic') := dq_check_nunique_values df ic dropna in
  let* bd := bin_data npq clean_df ic' bins quantile in
  fst (phik_from_rebinned_df L (fst bd) noise dropna uf of).
End Npq.
