(** Model of phik/binning.py: bin_edges, bin_array, bin_data.  Bit-exact binary64. *)
From Coq Require Import String ZArith List Bool.
Import ListNotations.
From Verif Require Import F64 Base Cells.
Open Scope Z_scope.
Open Scope list_scope.

(** phik/definitions.py:16-19 *)
Definition UFs : string := "UF"%string.
Definition OFs : string := "OF"%string.
Definition NaNs : string := "NaN"%string.

(** a column: dtype is numeric (np.number) or not, and its cells *)
Record col := mkCol { c_num : bool; c_cells : list cell }.
(** a DataFrame: named columns, in order *)
Definition frame := list (string * col).

(** 1E-14 *)
Definition tiny : f64 := flit 6338253001141147 (-99).

(** np.min / np.max of a float Series; NaN for an empty one (pandas) *)
Definition fmin2 (a b : f64) : f64 := if flt b a then b else a.
Definition fmax2 (a b : f64) : f64 := if flt a b then b else a.
Definition fminl (l : list f64) : f64 := match l with [] => fnan | a :: l' => fold_left fmin2 l' a end.
Definition fmaxl (l : list f64) : f64 := match l with [] => fnan | a :: l' => fold_left fmax2 l' a end.

Fixpoint set_last {A} (l : list A) (a : A) : list A :=
  match l with [] => [] | [_] => [a] | b :: l' => b :: set_last l' a end.

(** numpy.linspace(start, stop, num) (numpy/core/function_base.py, endpoint=True, dtype float64) *)
Definition linspace (start stop : f64) (num : Z) : res (list f64) :=
  if num <? 0 then Raise ValueError
  else
    let div := num - 1 in
    let delta := fminus stop start in
    let step := fdiv delta (ofZ div) in
    let scaled i :=
      if 0 <? div
      then if feqb step fzero then fmult (fdiv (ofZ i) (ofZ div)) delta else fmult (ofZ i) step
      else fmult (ofZ i) delta in
    let y := map (fun i => fplus (scaled (Z.of_nat i)) start) (seq 0 (Z.to_nat num)) in
    Ok (if 1 <? num then set_last y stop else y).

(** numpy's order on floats for sorting/searching: NaN is larger than every number *)
Definition npless (a b : f64) : bool := flt a b || (fisnan b && negb (fisnan a)).

(** numpy.searchsorted(edges, v), side='left': bisection on [lo, hi) *)
Fixpoint bisect (fuel : nat) (edges : list f64) (v : f64) (lo hi : nat) : nat :=
  match fuel with
  | O => lo
  | S fuel' =>
      if Nat.ltb lo hi then
        let mid := (lo + Nat.div2 (hi - lo))%nat in
        if npless (nth mid edges fnan) v then bisect fuel' edges v (S mid) hi
        else bisect fuel' edges v lo mid
      else lo
  end.
Definition searchsorted (edges : list f64) (v : f64) : nat :=
  bisect (S (length edges)) edges v 0 (length edges).

(** binning.py:45-75 [bin_array] *)
Definition bin_array (arr edges : list f64) : list cell * list (f64 * f64) :=
  let idx := map (searchsorted edges) arr in
  let labels := map (fun i => (nth (i - 1) edges fnan, nth i edges fnan))
                    (filter (fun i => existsb (Nat.eqb i) idx) (seq 1 (length edges - 1))) in
  let b0 := map (fun i => CInt (Z.of_nat i)) idx in
  let b1 := map (fun p => if fisnan (fst p) then CNaN else snd p) (combine arr b0) in
  let b2 := map (fun c => if ceqb c (CInt 0) then CStr UFs else c) b1 in
  let b3 := map (fun c => if ceqb c (CInt (Z.of_nat (length edges))) then CStr OFs else c) b2 in
  (b3, labels).

(** Series.astype(float) on one cell; a string cell makes it fail (numeric-looking strings are not modelled) *)
Definition to_float (c : cell) : res f64 :=
  match c with CNaN => Ok fnan | CInt z => Ok (ofZ z) | CFlt k => Ok (kval k) | CStr _ => Raise ValueError end.

(** one entry of the bins argument: a number (int(bins)), a list/ndarray of edges, or anything else *)
Inductive bspec := BNum (n : Z) | BEdges (l : list f64) | BOther.
(** the bins argument *)
Inductive bins_arg := BOne (b : bspec) | BDict (d : list (string * bspec)).

Section Bin.
(** np.quantile(values, np.linspace(0, 1, nbins+1)) *)
Variable np_quantile : list f64 -> Z -> list f64.

(** binning.py:25-42 [bin_edges] (called with a float Series) *)
Definition bin_edges (arr : list f64) (nbins : Z) (quantile : bool) : res (list f64) :=
  let vals := filter (fun v => negb (fisnan v)) arr in
  if quantile then
    match np_quantile vals nbins with
    | [] => Raise IndexError
    | x0 :: xs => Ok (fminus x0 tiny :: xs)
    end
  else linspace (fminus (fminl vals) tiny) (fmaxl vals) (nbins + 1).

(** binning.py:103-114: the loop of [bin_data] over cols. [xbins] is the Python local variable, [None] while unbound *)
Fixpoint bin_cols (data : frame) (cols : list string) (bins : bins_arg) (quantile : bool)
    (xbins : option (list f64)) (acc : frame) (dict : list (string * list (f64 * f64)))
    : res (frame * list (string * list (f64 * f64))) :=
  match cols with
  | [] => Ok (acc, dict)
  | c :: cols' =>
      match assoc c data with
      | None => Raise KeyError
      | Some column =>
          let* arr := mapM to_float (c_cells column) in
          let* xb :=
            match bins with
            | BOne (BNum n) => rmap Some (bin_edges arr n quantile)
            | BOne _ => Ok xbins
            | BDict d =>
                match assoc c d with
                | Some (BNum n) => rmap Some (bin_edges arr n quantile)
                | Some (BEdges l) => Ok (Some l)
                | Some BOther => Ok xbins
                | None => Raise KeyError
                end
            end in
          match xb with
          | None => Raise UnboundLocalError
          | Some edges =>
              let (b, labels) := bin_array arr edges in
              bin_cols data cols' bins quantile xb (set_assoc c (mkCol false b) acc) (dict_set c labels dict)
          end
      end
  end.

(** binning.py:78-119 [bin_data] with retbins=True *)
Definition bin_data (data : frame) (cols : list string) (bins : bins_arg) (quantile : bool)
    : res (frame * list (string * list (f64 * f64))) :=
  match bins with
  | BDict d =>
      if forallb (fun c => mem c (keys d)) cols
      then bin_cols data cols bins quantile None data []
      else Raise ValueError
  | BOne (BEdges l) => bin_cols data cols bins quantile (Some l) data []
  | BOne _ => bin_cols data cols bins quantile None data []
  end.
End Bin.
