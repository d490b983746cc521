(** numpy.searchsorted as numpy computes it for a whole array of keys (numpy/core/src/npysort/binsearch.cpp, side='left'), and
    binning.py:45-119 (bin_array, bin_data) on top of it.  BinModel.v bisects for each value separately; numpy starts the search for a
    value from where the search for the previous value ended. *)
From Coq Require Import String ZArith List Bool.
From Verif Require Import F64 Base Cells BinModel.
Import ListNotations.
Open Scope Z_scope.
Open Scope list_scope.

(** the loop over the keys: [last] is the previous key, [r] the index found for it.
    if (less(last_key, key)) max_idx = arr_len; else { min_idx = 0; max_idx = (max_idx < arr_len) ? max_idx + 1 : arr_len; } *)
Fixpoint search_from (edges : list f64) (last : f64) (r : nat) (keys : list f64) : list nat :=
  match keys with
  | [] => []
  | k :: keys' =>
      let n := length edges in
      let lo := if npless last k then r else 0%nat in
      let hi := if npless last k then n else if Nat.ltb r n then S r else n in
      let i := bisect (S n) edges k lo hi in
      i :: search_from edges k i keys'
  end.
(** min_idx = 0; max_idx = arr_len; last_key = the first key *)
Definition np_searchsorted (edges keys : list f64) : list nat :=
  match keys with [] => [] | k :: _ => search_from edges k (length edges) keys end.

(** binning.py:45-75 [bin_array] *)
Definition bin_array_np (arr edges : list f64) : list cell * list (f64 * f64) :=
  let idx := np_searchsorted edges arr in
  let labels := map (fun i => (nth (i - 1) edges fnan, nth i edges fnan))
                    (filter (fun i => existsb (Nat.eqb i) idx) (seq 1 (length edges - 1))) in
  let b0 := map (fun i => CInt (Z.of_nat i)) idx in
  let b1 := map (fun p => if fisnan (fst p) then CNaN else snd p) (combine arr b0) in
  let b2 := map (fun c => if ceqb c (CInt 0) then CStr UFs else c) b1 in
  let b3 := map (fun c => if ceqb c (CInt (Z.of_nat (length edges))) then CStr OFs else c) b2 in
  (b3, labels).

Section Bin.
Variable np_quantile : list f64 -> Z -> list f64.
(** binning.py:103-114: the loop of [bin_data], as BinModel.bin_cols *)
Fixpoint bin_cols_np (data : frame) (cols : list string) (bins : bins_arg) (quantile : bool)
    (xbins : option (list f64)) (acc : frame) (dict : list (string * list (f64 * f64)))
    : res (frame * list (string * list (f64 * f64))) :=
  match cols with
  | [] => Ok (acc, dict)
  | c :: cols' =>
      match assoc c data with
      | None => Raise KeyError
      | Some column =>
          let* arr := mapM to_float (c_cells column) in
          let* xb :=
            match bins with
            | BOne (BNum n) => rmap Some (bin_edges np_quantile arr n quantile)
            | BOne _ => Ok xbins
            | BDict d =>
                match assoc c d with
                | Some (BNum n) => rmap Some (bin_edges np_quantile arr n quantile)
                | Some (BEdges l) => Ok (Some l)
                | Some BOther => Ok xbins
                | None => Raise KeyError
                end
            end in
          match xb with
          | None => Raise UnboundLocalError
          | Some edges =>
              let (b, labels) := bin_array_np arr edges in
              bin_cols_np data cols' bins quantile xb (set_assoc c (mkCol false b) acc) (dict_set c labels dict)
          end
      end
  end.
(** binning.py:78-119 [bin_data] with retbins=True *)
Definition bin_data_np (data : frame) (cols : list string) (bins : bins_arg) (quantile : bool)
    : res (frame * list (string * list (f64 * f64))) :=
  match bins with
  | BDict d =>
      if forallb (fun c => mem c (keys d)) cols
      then bin_cols_np data cols bins quantile None data []
      else Raise ValueError
  | BOne (BEdges l) => bin_cols_np data cols bins quantile (Some l) data []
  | BOne _ => bin_cols_np data cols bins quantile None data []
  end.
End Bin.
