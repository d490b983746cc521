(** Model of binning.py:35-38, [bin_edges(arr, nbins, quantile=True)], in exact real arithmetic. *)
From Coq Require Import List Reals ZArith.
Import ListNotations.
Open Scope R_scope.

Fixpoint rinsert (x : R) (l : list R) : list R :=
  match l with [] => [x] | y :: l' => if Rle_dec x y then x :: l else y :: rinsert x l' end.
Definition rsort (l : list R) : list R := fold_right rinsert [] l.

(** np.linspace(0, 1, nbins + 1) (binning.py:36): exact multiples of 1/nbins *)
Definition quantile_points (nbins : nat) : list R := map (fun k => INR k / INR nbins) (seq 0 (nbins + 1)).

(** np.quantile(vals, q), method 'linear' (binning.py:37): virtual index (n-1)q, linear interpolation between
    the neighbouring order statistics *)
Definition np_quantile1 (vals : list R) (q : R) : R :=
  let a := rsort vals in
  let n1 := (length vals - 1)%nat in
  let h := INR n1 * q in
  let j := Z.to_nat (Int_part h) in
  let g := h - INR j in
  let lo := nth (Nat.min j n1) a 0 in
  let hi := nth (Nat.min (j + 1) n1) a 0 in
  lo + g * (hi - lo).

(** binning.py:35-38; [off] is 1E-14 *)
Definition quantile_edges (off : R) (vals : list R) (nbins : nat) : list R :=
  match map (np_quantile1 vals) (quantile_points nbins) with
  | [] => []
  | x0 :: xs => (x0 - off) :: xs
  end.
