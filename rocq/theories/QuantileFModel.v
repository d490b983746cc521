(** np.quantile(values, np.linspace(0, 1, nbins + 1)) as called by phik/binning.py:36-37, in binary64 arithmetic, operation by operation
    (numpy/lib/function_base.py, method 'linear'). [np_quantile64] is numpy >= 1.20 (the interpolation _lerp; 1.22 rewrote the index
    computation without changing its results), [np_quantile_old] is numpy 1.18 and 1.19, which setup.py:57 allows as well. *)
From Coq Require Import ZArith List Bool.
From Flocq Require Import BinarySingleNaN.
From Verif Require Import F64 Base BinModel BrentFModel Chi2FModel.
Import ListNotations.
Open Scope Z_scope.

(** the array after arr.partition(...), as far as it is read: its order statistics *)
Fixpoint finsert (x : f64) (l : list f64) : list f64 :=
  match l with [] => [x] | y :: l' => if fle x y then x :: l else y :: finsert x l' end.
Definition fsort (l : list f64) : list f64 := fold_right finsert [] l.
(** _lerp(a, b, t): add(a, diff*t), overwritten by subtract(b, diff*(1-t)) where t >= 0.5 *)
Definition lerp64 (a b t : f64) : f64 :=
  let diff := fminus b a in
  if fle fhalf t then fminus b (fmult diff (fminus fone t)) else fplus a (fmult diff t).
(** _get_indexes, _get_gamma: virtual index (n-1)*q; floor; both neighbours are the last element (index -1) from n-1 on *)
Definition quantile1_64 (a : list f64) (q : f64) : f64 :=
  let n1 := Z.of_nat (length a) - 1 in
  let h := fmult (ofZ n1) q in
  let at_ k := nth (Z.to_nat k) a fnan in
  if fle (ofZ n1) h then lerp64 (at_ n1) (at_ n1) (fminus h (ofZ (-1)))
  else let j := Btrunc h in lerp64 (at_ j) (at_ (j + 1)) (fminus h (ofZ j)).
(** numpy 1.18, 1.19: x1 * (1 - w) + x2 * w *)
Definition quantile1_old (a : list f64) (q : f64) : f64 :=
  let n1 := Z.of_nat (length a) - 1 in
  let h := fmult q (ofZ n1) in
  let at_ k := nth (Z.to_nat k) a fnan in
  let j := Btrunc h in
  let w := fminus h (ofZ j) in
  fplus (fmult (at_ j) (fminus fone w)) (fmult (at_ (Z.min (j + 1) n1)) w).
(** binning.py:36-37; no values, or no points, give no quantiles (numpy raises IndexError, as binning.py:38 would) *)
Definition quantiles_with (quantile1 : list f64 -> f64 -> f64) (vals : list f64) (nbins : Z) : list f64 :=
  match vals, linspace fzero fone (nbins + 1) with
  | [], _ => []
  | _, Raise _ => []
  | _, Ok q => map (quantile1 (fsort vals)) q
  end.
Definition np_quantile64 : list f64 -> Z -> list f64 := quantiles_with quantile1_64.
Definition np_quantile_old : list f64 -> Z -> list f64 := quantiles_with quantile1_old.
