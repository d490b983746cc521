(** outliers.py:244-277 (method 'poisson') for a table of numpy int64 counts, and for one of float64 counts. pandas' unstack().fillna(0)
    (binning.py:165) gives an int64 table if every pair of bins occurs and a float64 table if some cell is empty. *)
From Coq Require Import ZArith List Bool.
From Flocq Require Import BinarySingleNaN.
From Verif Require Import F64 BrentFModel Chi2FModel GlobFModel OutFModel.
Open Scope Z_scope.

(** the int64 value of an integer result: numpy wraps around silently *)
Definition wrap64 (z : Z) : Z := (z + 2 ^ 63) mod 2 ^ 64 - 2 ^ 63.

(** outliers.py:261-275, every integer operation in int64 (wrapping at the end of a sum is the same as wrapping after every addition);
    B*C is an int64 product, the division by D is the first floating-point operation *)
Definition estimate_i64 (pow2 : f64 -> f64) (t : ztab) (i j : nat) : f64 * f64 :=
  let Aobs := z_el t i j in
  let B := wrap64 (wrap64 (z_row t i) - Aobs) in
  let C := wrap64 (wrap64 (z_col t j) - Aobs) in
  let D := wrap64 (wrap64 (wrap64 (wrap64 (z_all t) - B) - C) - Aobs) in
  if 0 <? D then
    let e := fdiv (ofZ (wrap64 (B * C))) (ofZ D) in
    let s1 := pow2 (fdiv (fmult (sigma64 B) (ofZ C)) (ofZ D)) in
    let s2 := pow2 (fdiv (fmult (sigma64 C) (ofZ B)) (ofZ D)) in
    let s3 := pow2 (fdiv (fmult (sigma64 D) e) (ofZ D)) in
    (e, fsqrt (fplus (fplus s1 s2) s3))
  else (fnan, fnan).

(** the same for a float64 table (sums of counts below 2^53 are exact): B*C is a floating-point product *)
Definition estimate_flt (pow2 : f64 -> f64) (t : ztab) (i j : nat) : f64 * f64 :=
  let Aobs := z_el t i j in
  let B := z_row t i - Aobs in
  let C := z_col t j - Aobs in
  let D := z_all t - B - C - Aobs in
  if 0 <? D then
    let e := fdiv (fmult (ofZ B) (ofZ C)) (ofZ D) in
    let s1 := pow2 (fdiv (fmult (sigma64 B) (ofZ C)) (ofZ D)) in
    let s2 := pow2 (fdiv (fmult (sigma64 C) (ofZ B)) (ofZ D)) in
    let s3 := pow2 (fdiv (fmult (sigma64 D) e) (ofZ D)) in
    (e, fsqrt (fplus (fplus s1 s2) s3))
  else (fnan, fnan).
