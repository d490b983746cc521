(** outliers.py:244-277 (method 'poisson'), 60-66 and 169-174 in binary64 arithmetic, operation by operation. *)
From Coq Require Import ZArith List Bool.
From Flocq Require Import BinarySingleNaN.
From Verif Require Import F64 BrentFModel Chi2FModel GlobFModel.
Import ListNotations.
Open Scope Z_scope.

(** the table of counts; numpy's int64 or float64 sums of counts are exact while the total stays below 2^53 *)
Record ztab := mkZtab { z_nr : nat; z_nc : nat; z_el : nat -> nat -> Z }.
Definition zsum (f : nat -> Z) (n : nat) : Z := fold_right (fun i s => f i + s) 0 (seq 0 n).
Definition z_row (t : ztab) (i : nat) : Z := zsum (fun j => z_el t i j) (z_nc t).
Definition z_col (t : ztab) (j : nat) : Z := zsum (fun i => z_el t i j) (z_nr t).
Definition z_all (t : ztab) : Z := zsum (fun i => z_row t i) (z_nr t).

(** outliers.py:304-312 *)
Definition sigma64 (x : Z) : f64 := if 1 <=? x then fsqrt (ofZ x) else fone.
(** outliers.py:261-275; [pow2] is C's pow(x, 2) *)
Definition estimate64 (pow2 : f64 -> f64) (t : ztab) (i j : nat) : f64 * f64 :=
  let Aobs := z_el t i j in
  let B := z_row t i - Aobs in
  let C := z_col t j - Aobs in
  let D := z_all t - B - C - Aobs in
  if 0 <? D then
    let e := fdiv (ofZ (B * C)) (ofZ D) in
    let s1 := pow2 (fdiv (fmult (sigma64 B) (ofZ C)) (ofZ D)) in
    let s2 := pow2 (fdiv (fmult (sigma64 C) (ofZ B)) (ofZ D)) in
    let s3 := pow2 (fdiv (fmult (sigma64 D) e) (ofZ D)) in
    (e, fsqrt (fplus (fplus s1 s2) s3))
  else (fnan, fnan).
(** outliers.py:60-64: nexpalt, tau, b, x *)
Definition linnemann64 (nexp nexperr : f64) : f64 * f64 :=
  let nexpalt := if flt fzero nexp then nexp else nexperr in
  let tau := fdiv nexpalt (fmult nexperr nexperr) in
  (fplus (fmult nexpalt tau) fone, fdiv fone (fplus fone tau)).
(** outliers.py:169-174: mid_p = 0.5*(p - pplus1); p -= mid_p *)
Definition mid_p64 (p pplus1 : f64) : f64 := fminus p (fmult fhalf (fminus p pplus1)).
