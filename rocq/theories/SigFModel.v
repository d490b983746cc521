(** significance.py:131-151 and 182-185 in binary64 arithmetic, operation by operation. *)
From Coq Require Import ZArith List Bool.
From Flocq Require Import BinarySingleNaN.
From Verif Require Import F64 BrentFModel.
Import ListNotations.
Open Scope Z_scope.

(** scipy.stats.percentileofscore(chi2s, chi2, kind='rank'): left + right + (left < right), the counts being exact integers *)
Definition rank2 (chi2s : list f64) (chi2 : f64) : Z :=
  let left := Z.of_nat (length (filter (fun x => flt x chi2) chi2s)) in
  let right := Z.of_nat (length (filter (fun x => fle x chi2) chi2s)) in
  left + right + (if left <? right then 1 else 0).
(** scipy 1.5 to 1.8: (right + left + (1 if right > left else 0)) * 50.0/n *)
Definition percentile_old (chi2s : list f64) (chi2 : f64) : f64 :=
  fdiv (fmult (ofZ (rank2 chi2s chi2)) (ofZ 50)) (ofZ (Z.of_nat (length chi2s))).
(** scipy 1.9 and later: (left + right + plus1) * (50.0 / n) *)
Definition percentile_new (chi2s : list f64) (chi2 : f64) : f64 :=
  fmult (ofZ (rank2 chi2s chi2)) (fdiv (ofZ 50) (ofZ (Z.of_nat (length chi2s)))).
(** significance.py:148: 1. - percentile / 100. *)
Definition mc_p64 (percentile : list f64 -> f64 -> f64) (chi2 : f64) (chi2s : list f64) : f64 :=
  fminus fone (fdiv (percentile chi2s chi2) (ofZ 100)).
(** significance.py:184: f * chi2.sf(...) + (1 - f) * norm.sf(...) *)
Definition mix64 (f p q : f64) : f64 := fplus (fmult f p) (fmult (fminus fone f) q).
