(** phik/statistics.py:36-57 and 74-91, and phik/phik.py:76-101 [phik_from_hist2d] in binary64 arithmetic, operation by operation, for a
    table of float64 cells. scipy.stats.chi2_contingency, expected_freq and power_divergence (lambda_='pearson') are written out as in
    scipy >= 1.7. numpy's sums are a parameter: one function per call site, since the order of the additions depends on the memory layout. *)
From Coq Require Import ZArith Bool List.
From Flocq Require Import BinarySingleNaN.
From Verif Require Import F64 Base StatsModel BrentFModel.
Import ListNotations.

Record fmat := mkF { fr : nat; fc : nat; fe : nat -> nat -> f64 }.
Definition fcells (m : fmat) : list (nat * nat) := list_prod (idx (fr m)) (idx (fc m)).
(** values[rows], then the columns (statistics.py:50-52) *)
Definition fsub (m : fmat) (I J : list nat) : fmat := mkF (length I) (length J) (fun i j => fe m (nth i I 0%nat) (nth j J 0%nat)).

(** where numpy adds up: margins, total, the terms of the statistic, the two sums compared by power_divergence *)
Inductive site := SRow | SCol | STotal | STerms | SObs | SExp.
Section Sums.
Variable add_up : site -> list f64 -> f64.
(** scipy.stats.contingency.margins and observed.sum() *)
Definition frow (m : fmat) (i : nat) : f64 := add_up SRow (map (fe m i) (idx (fc m))).
Definition fcol (m : fmat) (j : nat) : f64 := add_up SCol (map (fun i => fe m i j) (idx (fr m))).
Definition ftot (m : fmat) : f64 := add_up STotal (map (fun c => fe m (fst c) (snd c)) (fcells m)).
(** scipy.stats.contingency.expected_freq: reduce(np.multiply, margsums) / observed.sum() ** (d - 1) with d = 2 *)
Definition fexp (m : fmat) (i j : nat) : f64 := fdiv (fmult (frow m i) (fcol m j)) (ftot m).
(** np.minimum(0.5, np.abs(diff)) * np.sign(diff) *)
Definition fhalf : f64 := flit 1 (-1).
Definition fsign (x : f64) : f64 := if flt fzero x then fone else if flt x fzero then fopp fone else fzero.
Definition fmin2 (a b : f64) : f64 := if flt a b then a else b.
Definition fyates (o e : f64) : f64 := let diff := fminus e o in fplus o (fmult (fmin2 fhalf (fabs diff)) (fsign diff)).
(** one term of power_divergence: (f_obs - f_exp)**2 / f_exp *)
Definition fterm (o e : f64) : f64 := let d := fminus o e in fdiv (fmult d d) e.
(** power_divergence refuses sums that differ by more than a relative 1e-8 *)
Definition rtol8 : f64 := flit 6044629098073146 (-79).
Definition sums_agree (m : fmat) (obs : nat -> nat -> f64) : bool :=
  let so := add_up SObs (map (fun c => obs (fst c) (snd c)) (fcells m)) in
  let se := add_up SExp (map (fun c => fexp m (fst c) (snd c)) (fcells m)) in
  fle (fdiv (fabs (fminus so se)) (fmin2 so se)) rtol8.
(** scipy.stats.chi2_contingency(values, lambda_='pearson')[0] *)
Definition chi2_contingency64 (m : fmat) : res f64 :=
  if existsb (fun c => flt (fe m (fst c) (snd c)) fzero) (fcells m) then Raise ValueError
  else if Nat.eqb (fr m * fc m) 0 then Raise ValueError
  else if existsb (fun c => feqb (fexp m (fst c) (snd c)) fzero) (fcells m) then Raise ValueError
  else
    let dof := (Z.of_nat (fr m * fc m) - Z.of_nat (fr m + fc m) + 2 - 1)%Z in
    if Z.eqb dof 0 then Ok fzero
    else
      let obs i j := if Z.eqb dof 1 then fyates (fe m i j) (fexp m i j) else fe m i j in
      if sums_agree m obs then Ok (add_up STerms (map (fun c => fterm (obs (fst c) (snd c)) (fexp m (fst c) (snd c))) (fcells m)))
      else Raise ValueError.
(** statistics.py:50,52: rows (columns) that are not all zero *)
Definition fnz_rows (m : fmat) : list nat := filter (fun i => negb (forallb (fun j => feqb (fe m i j) fzero) (idx (fc m)))) (idx (fr m)).
Definition fnz_cols (m : fmat) : list nat := filter (fun j => negb (forallb (fun i => feqb (fe m i j) fzero) (idx (fr m)))) (idx (fc m)).
(** statistics.py:36-57 [get_chi2_using_dependent_frequency_estimates] with lambda_='pearson' *)
Definition get_chi2_64 (m : fmat) : res f64 :=
  let m1 := fsub m (fnz_rows m) (idx (fc m)) in
  let m2 := fsub m1 (idx (fr m1)) (fnz_cols m1) in
  chi2_contingency64 m2.
(** statistics.py:74-91 [estimate_simple_ndof] *)
Definition estimate_simple_ndof64 (m : fmat) : Z :=
  let endof := (Z.of_nat (fr m * fc m) - Z.of_nat (fr m + fc m) + 2 - 1 - Z.of_nat (length (filter (fun c => feqb (fexp m (fst c) (snd c)) fzero) (fcells m))))%Z in
  if (endof <? 0)%Z then 0%Z else endof.
(** phik.py:91-101 and bivariate.py:213-227; [chi2_rho] computes n * np.sum(ratio) of bivariate.py:158-164 for a given correlation, from the
    number of records and the shape; the pedestal (an int) is converted when it meets floats *)
Definition phik_from_hist2d_64 (chi2_rho : f64 -> nat -> nat -> f64 -> f64) (m : fmat) (noise_correction : bool) : res f64 :=
  let* chi2 := get_chi2_64 m in
  let pedestal := ofZ (if noise_correction then estimate_simple_ndof64 m else 0) in
  let n := ftot m in
  let chi2_max := fmult n (ofZ (Z.min (Z.of_nat (fr m) - 1) (Z.of_nat (fc m) - 1))) in
  let h := chi2_rho n (fr m) (fc m) in
  phik_from_chi2_64 (objective64 h chi2_max pedestal (h fone)) chi2 chi2_max pedestal.
End Sums.
