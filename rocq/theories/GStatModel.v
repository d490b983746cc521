(** phik/statistics.py:36-57 [get_chi2_using_dependent_frequency_estimates] with lambda_='log-likelihood' - the statistic the significance
    functions use by default (phik/significance.py:63-100, 271-330) - in binary64 arithmetic, operation by operation, for a table of float64
    cells. Everything but the terms is as in [Chi2FModel.v]; the logarithm of the C library is a parameter. *)
From Coq Require Import ZArith Bool List.
From Verif Require Import F64 Base StatsModel BrentFModel Chi2FModel.
Import ListNotations.

Section Sums.
Variable add_up : site -> list f64 -> f64.
Variable flog : f64 -> f64.
Definition ftwo : f64 := ofZ 2.
(** scipy.special.xlogy (scipy/special/_xlogy.pxd): 0 when x == 0 and y is not NaN, otherwise x * log(y) *)
Definition fxlogy (x y : f64) : f64 := if feqb x fzero && negb (fisnan y) then fzero else fmult x (flog y).
(** one term of power_divergence with lambda_ = 0: 2.0 * special.xlogy(f_obs, f_obs / f_exp) *)
Definition fgterm (o e : f64) : f64 := fmult ftwo (fxlogy o (fdiv o e)).
(** scipy.stats.chi2_contingency(values, lambda_='log-likelihood')[0] *)
Definition g_contingency64 (m : fmat) : res f64 :=
  if existsb (fun c => flt (fe m (fst c) (snd c)) fzero) (fcells m) then Raise ValueError
  else if Nat.eqb (fr m * fc m) 0 then Raise ValueError
  else if existsb (fun c => feqb (fexp add_up m (fst c) (snd c)) fzero) (fcells m) then Raise ValueError
  else
    let dof := (Z.of_nat (fr m * fc m) - Z.of_nat (fr m + fc m) + 2 - 1)%Z in
    if Z.eqb dof 0 then Ok fzero
    else
      let obs i j := if Z.eqb dof 1 then fyates (fe m i j) (fexp add_up m i j) else fe m i j in
      if sums_agree add_up m obs then Ok (add_up STerms (map (fun c => fgterm (obs (fst c) (snd c)) (fexp add_up m (fst c) (snd c))) (fcells m)))
      else Raise ValueError.
(** statistics.py:36-57 with lambda_='log-likelihood' *)
Definition get_g_64 (m : fmat) : res f64 :=
  let m1 := fsub m (fnz_rows m) (idx (fc m)) in
  let m2 := fsub m1 (idx (fr m1)) (fnz_cols m1) in
  g_contingency64 m2.
End Sums.
