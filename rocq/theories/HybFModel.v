(** significance_from_hist2d(..., significance_method='hybrid'), the default, from the observed and the simulated tables to the p-value and
    the Z-value, in binary64 arithmetic. *)
From Coq Require Import ZArith List Bool.
From Flocq Require Import BinarySingleNaN.
From Verif Require Import F64 Base StatsModel BrentFModel Chi2FModel GStatModel SigFModel GlobFModel ZTailModel MCFModel.
Import ListNotations.

Section H.
Variable add_up : site -> list f64 -> f64.
(** the sum inside np.mean *)
Variable add_mean : list f64 -> f64.
Variables flog fppf : f64 -> f64.
(** scipy.stats.chi2.sf(x, df), scipy.stats.norm.sf(x, loc, scale) *)
Variable fsf : f64 -> f64 -> f64.
Variable fnsf : f64 -> f64 -> f64 -> f64.
(** the fraction f that the fit finds (significance.py:51-71, res.x[0]) *)
Variable ffit : list f64 -> f64.

(** significance.py:180: values.sum() / values.shape[0] * values.shape[1] *)
Definition avg_per_bin64 (values : fmat) : f64 :=
  fmult (fdiv (ftot add_up values) (ofZ (Z.of_nat (fr values)))) (ofZ (Z.of_nat (fc values))).
(** statistics.py:60-71 [estimate_ndof] and significance.py:60 (kmean): np.mean(chi2s) *)
Definition estimate_ndof64 (chi2s : list f64) : f64 := fdiv (add_mean chi2s) (ofZ (Z.of_nat (length chi2s))).
(** significance.py:182-198: the low-statistics branch with h(x|f), the other one with chi2.sf, and the fallback for a p-value of zero *)
Definition hybrid64 (chi2 : f64) (values : fmat) (chi2s : list f64) : res (f64 * f64) :=
  let endof := estimate_ndof64 chi2s in
  let low := fle (avg_per_bin64 values) (ofZ 4) in
  let f := ffit chi2s in
  let p := if low then mix64 f (fsf chi2 endof) (fnsf chi2 endof (fsqrt endof)) else fsf chi2 endof in
  if feqb p fzero then rbind (chernoff64 flog chi2 endof (if low then Some f else None)) (fun z => Ok (p, z))
  else Ok (p, fopp (fppf p)).
(** significance.py:216-233 with 'hybrid' *)
Definition hybrid_from_tables64 (lam : lambda) (values : fmat) (sims : list fmat) : res (f64 * f64) :=
  match stat64 add_up flog lam values with
  | Raise e => Raise e
  | Ok c => match sim_chi2s64 add_up flog lam sims with Raise e => Raise e | Ok cs => hybrid64 c values cs end
  end.
End H.
