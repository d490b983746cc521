(** significance_from_hist2d(..., significance_method='MC') from the observed and the simulated tables to the p-value, in binary64 arithmetic. *)
From Coq Require Import ZArith List Bool.
From Flocq Require Import BinarySingleNaN.
From Verif Require Import F64 Base StatsModel Chi2FModel GStatModel SigFModel.
Import ListNotations.

Section M.
Variable percentile : list f64 -> f64 -> f64.
Variable add_up : site -> list f64 -> f64.
Variable flog : f64 -> f64.

(** statistics.py:36-57 [get_chi2_using_dependent_frequency_estimates], the test statistic of a table for either value of [lambda_] *)
Definition stat64 (lam : lambda) (m : fmat) : res f64 :=
  match lam with Pearson => get_chi2_64 add_up m | LogLikelihood => get_g_64 add_up flog m end.
(** simulation.py:195-202 [_simulate_and_fit], given the table that sim_data returned *)
Definition simulate_and_fit64 (lam : lambda) (simdata : fmat) : res f64 := stat64 lam simdata.
(** simulation.py:187-192 [sim_chi2_distribution]: one statistic per simulated table, in order *)
Definition sim_chi2s64 (lam : lambda) (sims : list fmat) : res (list f64) := mapM (simulate_and_fit64 lam) sims.
(** significance.py:216-228 with 'MC', and 131-151: the p-value (the significance is a function of it) *)
Definition mc_from_tables64 (lam : lambda) (values : fmat) (sims : list fmat) : res f64 :=
  match stat64 lam values with
  | Raise e => Raise e
  | Ok c => match sim_chi2s64 lam sims with Raise e => Raise e | Ok cs => Ok (mc_p64 percentile c cs) end
  end.
End M.
