(** Specification: the effective number of degrees of freedom of the hybrid method, and how far the computed one may be from it. *)
From Coq Require Import List Reals.
From Verif Require Import RSum F64 StatsModel Chi2FModel SpecChi2F SpecMCF.
Import ListNotations.
Open Scope R_scope.

(** the average of a quantity over a list of tables *)
Definition mean_of (f : fmat -> R) (ms : list fmat) : R := lsum f ms / INR (length ms).
(** the exact value: the mean of the exact statistics of the simulated tables *)
Definition exact_endof (lam : lambda) (ms : list fmat) : R := mean_of (exact_stat lam) ms.
(** the mean of the errors of the statistics, and (2 n + 3) * 2^-53 of the mean for adding up n numbers and dividing *)
Definition endof_tol (lam : lambda) (ms : list fmat) : R :=
  mean_of (stat_tol lam) ms + (2 * INR (length ms) + 3) * u53 * mean_of (fun m => exact_stat lam m + stat_tol lam m) ms.
(** survival functions return probabilities *)
Definition chi2_sf_ok (fsf : f64 -> f64 -> f64) : Prop := forall x k, ffin x = true -> ffin k = true -> 0 < f2R k -> ffin (fsf x k) = true /\ 0 <= f2R (fsf x k) <= 1.
Definition norm_sf_ok (fnsf : f64 -> f64 -> f64 -> f64) : Prop :=
  forall x k s, ffin x = true -> ffin k = true -> ffin s = true -> 0 < f2R s -> ffin (fnsf x k s) = true /\ 0 <= f2R (fnsf x k s) <= 1.
(** the fit is bounded to [0, 1] *)
Definition fit_ok (ffit : list f64 -> f64) : Prop := forall l, ffin (ffit l) = true /\ 0 <= f2R (ffit l) <= 1.
