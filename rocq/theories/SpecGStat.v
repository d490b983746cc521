(** Vocabulary for the logarithm of a C library and the rounding error of the G statistic. *)
From Coq Require Import Reals.
From Verif Require Import F64 RSum SpecChi2F.
Open Scope R_scope.

(** a logarithm that is off by at most 2^-52 of the true value (one unit in the last place; glibc's is off by 0.52) *)
Definition good_log (flog : f64 -> f64) : Prop :=
  forall x, ffin x = true -> 0 < f2R x -> ffin (flog x) = true /\ Rabs (f2R (flog x) - ln (f2R x)) <= 2 * u53 * Rabs (ln (f2R x)).
(** (8 * number of cells + 190) * 2^-53 records, and (2 * number of cells + 32) * 2^-53 of the statistic *)
Definition g_tol (T : mat) (g : R) : R := u53 * ((8 * INR (nr T * nc T) + 190) * matsum T + (2 * INR (nr T * nc T) + 32) * g).
