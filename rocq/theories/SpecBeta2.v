(** Specification vocabulary: the normalisation of the beta law and the logarithm of the gamma function. *)
From Coq Require Import Reals List.
From Verif Require Import RSum SpecGauss.
Open Scope R_scope.

(** C is the constant in front of x^(a-1) (1-x)^(b-1) in the density belonging to the distribution function I *)
Definition beta_constant (a b : R) (I : R -> R) (C : R) : Prop :=
  forall x, 0 < x < 1 -> derivable_pt_lim I x (C * (Rpower x (a - 1) * Rpower (1 - x) (b - 1))).
(** all that is needed of scipy.special.gammaln: ln Gamma(z+1) = ln z + ln Gamma(z) and Gamma(1) = 1 *)
Definition loggamma_ok (gl : R -> R) : Prop := gl 1 = 0 /\ forall z, 0 < z -> gl (z + 1) = ln z + gl z.
(** P(N >= n) for a negative binomial variable N *)
Definition negbin_tail (b x : R) (n : nat) : R := 1 - lsum (negbin_prob b x) (seq 0 n).
(** r agrees with p to a relative precision e *)
Definition agrees (e r p : R) : Prop := Rabs (r - p) <= e * r.
