(** Vocabulary for C103 and C104. *)
From Coq Require Import Reals.
From Verif Require Import F64.
Open Scope R_scope.

(** an exponential that underflows to 0 only far out: exp(-740) is about 4e-322, a float *)
Definition underflows_late (fexpo : f64 -> f64) : Prop := forall x, ffin x = true -> feqb (fexpo x) fzero = true -> f2R x <= -740.
(** the formula of z_from_logp for an underflowing p-value, in real numbers *)
Definition exact_tail (logp : R) : R := let u := - 2 * ln (2 * PI) - 2 * logp in sqrt (u - ln u).
(** the Chernoff exponent and its Z-value in real numbers; [e] is the extra term -2 ln f of the hybrid method *)
Definition exact_exponent (chi2 ndof e : R) : R := ndof * (chi2 / ndof - 1 - ln (chi2 / ndof)) - ln (2 * PI) + e.
Definition exact_z (chi2 ndof e : R) : R := let u := exact_exponent chi2 ndof e in sqrt (u - ln u).
Definition extra_of (f : option f64) : R := match f with None => 0 | Some f => - (2 * ln (f2R f)) end.
(** the fit of the hybrid method gives a fraction in (0, 1] *)
Definition fraction_ok (f : option f64) : Prop := match f with None => True | Some f => ffin f = true /\ 0 < f2R f <= 1 end.
