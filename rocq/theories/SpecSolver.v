(** What is assumed of a root finder, from scipy.optimize.brentq's documentation: called with a sign change it returns a point
    of the bracket within xtol + rtol*|x| of a zero (if the function is continuous), or fails to converge (RuntimeError);
    without a sign change it raises ValueError; the outcome depends only on the function's values on the bracket and does
    not change when the function is multiplied by a positive number. *)
From Coq Require Import Reals.
From Verif Require Import Base.
Open Scope R_scope.

Definition root_finder := (R -> R) -> R -> R -> R -> res R.
Definition solver_rtol : R := 4 * / 2 ^ 52.
Definition continuous_on (f : R -> R) (a b : R) : Prop := forall x, a <= x <= b -> forall eps, 0 < eps ->
  exists d, 0 < d /\ forall y, a <= y <= b -> Rabs (y - x) < d -> Rabs (f y - f x) < eps.

Record root_finder_ok (bq : root_finder) : Prop := {
  rf_bracket : forall f a b xtol, a < b -> 0 < xtol -> f a * f b <= 0 ->
    (exists x, bq f a b xtol = Ok x /\ a <= x <= b) \/ bq f a b xtol = Raise RuntimeError;
  rf_root : forall f a b xtol x, a < b -> 0 < xtol -> continuous_on f a b -> bq f a b xtol = Ok x ->
    exists r, a <= r <= b /\ f r = 0 /\ Rabs (x - r) <= xtol + solver_rtol * Rabs x;
  rf_sign : forall f a b xtol, a < b -> 0 < xtol -> 0 < f a * f b -> bq f a b xtol = Raise ValueError;
  rf_ext : forall f g a b xtol, a < b -> 0 < xtol -> (forall x, a <= x <= b -> f x = g x) -> bq f a b xtol = bq g a b xtol;
  rf_scale : forall f k a b xtol, a < b -> 0 < xtol -> 0 < k -> bq (fun x => k * f x) a b xtol = bq f a b xtol }.
(** it never fails to converge *)
Definition root_finder_converges (bq : root_finder) : Prop := forall f a b xtol, a < b -> 0 < xtol -> f a * f b <= 0 -> bq f a b xtol <> Raise RuntimeError.
