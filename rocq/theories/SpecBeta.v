(** Specification vocabulary for the incomplete beta function: the continued fraction
    1 / (1 + d1 / (1 + d2 / (1 + ...))) of Numerical Recipes (6.4.5), truncated after n coefficients. *)
From Coq Require Import Reals List.
Open Scope R_scope.

(** d_{2m} and d_{2m+1} *)
Definition d_even (a b x m : R) : R := m * (b - m) * x / ((a + 2 * m - 1) * (a + 2 * m)).
Definition d_odd (a b x m : R) : R := - ((a + m) * (a + b + m) * x) / ((a + 2 * m) * (a + 2 * m + 1)).
Definition coeff (a b x : R) (n : nat) : R :=
  if Nat.even n then d_even a b x (INR (Nat.div2 n)) else d_odd a b x (INR (Nat.div2 n)).
(** the fraction below the k-th coefficient, cut off after [len] further coefficients *)
Fixpoint cf_tail (a b x : R) (k len : nat) : R :=
  match len with O => 1 | S len' => 1 + coeff a b x (S k) / cf_tail a b x (S k) len' end.
(** the n-th convergent *)
Definition convergent (a b x : R) (n : nat) : R := 1 / cf_tail a b x 0 n.
(** the values compared by the stopping rule: 1 at first, then the odd convergents *)
Definition iterate (a b x : R) (m : nat) : R := match m with O => 1 | S _ => convergent a b x (2 * m + 1) end.
(** the domain on which the fraction is used *)
Definition cf_domain (a b x : R) : Prop := 0 < a /\ 0 < b /\ 0 < x <= (a + 1) / (a + b + 2).
Definition close_enough (EPS prev cur : R) : Prop := Rabs (cur - prev) < EPS * Rabs cur.
