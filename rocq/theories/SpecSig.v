(** Specification vocabulary for p-values and significances. *)
From Coq Require Import String ZArith List Bool Reals.
From Verif Require Import Base RSum Num SigModel.
Import ListNotations.
Open Scope R_scope.

Definition is_probability (x : num) : Prop := exists p, x = Fin p /\ 0 <= p <= 1.
(** what is assumed of scipy *)
Definition chi2_sf_ok (sf : R -> R -> num) : Prop :=
  (forall x k, 0 < k -> is_probability (sf x k)) /\ (forall x k, k <= 0 -> sf x k = NaN) /\ (forall x k, 0 < k -> x <= 0 -> sf x k = Fin 1) /\
  (forall x y k p q, x <= y -> sf x k = Fin p -> sf y k = Fin q -> q <= p).
Definition norm_sf_ok (sf : R -> R -> R -> num) : Prop :=
  (forall x m s, 0 < s -> is_probability (sf x m s)) /\ (forall x y m s p q, x <= y -> sf x m s = Fin p -> sf y m s = Fin q -> q <= p).
(** quantile function of the standard normal distribution: -inf at 0, +inf at 1, NaN outside, increasing, 0 at 1/2 *)
Definition norm_ppf_ok (ppf : num -> num) : Prop :=
  ppf (Fin 0) = MInf /\ ppf (Fin 1) = PInf /\ ppf NaN = NaN /\ ppf (Fin (1/2)) = Fin 0 /\
  (forall p, p < 0 \/ 1 < p -> ppf (Fin p) = NaN) /\
  (forall p, 0 < p < 1 -> exists z, ppf (Fin p) = Fin z) /\
  (forall p q, 0 <= p -> p < q -> q <= 1 -> nlt (ppf (Fin p)) (ppf (Fin q)) = true).
(** the bounded optimiser stays within its bounds *)
Definition least_squares_ok (ls : (R -> list num) -> R -> res R) : Prop := forall g x0 f, ls g x0 = Ok f -> 0 <= f <= 1.
Definition slib_ok (SL : slib) : Prop :=
  chi2_sf_ok (chi2_sf SL) /\ norm_sf_ok (norm_sf SL) /\ norm_ppf_ok (norm_ppf SL) /\ least_squares_ok (least_squares SL) /\
  (rank_of_empty SL = Fin 100 \/ rank_of_empty SL = NaN).

(** number of simulated values above, equal to and below the observed one *)
Definition above (c : R) (l : list R) : nat := length (filter (fun x => if Rlt_dec c x then true else false) l).
Definition equal_to (c : R) (l : list R) : nat := length (filter (fun x => if Req_EM_T c x then true else false) l).
Definition below (c : R) (l : list R) : nat := length (filter (fun x => if Rlt_dec x c then true else false) l).

(** -2 ln of Chernoff's bound on the chi2 tail, minus ln 2 pi *)
Definition chernoff_exponent (chi2 ndof : R) : R := ndof * (chi2 / ndof - 1 - ln (chi2 / ndof)) - ln (2 * PI).
Definition arithmetic_mean (l : list R) : R := lsum (fun x => x) l / INR (length l).
Definition significance_methods : list string := ["asymptotic"; "MC"; "hybrid"]%string.
(** average number of records per cell *)
Definition records_per_cell (m : mat) : R := matsum m / (INR (nr m) * INR (nc m)).
