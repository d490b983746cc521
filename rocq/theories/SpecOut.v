(** Specification vocabulary for outlier significances. *)
From Coq Require Import String ZArith List Bool Reals.
From Verif Require Import Base RSum Num SpecSig BetaModel OutModel.
Import ListNotations.
Open Scope R_scope.

(** the records outside one cell: in its row, in its column, and in neither *)
Definition others (k n : nat) : list nat := filter (fun i => negb (Nat.eqb i k)) (seq 0 n).
Definition same_row (m : mat) (i j : nat) : R := lsum (fun l => el m i l) (others j (nc m)).
Definition same_col (m : mat) (i j : nat) : R := lsum (fun k => el m k j) (others i (nr m)).
Definition elsewhere (m : mat) (i j : nat) : R := lsum (fun k => lsum (fun l => el m k l) (others j (nc m))) (others i (nr m)).
Definition nonneg_table (m : mat) : Prop := forall i j, 0 <= el m i j.

(** P(n >= nobs): 1 for nobs = 0; with an uncertainty on the expectation an incomplete beta function, without one the Poisson tail *)
Definition tail_with (L : olib) (beta : R -> R -> R -> res num) (nobs : nat) (nexp nexperr : num) : res num :=
  match nobs, err_positive nexperr with
  | O, _ => Ok (Fin 1)
  | S k, Some e => beta (INR nobs) (fst (linnemann nexp e)) (snd (linnemann nexp e))
  | S k, None => Ok (poisson_sf L k nexp)
  end.

(** what is assumed of scipy *)
Definition betainc_ok (f : R -> R -> R -> num) : Prop :=
  (forall a b x, 0 < a -> 0 < b -> 0 <= x <= 1 -> is_probability (f a b x)) /\
  (forall a a' b x p q, 0 < a -> a <= a' -> 0 < b -> 0 <= x <= 1 -> f a b x = Fin p -> f a' b x = Fin q -> q <= p).
Definition poisson_ok (sf : nat -> num -> num) : Prop :=
  (forall k mu, 0 < mu -> is_probability (sf k (Fin mu))) /\
  (forall k k' mu p q, 0 < mu -> (k <= k')%nat -> sf k (Fin mu) = Fin p -> sf k' (Fin mu) = Fin q -> q <= p) /\
  (forall k, sf k NaN = NaN) /\
  ((forall k, sf k (Fin 0) = Fin 0) \/ (forall k, sf k (Fin 0) = NaN)).
(** np.exp: exact except that it may underflow to 0 far below *)
Definition np_exp_ok (f : R -> R) : Prop := forall l, f l = exp l \/ (f l = 0 /\ l < -700).
Definition olib_ok (L : olib) : Prop :=
  betainc_ok (betainc L) /\ poisson_ok (poisson_sf L) /\ norm_ppf_ok (o_ppf L) /\ np_exp_ok (np_exp L).

(** P(n >= k+1) for a Poisson variable of mean mu *)
Definition poisson_tail (k : nat) (mu : R) : R := 1 - lsum (fun i => exp (- mu) * mu ^ i / INR (fact i)) (seq 0 (S k)).
