(** Specification vocabulary: distribution functions given by their density up to a constant. *)
From Coq Require Import Reals List.
From Verif Require Import RSum Num SpecSig OutModel SpecOut.
Open Scope R_scope.

(** F is the distribution function of the probability law with density proportional to h on the interval D:
    its derivative is a positive multiple of h, it tends to 0 at the lower and to 1 at the upper end *)
Definition cdf_on (D : R -> Prop) (h F : R -> R) : Prop :=
  (exists C, 0 < C /\ forall x, D x -> derivable_pt_lim F x (C * h x)) /\
  (forall e, 0 < e -> exists x0, D x0 /\ forall x, D x -> x <= x0 -> Rabs (F x) <= e) /\
  (forall e, 0 < e -> exists x0, D x0 /\ forall x, D x -> x0 <= x -> Rabs (F x - 1) <= e).

(** the standard normal law; the chi2 law with k degrees of freedom; the beta law with parameters a, b *)
Definition normal_cdf : (R -> R) -> Prop := cdf_on (fun _ => True) (fun x => exp (- x ^ 2 / 2)).
Definition chi2_cdf (k : R) : (R -> R) -> Prop := cdf_on (fun x => 0 < x) (fun x => Rpower x (k / 2 - 1) * exp (- x / 2)).
Definition beta_cdf (a b : R) : (R -> R) -> Prop := cdf_on (fun x => 0 < x < 1) (fun x => Rpower x (a - 1) * Rpower (1 - x) (b - 1)).

(** norm.ppf is the inverse of the normal distribution function *)
Definition normal_quantile (F : R -> R) (ppf : num -> num) : Prop :=
  norm_ppf_ok ppf /\ forall p, 0 < p < 1 -> exists z, ppf (Fin p) = Fin z /\ F z = p.

(** Poisson and negative binomial probabilities *)
Definition poisson_prob (mu : R) (k : nat) : R := exp (- mu) * mu ^ k / INR (fact k).
Fixpoint rising (b : R) (k : nat) : R := match k with O => 1 | S k' => rising b k' * (b + INR k') end.
Definition negbin_prob (b x : R) (k : nat) : R := rising b k / INR (fact k) * x ^ k * Rpower (1 - x) b.

(** exact library functions, for whole numbers of events: betainc is the distribution function of the beta law, poisson.sf the Poisson tail, chi2.ppf
    the inverse of the chi2 distribution function *)
Definition betainc_exact (f : R -> R -> R -> num) : Prop :=
  forall n b, 0 < b -> exists I, beta_cdf (INR (S n)) b I /\ forall x, 0 < x < 1 -> f (INR (S n)) b x = Fin (I x).
Definition poisson_exact (sf : nat -> num -> num) : Prop :=
  forall k mu, 0 < mu -> sf k (Fin mu) = Fin (1 - lsum (poisson_prob mu) (seq 0 (S k))).
Definition chi2_quantile_exact (ppf : R -> R -> R) : Prop :=
  forall p n, 0 < p < 1 -> 0 < ppf p (2 * INR (S n)) /\ forall G, chi2_cdf (2 * INR (S n)) G -> G (ppf p (2 * INR (S n))) = p.
