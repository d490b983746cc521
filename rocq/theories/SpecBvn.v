(** Specification: the bivariate normal distribution with standard marginals and correlation [rho]. *)
From Coq Require Import Reals.
From Coquelicot Require Import Coquelicot.
Open Scope R_scope.

(** density of two standard normal variables with correlation rho, -1 < rho < 1 *)
Definition bvn_density (rho x y : R) : R := exp (- (x ^ 2 - 2 * rho * x * y + y ^ 2) / (2 * (1 - rho ^ 2))) / (2 * PI * sqrt (1 - rho ^ 2)).
(** probability that a standard normal variable lies between a and b *)
Definition normal_mass (a b : R) : R := RInt (fun x => exp (- x ^ 2 / 2) / sqrt (2 * PI)) a b.
(** probability that it lies in both [a, b] and [c, d] *)
Definition overlap_mass (a b c d : R) : R := if Rlt_dec (Rmax a c) (Rmin b d) then normal_mass (Rmax a c) (Rmin b d) else 0.
(** probability of the rectangle [lx, ux] x [ly, uy]: the integral of the density; for rho = 1 the second variable equals the
    first, for rho = -1 it is its negative. Other values of rho are not correlations; 0 is returned for them. *)
Definition bvn_prob (rho lx ly ux uy : R) : R :=
  if Rlt_dec (rho ^ 2) 1 then RInt (fun x => RInt (fun y => bvn_density rho x y) ly uy) lx ux
  else if Req_EM_T rho 1 then overlap_mass lx ux ly uy
  else if Req_EM_T rho (-1) then overlap_mass lx ux (- uy) (- ly)
  else 0.
