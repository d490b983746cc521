(** Specification vocabulary for C93: the outlier expectations in binary64. *)
From Coq Require Import ZArith List Bool Reals.
From Flocq Require Import Core.
From Verif Require Import F64 RSum OutFModel.
Open Scope R_scope.

(** the same table with real entries *)
Definition real_table (t : ztab) : mat := mkMat (z_nr t) (z_nc t) (fun i j => IZR (z_el t i j)).
Definition counts (t : ztab) : Prop := forall i j, (0 <= z_el t i j)%Z.
(** C's pow(x, 2): exact at 0 and within one unit in the last place on the range that occurs *)
Definition pow2_ok (p : f64 -> f64) : Prop := forall x, ffin x = true ->
  (f2R x = 0 -> ffin (p x) = true /\ f2R (p x) = 0) /\
  (bpow radix2 (-400) <= f2R x <= bpow radix2 400 -> ffin (p x) = true /\ Rabs (f2R (p x) - f2R x ^ 2) <= bpow radix2 (-52) * f2R x ^ 2).
(** sqrt(x), but 1 below 1 *)
Definition poisson_err (x : R) : R := if Rle_dec 1 x then sqrt x else 1.
(** the expectation B*C/D and its propagated uncertainty *)
Definition abcd (B C D : R) : R := B * C / D.
Definition abcd_err (B C D : R) : R :=
  sqrt ((poisson_err B * C / D) ^ 2 + (poisson_err C * B / D) ^ 2 + (poisson_err D * abcd B C D / D) ^ 2).
(** x is v up to the relative error eps *)
Definition within (eps x v : R) : Prop := Rabs (x - v) <= eps * v.
(** Linnemann's arguments of the incomplete beta function, for the expectation e and its uncertainty s *)
Definition lin_tau (e s : R) : R := (if Rlt_dec 0 e then e else s) / (s * s).
Definition lin_b (e s : R) : R := (if Rlt_dec 0 e then e else s) * lin_tau e s + 1.
Definition lin_x (e s : R) : R := 1 / (1 + lin_tau e s).
