(** Specification: the p-value of a simulated sample, in exact arithmetic. *)
From Coq Require Import List Reals.
From Verif Require Import SpecSig.
Open Scope R_scope.
(** the fraction of simulated values above [c]; with ties, the one at [c] being counted half (less one half) *)
Definition fraction_above (c : R) (l : list R) : R :=
  if Nat.eqb (equal_to c l) 0 then INR (above c l) / INR (length l)
  else (INR (above c l) + (INR (equal_to c l) - 1) / 2) / INR (length l).
