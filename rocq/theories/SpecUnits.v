(** Specification vocabulary for changing the unit of an interval variable (C96). *)
From Coq Require Import List Reals ZArith.
From Flocq Require Import Core.
Import ListNotations.
From Verif Require Import F64 SpecBin.
Open Scope R_scope.

(** [arr'] holds the data of [arr] in another unit: value a*v + b, rounded (or measured) with an error of at most [d]; missing stays missing *)
Definition in_other_unit (a b d : R) (arr arr' : list f64) : Prop :=
  Forall2 (fun v w => fisnan v = fisnan w /\ (fisnan v = false -> Rabs (f2R w - (a * f2R v + b)) <= d)) arr arr'.
(** the k-th of the ideal, equally spaced edges between [lo] and [hi] *)
Definition ideal_edge (lo hi : R) (n : Z) (k : nat) : R := lo + INR k * ((hi - lo) / IZR n).
(** how far bin_edges strays from the ideal edges (the 1e-14 offset and rounding) *)
Definition edge_err (lo hi : R) : R := 2 / 10 ^ 14 + (Rabs lo + Rabs hi) / 2 ^ 49.
(** data whose smallest value the automatic bins do not lose (C04) *)
Definition keeps_smallest (lo : f64) : Prop := -128 < f2R lo <= 128.
(** [f] is strictly increasing on the data *)
Definition increasing_on (f : R -> R) (vals : list R) : Prop := forall u v, In u vals -> In v vals -> u < v -> f u < f v.
