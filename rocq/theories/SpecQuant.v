(** Specification: the quantiles of a finite sample, in exact arithmetic. *)
From Coq Require Import List Reals Permutation.
Import ListNotations.
Open Scope R_scope.

(** the value at the (fractional) position [h] of a list: linear interpolation between neighbours; position 0 is the first value *)
Fixpoint at_pos (v : list R) (h : R) : R :=
  match v with
  | [] => 0
  | x :: v' => match v' with
               | [] => x
               | y :: _ => if Rle_dec h 1 then x + h * (y - x) else at_pos v' (h - 1)
               end
  end.
(** [s] lists the same values as [l], in ascending order *)
Definition sorted_form (l s : list R) : Prop :=
  Permutation l s /\ forall i j, (i <= j < length s)%nat -> nth i s 0 <= nth j s 0.
