(** Specification vocabulary for binning, independent of the model. *)
From Coq Require Import String ZArith List Bool Reals Sorting.Sorted.
From Flocq Require Import Core.
Import ListNotations.
From Verif Require Import F64 Base Cells BinModel.
Open Scope Z_scope.

(** ascending (weakly); NaN-free because comparisons with NaN are false; infinite edges are allowed *)
Definition ascending (e : list f64) : Prop :=
  forall i j, (i <= j < length e)%nat -> fle (nth i e fnan) (nth j e fnan) = true.

(** [bin_of e v c]: the cell [c] is the right bin of value [v] for edges [e] *)
Inductive bin_of (e : list f64) (v : f64) : cell -> Prop :=
| bin_missing : fisnan v = true -> bin_of e v CNaN
| bin_under : fle v (nth 0 e fnan) = true -> bin_of e v (CStr "UF")
| bin_over : flt (nth (length e - 1) e fnan) v = true -> bin_of e v (CStr "OF")
| bin_inside : forall i : nat, (1 <= i < length e)%nat ->
    flt (nth (i - 1) e fnan) v = true -> fle v (nth i e fnan) = true -> bin_of e v (CInt (Z.of_nat i)).

(** [data_range arr lo hi]: [arr] has at least one number, its numbers are finite, at most 2^1022 in size, and [lo], [hi]
    are entries with the smallest and the largest value *)
Definition data_range (arr : list f64) (lo hi : f64) : Prop :=
  (forall v, In v arr -> fisnan v = false -> ffin v = true /\ (Rabs (f2R v) <= bpow radix2 1022)%R) /\
  In lo arr /\ In hi arr /\ ffin lo = true /\ ffin hi = true /\
  (forall v, In v arr -> fisnan v = false -> (f2R lo <= f2R v <= f2R hi)%R).

(** the specification the bins argument holds for column [c] *)
Definition spec_of (bins : bins_arg) (c : string) : option bspec :=
  match bins with BOne b => Some b | BDict d => assoc c d end.

(** [edges] are the edges that the bins argument asks for column [c] with values [arr] *)
Definition asks_for npq (bins : bins_arg) (quantile : bool) (c : string) (arr edges : list f64) : Prop :=
  match spec_of bins c with
  | Some (BNum n) => bin_edges npq arr n quantile = Ok edges
  | Some (BEdges l) => edges = l
  | _ => False
  end.

Definition supported (b : option bspec) : Prop :=
  match b with Some (BNum _) | Some (BEdges _) => True | _ => False end.
