(** Specification for C115: quantile edges of a column with infinite values. *)
From Coq Require Import ZArith List Bool.
From Flocq Require Import BinarySingleNaN.
From Verif Require Import F64 Base Cells.
Import ListNotations.

(** +infinity replaced by the finite number 2^1022 *)
Definition tamed (v : f64) : f64 := match v with B754_infinity false => flit 1 1022 | _ => v end.
(** bins from number [p] on put together *)
Definition merged (p : Z) (c : cell) : cell := match c with CInt i => CInt (Z.min i p) | _ => c end.
