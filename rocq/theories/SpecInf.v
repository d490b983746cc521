(** Specification for C114: interval columns whose range is not a finite float. *)
From Coq Require Import ZArith List Bool.
From Verif Require Import F64.
Import ListNotations.

Definition infinite (v : f64) : Prop := ffin v = false /\ fisnan v = false.
(** there are two values, NaN aside, whose difference is not a finite number: one of them is infinite, or they are too far apart *)
Definition wide (arr : list f64) : Prop := exists u v, In u arr /\ In v arr /\ fisnan u = false /\ fisnan v = false /\ ffin (fminus v u) = false.
