(** Vocabulary for float64 tables and floating-point sums, independent of the code. *)
From Coq Require Import List Reals ZArith Permutation.
From Verif Require Import F64 RSum Chi2FModel.
Import ListNotations.
Open Scope R_scope.

(** [s] results from adding up the numbers of [l] with floating-point additions in some order and grouping *)
Inductive added : list f64 -> f64 -> Prop :=
| added_nil : added [] fzero
| added_one : forall x, added [x] x
| added_app : forall l1 l2 s1 s2, added l1 s1 -> added l2 s2 -> added (l1 ++ l2) (fplus s1 s2)
| added_perm : forall l l' s, added l s -> Permutation l l' -> added l' s.
Definition any_order (add_up : site -> list f64 -> f64) : Prop := forall k l, added l (add_up k l).
(** a float that holds a count *)
Definition whole (x : f64) : Prop := ffin x = true /\ exists k : nat, f2R x = INR k.
(** the table of real numbers a float64 table stands for *)
Definition real_table (m : fmat) : mat := mkMat (fr m) (fc m) (fun i j => f2R (fe m i j)).
(** every cell holds a count *)
Definition count_table64 (m : fmat) : Prop := forall i j, (i < fr m)%nat -> (j < fc m)%nat -> whole (fe m i j).
(** unit roundoff 2^-53 *)
Definition u53 : R := / 9007199254740992.
(** 51 * 2^-53 records, and (2 * number of cells + 30) * 2^-53 of the statistic *)
Definition chi2_tol (T : mat) (chi : R) : R := u53 * (51 * matsum T + (2 * INR (nr T * nc T) + 30) * chi).
(** at most 2^46 records in at most 2^20 cells *)
Definition moderate (T : mat) : Prop := matsum T <= 70368744177664 /\ INR (nr T * nc T) <= 1048576.
(** float64 table transposed *)
Definition ftransp (m : fmat) : fmat := mkF (fc m) (fr m) (fun i j => fe m j i).
