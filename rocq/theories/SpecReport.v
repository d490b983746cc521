(** What is expected from correlation_report and the plots (phik/report.py). *)
From Coq Require Import String ZArith List Bool Reals.
Import ListNotations.
From Verif Require Import Base Num PhikModel.
Open Scope list_scope.

(** values that are below a threshold; NaN is not *)
Definition below (x : num) (thr : R) : Prop := x = MInf \/ exists r, x = Fin r /\ (r < thr)%R.
Definition weak (x : num) (thr : R) : Prop := exists r, x = Fin r /\ (Rabs r < thr)%R.
(** the pairs with an outlier matrix, by significance z and correlation v *)
Definition selected (sthr cthr : R) (z v : num) : Prop := ~ weak z sthr /\ ~ below v cthr.

(** where column [k] of a matrix with [n] columns is drawn *)
Definition drawn_at (identity_layout : bool) (n k : nat) : nat := if identity_layout then n - 1 - k else k.
