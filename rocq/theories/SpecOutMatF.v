(** Specification for C113: the continued fraction of betainc.py and the cells of the outlier matrix in binary64. *)
From Coq Require Import String ZArith List Bool Reals.
From Verif Require Import F64 Base Cells BrentFModel Chi2FModel GlobFModel OutFModel.
Import ListNotations.

(** The fraction of Numerical Recipes 6.4: 1/(1+ d_1/(1+ d_2/(1+ ...))) with
    d_(2m) = m (b-m) x / ((a+2m-1) (a+2m)),  d_(2m+1) = -(a+m) (a+b+m) x / ((a+2m) (a+2m+1)), in binary64. *)
Definition top_even (b x m : f64) : f64 := fmult (fmult m (fminus b m)) x.
Definition bot_even (a m : f64) : f64 := fmult (fplus (fminus a fone) (fplus m m)) (fplus a (fplus m m)).
Definition top_odd (a b x m : f64) : f64 := fmult (fmult (fopp (fplus a m)) (fplus (fplus a b) m)) x.
Definition bot_odd (a m : f64) : f64 := fmult (fplus (fplus a fone) (fplus m m)) (fplus a (fplus m m)).
(** the numerators and denominators A_(2k), B_(2k), A_(2k+1), B_(2k+1) of the convergents, scaled by B_(2k+1);
    with Python floats a division by zero leaves nothing *)
Definition allowed (py : bool) (y : f64) : Prop := py = true -> feqb y fzero = false.
Inductive fraction (py : bool) (a b x : f64) : nat -> f64 -> f64 -> f64 -> f64 -> Prop :=
| frac_start : allowed py (fplus a fone) -> fraction py a b x 0 fone fone fone (fminus fone (fdiv (fmult (fplus a b) x) (fplus a fone)))
| frac_next : forall k A B A' B', fraction py a b x k A B A' B' ->
    let m := ofZ (Z.of_nat k + 1) in
    allowed py (bot_even a m) -> allowed py (bot_odd a m) ->
    let d := fdiv (top_even b x m) (bot_even a m) in let d' := fdiv (top_odd a b x m) (bot_odd a m) in
    let A2 := fplus A' (fmult d A) in let B2 := fplus B' (fmult d B) in
    let A3 := fplus A2 (fmult d' A') in let B3 := fplus B2 (fmult d' B') in
    allowed py B3 -> fraction py a b x (S k) (fdiv A2 B3) (fdiv B2 B3) (fdiv A3 B3) fone.
(** the k-th value of the fraction *)
Definition convergent (py : bool) (a b x : f64) (k : nat) (v : f64) : Prop := exists A B B', fraction py a b x k A B v B'.
(** two successive values agree: the test of the loop, in real numbers with rounding *)
Definition agree (EPS prev v : f64) : Prop := (ffin prev = true /\ ffin v = true /\ Rabs (rnd (f2R v - f2R prev)) < rnd (f2R EPS * Rabs (f2R v)))%R.

(** the table with rows and columns exchanged *)
Definition ztransp (t : ztab) : ztab := mkZtab (z_nc t) (z_nr t) (fun i j => z_el t j i).
(** rows and columns in another order: row i of the new table is row (nth i I) of the old one *)
Definition zpick (t : ztab) (I J : list nat) : ztab := mkZtab (length I) (length J) (fun i j => z_el t (nth i I 0%nat) (nth j J 0%nat)).
(** libraries pass NaN on; betainc is 1 at x = 1 (and for no other value that matters here) *)
Definition nan_lib (fpsf : f64 -> f64 -> f64) (fppf flog fexpo : f64 -> f64) : Prop :=
  (forall k, fpsf k fnan = fnan) /\ fppf fnan = fnan /\ flog fnan = fnan /\ fexpo fnan = fnan.
