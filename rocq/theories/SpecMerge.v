(** Specification vocabulary for merging categories (C95). *)
From Coq Require Import List Reals Arith.
Import ListNotations.
From Verif Require Import Base Cells RSum.
Open Scope R_scope.

(** row [i] of [m] is added to row [f i] of the new table, column [j] to column [g j] *)
Definition merge (f g : nat -> nat) (r c : nat) (m : mat) : mat :=
  mkMat r c (fun i' j' => lsum (fun i => lsum (fun j => if Nat.eqb (f i) i' then if Nat.eqb (g j) j' then el m i j else 0 else 0) (seq 0 (nc m))) (seq 0 (nr m))).
Definition merges_into (f g : nat -> nat) (r c : nat) (m : mat) : Prop :=
  (forall i, (i < nr m)%nat -> (f i < r)%nat) /\ (forall j, (j < nc m)%nat -> (g j < c)%nat).
(** a recoding of the values of a column: missing stays missing, nothing else becomes missing *)
Definition recoding (p : cell -> cell) : Prop := forall v, p v = CNaN <-> v = CNaN.
Definition recode (p q : cell -> cell) (recs : list (cell * cell)) : list (cell * cell) := map (fun r => (p (fst r), q (snd r))) recs.
