(** Specification vocabulary for contingency tables, independent of the code. *)
From Coq Require Import List Reals ZArith.
From Verif Require Import RSum.
Import ListNotations.
Open Scope R_scope.

(** all counts are >= 0 *)
Definition nonneg_table (m : mat) : Prop := forall i j, (i < nr m)%nat -> (j < nc m)%nat -> 0 <= el m i j.
Definition has_negative (m : mat) : Prop := exists i j, (i < nr m)%nat /\ (j < nc m)%nat /\ el m i j < 0.
(** there is at least one record *)
Definition has_records (m : mat) : Prop := exists i j, (i < nr m)%nat /\ (j < nc m)%nat /\ el m i j <> 0.
(** a table of whole numbers *)
Definition integer_table (m : mat) : Prop := forall i j, (i < nr m)%nat -> (j < nc m)%nat -> exists k : nat, el m i j = INR k.
(** two tables of the same shape with the same entries *)
Definition mat_eq (m m' : mat) : Prop := nr m = nr m' /\ nc m = nc m' /\ forall i j, (i < nr m)%nat -> (j < nc m)%nat -> el m i j = el m' i j.
(** [I], [J] list, in some order and without repetition, rows and columns of [m] that include every non-empty row and
    column: [submat m I J] is [m] with rows and columns reordered and some empty ones left out *)
Definition rearrangement (m : mat) (I J : list nat) : Prop :=
  NoDup I /\ NoDup J /\ (forall i, In i I -> (i < nr m)%nat) /\ (forall j, In j J -> (j < nc m)%nat) /\
  (forall i j, (i < nr m)%nat -> (j < nc m)%nat -> el m i j <> 0 -> In i I /\ In j J).
(** [l] enumerates the non-empty rows (columns) of [m] *)
Definition enum_rows (m : mat) (l : list nat) : Prop := NoDup l /\ forall i, In i l <-> (i < nr m)%nat /\ exists j, (j < nc m)%nat /\ el m i j <> 0.
Definition enum_cols (m : mat) (l : list nat) : Prop := NoDup l /\ forall j, In j l <-> (j < nc m)%nat /\ exists i, (i < nr m)%nat /\ el m i j <> 0.
(** the table is exactly the product of its margins divided by the total *)
Definition independent_table (m : mat) : Prop := forall i j, (i < nr m)%nat -> (j < nc m)%nat -> el m i j = rowsum m i * colsum m j / matsum m.
(** the table after leaving out empty rows and columns is 2 x 2 *)
Definition two_by_two (m : mat) : Prop := exists I J, enum_rows m I /\ enum_cols m J /\ length I = 2%nat /\ length J = 2%nat.
(** a table given by its rows *)
Definition tab (rows : list (list Z)) (c : nat) : mat := mkMat (length rows) c (fun i j => IZR (nth j (nth i rows []) 0%Z)).
