(** Specification vocabulary for contingency tables, independent of the model functions. *)
From Coq Require Import String ZArith List Bool Sorting.Sorted.
Import ListNotations.
From Verif Require Import F64 Base Cells BinModel HistModel.
Open Scope list_scope.

(** the category a cell is counted under, or [None] if the record is left out *)
Definition counted_as (dropna uf of : bool) (c : cell) : option cell :=
  match c with
  | CNaN => if dropna then None else Some (CStr "NaN")
  | CStr s => if (uf && String.eqb s "UF") || (of && String.eqb s "OF") then None else Some c
  | _ => Some c
  end.

(** number of elements of a list that satisfy a decidable predicate *)
Fixpoint count_if {A} (p : A -> bool) (l : list A) : nat :=
  match l with [] => 0%nat | a :: l' => ((if p a then 1 else 0) + count_if p l')%nat end.

Definition opair_eqb (x y : option cell) (a b : cell) : bool :=
  match x, y with Some u, Some v => if cell_eq_dec u a then if cell_eq_dec v b then true else false else false | _, _ => false end.
Definition both_some (x y : option cell) : bool := match x, y with Some _, Some _ => true | _, _ => false end.

(** entry (i,j) *)
Definition entry (h : htable) (i j : nat) : nat := nth j (nth i (h_cnt h) []) 0%nat.
Definition total (h : htable) : nat := fold_right (fun row s => (fold_right plus 0 row + s)%nat) 0%nat (h_cnt h).

(** [is_table_of seen recs h]: [h] is the contingency table of the records [recs] when a cell [c] counts as [seen c] *)
Definition is_table_of (seen : cell -> option cell) (recs : list (cell * cell)) (h : htable) : Prop :=
  (forall a, In a (h_rows h) <-> exists r b, In r recs /\ seen (fst r) = Some a /\ seen (snd r) = Some b) /\
  (forall b, In b (h_cols h) <-> exists r a, In r recs /\ seen (fst r) = Some a /\ seen (snd r) = Some b) /\
  StronglySorted clt (h_rows h) /\ StronglySorted clt (h_cols h) /\
  length (h_cnt h) = length (h_rows h) /\ (forall row, In row (h_cnt h) -> length row = length (h_cols h)) /\
  (forall i j, (i < length (h_rows h))%nat -> (j < length (h_cols h))%nat ->
     entry h i j = count_if (fun r => opair_eqb (seen (fst r)) (seen (snd r)) (nth i (h_rows h) CNaN) (nth j (h_cols h) CNaN)) recs) /\
  (forall i, (i < length (h_rows h))%nat -> exists j, (j < length (h_cols h))%nat /\ (0 < entry h i j)%nat) /\
  (forall j, (j < length (h_cols h))%nat -> exists i, (i < length (h_rows h))%nat /\ (0 < entry h i j)%nat) /\
  total h = count_if (fun r => both_some (seen (fst r)) (seen (snd r))) recs.

(** [h'] is the transpose of [h] *)
Definition is_transpose (h h' : htable) : Prop :=
  h_rows h' = h_cols h /\ h_cols h' = h_rows h /\
  forall i j, (i < length (h_rows h))%nat -> (j < length (h_cols h))%nat -> entry h' j i = entry h i j.

(** the column has exactly [n] distinct non-missing values *)
Definition distinct_values (c : col) (n : nat) : Prop :=
  exists l, NoDup l /\ length l = n /\ forall x, In x l <-> In x (c_cells c) /\ x <> CNaN.
