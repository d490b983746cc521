(** Specification vocabulary for simulated tables. *)
From Coq Require Import String ZArith List Bool Reals.
From Verif Require Import Base RSum SpecRcont SpecStats.
Import ListNotations.
Open Scope R_scope.

(** what is assumed of numpy's multinomial: for probabilities it returns one non-negative count per cell, adding up to n *)
Definition multinomial_ok {S} (multinomial : Z -> list R -> S -> res (list Z) * S) : Prop :=
  forall n p s, (0 <= n)%Z -> (forall x, In x p -> 0 <= x) -> lsum (fun x => x) p = 1 ->
  exists l s', multinomial n p s = (Ok l, s') /\ length l = length p /\ (forall z, In z l -> (0 <= z)%Z) /\ zsum l = n.
(** and of numpy's randint *)
Definition randint_ok {S} (randint : Z -> Z -> S -> Z * S) : Prop := forall a b s, (a < b)%Z -> (a <= fst (randint a b s) < b)%Z.

(** a table of r x c non-negative whole numbers *)
Definition count_table (r c : nat) (t : mat) : Prop := nr t = r /\ nc t = c /\ forall i j, (i < r)%nat -> (j < c)%nat -> exists k : nat, el t i j = INR k.
Definition same_rowsums (m t : mat) : Prop := nr t = nr m /\ forall i, (i < nr m)%nat -> rowsum t i = rowsum m i.
Definition same_colsums (m t : mat) : Prop := nc t = nc m /\ forall j, (j < nc m)%nat -> colsum t j = colsum m j.
Definition positive_rowsums (m : mat) : Prop := forall i, (i < nr m)%nat -> 0 < rowsum m i.
Definition positive_colsums (m : mat) : Prop := forall j, (j < nc m)%nat -> 0 < colsum m j.
Definition whole (x : R) : Prop := exists k : nat, x = INR k.
Definition whole_totals (m : mat) : Prop := (forall i, (i < nr m)%nat -> whole (rowsum m i)) /\ (forall j, (j < nc m)%nat -> whole (colsum m j)).
(** what a simulated table looks like for each method, as implemented: [m] is the table that is simulated *)
Definition simulated_by (method : string) (m t : mat) : Prop :=
  (method = "multinominal"%string /\ count_table (nr m) (nc m) t /\ matsum t = matsum m) \/
  (method = "row_product_multinominal"%string /\ count_table (nr m) (nc m) t /\ same_colsums m t) \/
  (method = "col_product_multinominal"%string /\ count_table (nr m) (nc m) t /\ same_rowsums m t) \/
  (method = "hypergeometric"%string /\ count_table (nc m) (nr m) t /\ (forall j, (j < nc m)%nat -> rowsum t j = colsum m j) /\ (forall i, (i < nr m)%nat -> colsum t i = rowsum m i)).
Definition known_method (method : string) : Prop :=
  In method ["multinominal"; "hypergeometric"; "row_product_multinominal"; "col_product_multinominal"]%string.
