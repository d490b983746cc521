(** Specification vocabulary for columns of category dtype (C94). *)
From Coq Require Import List Bool.
Import ListNotations.
From Verif Require Import Base Cells HistModel SpecHist CatModel.

(** what pandas guarantees: categories are distinct and not missing, and every cell is missing or one of them *)
Definition valid_ccol (c : ccol) : Prop :=
  match cc_cats c with
  | Some cats => NoDup cats /\ ~ In CNaN cats /\ forall v, In v (cc_cells c) -> v = CNaN \/ In v cats
  | None => True
  end.
(** the same column without category dtype *)
Definition plain (c : ccol) : ccol := mkCC None (cc_cells c).
Definition records (x y : ccol) : list (cell * cell) := combine (cc_cells x) (cc_cells y).
(** the values that occur in records where both columns are present *)
Definition used_x (x y : ccol) (a : cell) : Prop := a <> CNaN /\ exists b, b <> CNaN /\ In (a, b) (records x y).
Definition used_y (x y : ccol) (b : cell) : Prop := b <> CNaN /\ exists a, a <> CNaN /\ In (a, b) (records x y).
(** [n] values are used *)
Definition used_count (p : cell -> Prop) (n : nat) : Prop := exists l, NoDup l /\ length l = n /\ forall a, In a l <-> p a.
(** a category that survives hist2d's underflow/overflow removal *)
Definition kept_cat (dropna uf of : bool) (c : cell) : bool := match counted_as dropna uf of c with Some _ => true | None => false end.
