(** Specification vocabulary for C109 and C110. *)
From Coq Require Import String ZArith List Bool.
From Verif Require Import Base Cells BinModel HistModel RSum StatsModel SpecStats SpecHist SpecPhik PhikModel LabelModel SpecLabel.
Import ListNotations.
Open Scope list_scope.

(** the two columns have no table with at least two rows and two columns *)
Definition too_few (d u o : bool) (x y : col) : Prop :=
  exists h, is_table_of (counted_as d u o) (combine (c_cells x) (c_cells y)) h /\ ~ proper_shape (hmat h).
(** a column of the frame, and a column that is the same or stands later *)
Definition in_order {A} (f : list A) (p q : A) : Prop := exists before after, f = before ++ p :: after /\ In q (p :: after).
Definition is_number (a : label) : Prop := exists z, a = LInt z.
(** a pair of columns without a proper table of which one is called by a number *)
Definition unwarnable (d u o : bool) (f : lframe) : Prop :=
  exists p q, in_order f p q /\ too_few d u o (snd p) (snd q) /\ (is_number (fst p) \/ is_number (fst q)).
