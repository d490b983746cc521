(** Specification: bins of a binned column that a selection of its rows no longer contains. *)
From Coq Require Import ZArith List Bool.
From Verif Require Import F64 Base Cells.
Import ListNotations.

Definition bin_number (c : cell) : bool := match c with CInt _ => true | _ => false end.
(** how many distinct bin numbers occur among all rows but not among the selected ones *)
Definition lost_bins (all selected : list cell) : nat :=
  length (filter (fun b => negb (existsb (ceqb b) selected)) (dsort (filter bin_number all))).
(** how many entries of an axis are bins, and how many are not (UF, OF, NaN) *)
Definition bin_entries (axis : list cell) : nat := length (filter bin_number axis).
Definition marker_entries (axis : list cell) : nat := length (filter (fun c => negb (bin_number c)) axis).
