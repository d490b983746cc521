(** Specification for C112: what the binary64 significance matrix has to look like. *)
From Coq Require Import String ZArith List Bool Reals.
From Flocq Require Import Core.
From Verif Require Import F64 Base Cells BinModel HistModel SpecHist RSum StatsModel SpecStats PhikModel SpecPhik Chi2FModel SpecChi2F MCFModel SpecMCF PhikMatFModel SpecMatF SigMatFModel.
Import ListNotations.
Open Scope list_scope.

(** equal as numbers, or the same infinity, or both NaN *)
Definition same_value (x y : f64) : Prop := same_number x y \/ (ffin x = false /\ x = y).

Section Spec.
(** [Z h c0 c1]: the Z-value (or the error) for the contingency table [h] of the columns c0 and c1 *)
Variable Z : htable -> string -> string -> res (f64 * f64).
Variable comp : bool.
Definition sig_matrix_of (d u o : bool) (f : frame) (t : ftable) : Prop :=
  (* labelled by the columns, in their order *)
  ft_index t = keys f /\ ft_columns t = keys f /\ length (ft_cells t) = length f /\ (forall row, In row (ft_cells t) -> length row = length f) /\
  (* symmetric, to the last bit *)
  (forall a b, fval t a b = fval t b a) /\
  (* off the diagonal: NaN for a degenerate table, else the Z-value of the contingency table *)
  (forall c0 x c1 y h, pair_of f c0 x c1 y -> is_table_of (counted_as d u o) (combine (c_cells x) (c_cells y)) h ->
     (~ proper_shape (hmat h) /\ fval t c0 c1 = fnan) \/ (proper_shape (hmat h) /\ exists p z, Z h c0 c1 = Ok (p, z) /\ same_value (fval t c0 c1) z)) /\
  (* on the diagonal: the Z-value of the table of the column with itself; the mean of two infinities depends on pandas *)
  (forall c x h, In (c, x) f -> is_table_of (counted_as d u o) (combine (c_cells x) (c_cells x)) h ->
     (~ proper_shape (hmat h) /\ fval t c c = fnan) \/
     (proper_shape (hmat h) /\ exists p z, Z h c c = Ok (p, z) /\
        ((ffin z = true /\ (Rabs (f2R z) <= bpow radix2 1022)%R) \/ fisnan z = true -> same_value (fval t c c) z) /\
        (ffin z = false -> fisnan z = false -> fval t c c = if comp then fnan else z))).
(** an error comes from the formula for a table of two columns (or of a column with itself) *)
Definition sig_error_of (d u o : bool) (f : frame) : Prop :=
  exists c0 x c1 y h, In (c0, x) f /\ In (c1, y) f /\ is_table_of (counted_as d u o) (combine (c_cells x) (c_cells y)) h /\ proper_shape (hmat h) /\ Z h c0 c1 = Raise ValueError.
End Spec.
