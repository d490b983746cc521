(** Specification for C116: which pairs of columns are analysed, and what exchanging two columns does to an outlier matrix. *)
From Coq Require Import String ZArith List Bool.
From Verif Require Import F64 Base Cells BinModel HistModel PhikModel OutModel OutMatFModel.
Import ListNotations.
Open Scope list_scope.
(** the interval columns: those given, or guessed from the types *)
Definition intervals (ic : option (list string)) (f : frame) : list string := match ic with Some l => l | None => guess_interval_cols f end.
(** the columns that survive the data-quality check *)
Definition clean_cols (df : frame) (ic : option (list string)) (d : bool) : list string := keys (fst (dq_check_nunique_values df (intervals ic df) d)).
(** the requested pairs: those given, or all pairs of surviving columns *)
Definition asked (df : frame) (ic : option (list string)) (d : bool) (combos : list (string * string)) : list (string * string) := match combos with [] => pairs (clean_cols df ic d) | _ => combos end.
(** the same matrix with its index and its columns exchanged *)
Definition transposed (m m' : oresult64) : Prop :=
  match m, m' with
  | ONaN64, ONaN64 => True
  | OMat64 rows cols z, OMat64 rows' cols' z' => rows' = cols /\ cols' = rows /\
      forall i j, (i < length rows)%nat -> (j < length cols)%nat -> nth i (nth j z' []) fnan = nth j (nth i z []) fnan
  | _, _ => False
  end.
