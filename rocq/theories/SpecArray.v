(** Specification vocabulary for the array-level functions. *)
From Coq Require Import String List.
From Verif Require Import F64 Base Cells BinModel.
Import ListNotations.
Open Scope list_scope.

(** what is assumed of str(): a string is itself, a missing value is 'nan', numbers do not look like the markers *)
Definition python_str (str : cell -> string) : Prop :=
  str CNaN = "nan"%string /\ (forall s, str (CStr s) = s) /\
  forall v, (forall s, v <> CStr s) -> str v <> "UF"%string /\ str v <> "OF"%string /\ str v <> "NaN"%string.
(** different values of the list have different str() *)
Definition str_distinct (str : cell -> string) (l : list cell) : Prop := forall v w, In v l -> In w l -> str v = str w -> v = w.
Definition no_missing (l : list cell) : Prop := ~ In CNaN l.
