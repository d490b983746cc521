(** Specification vocabulary for C98: what the column check should do with any labels. *)
From Coq Require Import String ZArith List Bool Lia.
From Verif Require Import Base Cells BinModel HistModel PhikModel LabelModel.
Import ListNotations.
Open Scope list_scope.

(** a column is kept: it has two different values, or one if missing values count and it is not an interval column *)
Definition kept (ic : list label) (dropna : bool) (p : label * col) : Prop :=
  (2 <= nunique (snd p))%nat \/ (nunique (snd p) = 1%nat /\ dropna = false /\ ~ In (fst p) ic).
(** a column about whose size a warning is due *)
Definition large (ic : list label) (p : label * col) : Prop := (1000 < nunique (snd p))%nat /\ ~ In (fst p) ic.
(** the categorical columns carry both numbers and strings as labels *)
Definition mixed (ic : list label) (f : lframe) : Prop :=
  (exists z, In (LInt z) (labels f) /\ ~ In (LInt z) ic) /\ (exists s, In (LStr s) (labels f) /\ ~ In (LStr s) ic).
(** a column labelled by a number about which a warning would be due *)
Definition numbered_trouble (ic : list label) (dropna : bool) (f : lframe) : Prop :=
  exists z c, In (LInt z, c) f /\ (~ kept ic dropna (LInt z, c) \/ large ic (LInt z, c)).
(** g is the frame without the columns that are not kept, in the same order; [selects P l g]: g are the elements of l with property P *)
Inductive selects {A} (P : A -> Prop) : list A -> list A -> Prop :=
| sel_nil : selects P [] []
| sel_take : forall a l g, P a -> selects P l g -> selects P (a :: l) (a :: g)
| sel_skip : forall a l g, ~ P a -> selects P l g -> selects P (a :: l) g.

(** a frame whose columns are renamed *)
Definition relabel {B} (s : string -> label) (f : list (string * B)) : list (label * B) := map (fun p => (s (fst p), snd p)) f.
Definition relabel_bins (s : string -> label) (b : bins_arg) : lbins :=
  match b with BOne x => LOne x | BDict d => LDict (relabel s d) end.
Definition relabel_table (s : string -> label) (t : ntable) : ltable := mkLT (map s (t_index t)) (map s (t_columns t)) (t_cells t).
