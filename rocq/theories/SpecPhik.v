(** Specification vocabulary for the phik coefficient and the correlation matrix. *)
From Coq Require Import String List Reals Bool ZArith Sorting.Permutation.
From Verif Require Import Base RSum SpecSolver SpecBiv SpecStats PhikModel.
Import ListNotations.
Open Scope R_scope.

(** the library routines meet their contracts *)
Definition lib_ok (L : lib) : Prop := mvn_ok (l_mvn L) /\ root_finder_ok (l_bq L).
(** the root finder never gives up *)
Definition lib_converges (L : lib) : Prop := root_finder_converges (l_bq L).

(** at least two rows and two columns *)
Definition proper_shape (m : mat) : Prop := (2 <= nr m)%nat /\ (2 <= nc m)%nat.
(** [I], [J] are permutations of all row and column numbers *)
Definition permutes (m : mat) (I J : list nat) : Prop :=
  NoDup I /\ NoDup J /\ (forall i, In i I <-> (i < nr m)%nat) /\ (forall j, In j J <-> (j < nc m)%nat).
(** k x k, one non-zero count in every row and in every column *)
Definition perfect_association (m : mat) (k : nat) : Prop :=
  nr m = k /\ nc m = k /\
  (forall i, (i < k)%nat -> exists j, (j < k)%nat /\ el m i j <> 0 /\ forall j', (j' < k)%nat -> el m i j' <> 0 -> j' = j) /\
  (forall j, (j < k)%nat -> exists i, (i < k)%nat /\ el m i j <> 0 /\ forall i', (i' < k)%nat -> el m i' j <> 0 -> i' = i).
(** every non-zero count is at least 1 *)
Definition counts (m : mat) : Prop := forall i j, (i < nr m)%nat -> (j < nc m)%nat -> el m i j = 0 \/ 1 <= el m i j.
(** all counts multiplied by k *)
Definition times (k : R) (m : mat) : mat := mkMat (nr m) (nc m) (fun i j => k * el m i j).

(** the list of pair results gives value [x] for the pair (a, b), in one orientation or the other *)
Definition given (vals : list (string * string * Num.num)) (a b : string) (x : Num.num) : Prop := In (a, b, x) vals \/ In (b, a, x) vals.
(** at most one value per pair *)
Definition one_value_per_pair (vals : list (string * string * Num.num)) : Prop := forall a b x y, given vals a b x -> given vals a b y -> x = y.
(** alphabetical order of labels *)
Definition label_lt (a b : string) : Prop := Cells.scmp a b = Lt.
(** a rectangular table with the given labels *)
Definition well_formed (t : ntable) : Prop :=
  length (t_cells t) = length (t_index t) /\ forall row, In row (t_cells t) -> length row = length (t_columns t).

(** * Reordering records and renaming categories *)
Import Cells BinModel F64.
(** every column has n records *)
Definition rectangular (n : nat) (f : frame) : Prop := forall p, In p f -> length (c_cells (snd p)) = n.
(** the frame with its records in the order [l] (a list of record numbers) *)
Definition reorder (l : list nat) (f : frame) : frame :=
  map (fun p => (fst p, mkCol (c_num (snd p)) (map (fun i => nth i (c_cells (snd p)) CNaN) l))) f.
(** the quantile routine ignores the order of the values (numbers without NaN and without the duplicate zero -0.0) *)
Definition order_free (npq : list f64 -> Z -> list f64) : Prop :=
  forall vals vals' n, Permutation vals vals' -> (forall v, In v vals -> kf_ok v = true) -> npq vals n = npq vals' n.
(** the frame in which every category v of column [c] is renamed to [g v] *)
Definition rename (c : string) (g : cell -> cell) (f : frame) : frame :=
  map (fun p => if String.eqb (fst p) c then (fst p, mkCol (c_num (snd p)) (map g (c_cells (snd p)))) else p) f.
Definition is_marker (v : cell) : Prop := v = CNaN \/ v = CStr "UF" \/ v = CStr "OF" \/ v = CStr "NaN".
(** [g] renames the values of a list injectively, keeps the markers and does not produce new ones *)
Definition good_renaming (g : cell -> cell) (l : list cell) : Prop :=
  (forall v w, In v l -> In w l -> g v = g w -> v = w) /\ (forall v, In v l -> is_marker v -> g v = v) /\ (forall v, In v l -> ~ is_marker v -> ~ is_marker (g v)).
(** the column category determines the row category: [g j] is the row of column [j]; no empty row or column *)
Definition column_determines_row (m : mat) (g : nat -> nat) : Prop :=
  (forall j, (j < nc m)%nat -> (g j < nr m)%nat) /\ (forall i, (i < nr m)%nat -> exists j, (j < nc m)%nat /\ g j = i) /\
  (forall i j, (i < nr m)%nat -> (j < nc m)%nat -> (el m i j <> 0 <-> g j = i)).
