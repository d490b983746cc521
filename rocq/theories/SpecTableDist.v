(** Vocabulary of the statement about the distribution of the generated tables; independent of the model. *)
From Coq Require Import ZArith List Reals.
Import ListNotations.
From Verif Require Import SpecRcont.
Open Scope R_scope.

(** z! *)
Definition zfact (z : Z) : R := INR (fact (Z.to_nat z)).

(** product of a list *)
Definition rprod (l : list R) : R := fold_right Rmult 1 l.

(** product of the factorials of the entries *)
Definition factorials (l : list Z) : R := rprod (map zfact l).

(** a table given by its rows: non-negative entries, row totals [rt] and column totals [ct] *)
Definition table_with (rt ct : list Z) (T : list (list Z)) : Prop :=
  length T = length rt /\
  (forall row, In row T -> length row = length ct /\ (forall x, In x row -> (0 <= x)%Z)) /\
  map zsum T = rt /\
  (forall m, (m < length ct)%nat -> zsum (map (fun row => nth m row 0%Z) T) = nth m ct 0%Z).

(** the conditional distribution of a table given its row and column totals when rows and columns are independent
    (Fisher's exact test): (prod r_i!) (prod c_j!) / (N! prod n_ij!) *)
Definition fisher (rt ct : list Z) (T : list (list Z)) : R :=
  factorials rt * factorials ct / (zfact (zsum rt) * factorials (concat T)).

(** intervals (lo, hi] inside (0, 1] *)
Definition unit_intervals (I : list (R * R)) : Prop := forall p, In p I -> 0 <= fst p /\ fst p < snd p /\ snd p <= 1.

(** the [k]-th variate from position [p] on falls in the [k]-th interval, for every interval of the list *)
Definition in_box (u : nat -> R) (p : nat) (I : list (R * R)) : Prop :=
  forall k, (k < length I)%nat -> fst (nth k I (0, 0)) < u (p + k)%nat <= snd (nth k I (0, 0)).

(** the probability that independent uniform variates do so *)
Definition volume (I : list (R * R)) : R := rprod (map (fun p => snd p - fst p) I).

(** [M], stored column by column, holds the table [T] *)
Definition holds (nrow ncol : nat) (M : list Z) (T : list (list Z)) : Prop :=
  length M = (nrow * ncol)%nat /\
  forall l m, (l < nrow)%nat -> (m < ncol)%nat -> nth (l + m * nrow) M 0%Z = nth m (nth l T []) 0%Z.
