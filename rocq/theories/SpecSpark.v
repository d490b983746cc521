(** Specification vocabulary for spark histograms and global correlations. *)
From Coq Require Import String Ascii List Reals.
From Verif Require Import Base RSum Num.
Import ListNotations.
Open Scope R_scope.

Definition colon_free (s : string) : Prop := ~ In ":"%char (list_ascii_of_string s).

(** real n x n matrices as functions *)
Definition quad (n : nat) (V : nat -> nat -> R) (x : nat -> R) : R := lsum (fun i => lsum (fun j => x i * V i j * x j) (seq 0 n)) (seq 0 n).
Definition symmetric (n : nat) (V : nat -> nat -> R) : Prop := forall i j, (i < n)%nat -> (j < n)%nat -> V i j = V j i.
Definition positive_definite (n : nat) (V : nat -> nat -> R) : Prop := forall x, (exists i, (i < n)%nat /\ x i <> 0) -> 0 < quad n V x.
(** V W = I *)
Definition right_inverse (n : nat) (V W : nat -> nat -> R) : Prop :=
  forall i j, (i < n)%nat -> (j < n)%nat -> lsum (fun k => V i k * W k j) (seq 0 n) = if Nat.eqb i j then 1 else 0.
(** the table as rows of numbers *)
Definition rows_of (n : nat) (V : nat -> nat -> R) : list (list num) := map (fun i => map (fun j => Fin (V i j)) (seq 0 n)) (seq 0 n).
(** what is assumed of numpy.linalg.inv on a square table of numbers: an inverse is returned if there is one, else LinAlgError *)
Definition inverts (inv : list (list num) -> res (list (list num))) (n : nat) (V : nat -> nat -> R) : Prop :=
  (exists W, right_inverse n V W /\ inv (rows_of n V) = Ok (rows_of n W)) \/ ((forall W, ~ right_inverse n V W) /\ inv (rows_of n V) = Raise LinAlgError).
(** a dictionary with one entry 'a:b' for every (a, b, histogram), and at most one per unordered pair *)
Definition one_per_pair {A} (l : list (string * string * A)) : Prop :=
  forall a b x c d y, In (a, b, x) l -> In (c, d, y) l -> (a = c /\ b = d) \/ (a = d /\ b = c) -> (a, b, x) = (c, d, y).
