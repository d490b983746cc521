(** Vocabulary of the statements about the C++ table generator; independent of the model. *)
From Coq Require Import ZArith List Reals.
Import ListNotations.
From Verif Require Import F64.
Open Scope Z_scope.

(** range of a C [int]: -2^31 .. 2^31-1 *)
Definition int_min : Z := -2147483648.
Definition int_max : Z := 2147483647.

(** modulus of the generator *)
Definition lcg_p : Z := 2147483647.

Definition int32 (z : Z) : Prop := int_min <= z <= int_max.

(** sum of a list *)
Definition zsum (l : list Z) : Z := fold_right Z.add 0 l.

(** contract for the C library functions: [exp] of a finite number is a number >= 0 (possibly +inf),
    [log] of a positive int is in [0, 32] *)
Definition libm_ok (libm_exp libm_log : f64 -> f64) : Prop :=
  (forall z, ffin z = true -> fle fzero (libm_exp z) = true) /\
  (forall i, 1 <= i <= int_max ->
     ffin (libm_log (ofZ i)) = true /\ (0 <= f2R (libm_log (ofZ i)) <= 32)%R).

(** the totals a caller may ask for *)
Definition valid_totals (nrow ncol : nat) (rt ct : list Z) : Prop :=
  (2 <= nrow)%nat /\ (2 <= ncol)%nat /\ length rt = nrow /\ length ct = ncol /\
  (forall x, In x rt -> 0 < x) /\ (forall x, In x ct -> 0 < x) /\ zsum rt = zsum ct.

(** [M], stored column by column, is a table of non-negative integers with row totals [rt] and column totals [ct] *)
Definition is_table (nrow ncol : nat) (rt ct : list Z) (M : list Z) : Prop :=
  length M = (nrow * ncol)%nat /\ (forall x, In x M -> 0 <= x) /\
  (forall l, (l < nrow)%nat -> zsum (map (fun m => nth (l + m * nrow) M 0) (seq 0 ncol)) = nth l rt 0) /\
  (forall m, (m < ncol)%nat -> zsum (map (fun l => nth (l + m * nrow) M 0) (seq 0 nrow)) = nth m ct 0).
