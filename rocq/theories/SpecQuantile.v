(** Vocabulary for C05. *)
From Coq Require Import List Reals.
Open Scope R_scope.
Definition count_le (l : list R) (x : R) : nat := length (filter (fun v => if Rle_dec v x then true else false) l).
Definition count_lt (l : list R) (x : R) : nat := length (filter (fun v => if Rlt_dec v x then true else false) l).
Definition is_min (l : list R) (m : R) : Prop := In m l /\ forall v, In v l -> m <= v.
Definition is_max (l : list R) (m : R) : Prop := In m l /\ forall v, In v l -> v <= m.
