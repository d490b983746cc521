(** Model of phik/statistics.py:22-105 and of the scipy functions it calls, in exact real arithmetic. *)
From Coq Require Import List Reals Bool ZArith.
Import ListNotations.
From Verif Require Import Base RSum.
Open Scope R_scope.

Definition reqb (x y : R) : bool := if Req_EM_T x y then true else false.
Definition rltb (x y : R) : bool := if Rlt_dec x y then true else false.
Definition rleb (x y : R) : bool := if Rle_dec x y then true else false.

Definition idx (n : nat) : list nat := seq 0 n.

(** scipy.stats.contingency.expected_freq (statistics.py:33,86): outer product of the margins over the total *)
Definition expected (m : mat) (i j : nat) : R := rowsum m i * colsum m j / matsum m.
(** statistics.py:22-33 [get_dependent_frequency_estimates] *)
Definition get_dependent_frequency_estimates (m : mat) : mat := mkMat (nr m) (nc m) (expected m).

Inductive lambda := Pearson | LogLikelihood.

(** scipy.special.xlogy *)
Definition xlogy (x y : R) : R := if Req_EM_T x 0 then 0 else x * ln y.
(** one cell of scipy.stats.power_divergence *)
Definition pd_term (l : lambda) (o e : R) : R :=
  match l with Pearson => (o - e) * (o - e) / e | LogLikelihood => 2 * xlogy o (o / e) end.
Definition rsign (x : R) : R := if Rlt_dec 0 x then 1 else if Rlt_dec x 0 then -1 else 0.
(** Yates' continuity correction inside scipy.stats.chi2_contingency; [clamp] = scipy >= 1.7 (gh-13875) *)
Definition yates (clamp : bool) (o e : R) : R :=
  o + (if clamp then Rmin (1/2) (Rabs (e - o)) else 1/2) * rsign (e - o).

(** scipy.stats.chi2_contingency(observed, correction=True, lambda_): the statistic *)
Definition chi2_contingency (clamp : bool) (m : mat) (l : lambda) : res R :=
  let cells := list_prod (idx (nr m)) (idx (nc m)) in
  if existsb (fun c => rltb (el m (fst c) (snd c)) 0) cells then Raise ValueError
  else if Nat.eqb (nr m * nc m) 0 then Raise ValueError
  else if existsb (fun c => reqb (expected m (fst c) (snd c)) 0) cells then Raise ValueError
  else
    let dof := (Z.of_nat (nr m * nc m) - Z.of_nat (nr m + nc m) + 2 - 1)%Z in
    if Z.eqb dof 0 then Ok 0
    else
      let obs i j := if Z.eqb dof 1 then yates clamp (el m i j) (expected m i j) else el m i j in
      Ok (lsum (fun i => lsum (fun j => pd_term l (obs i j) (expected m i j)) (idx (nc m))) (idx (nr m))).

(** statistics.py:50: rows that are not all zero *)
Definition nz_rows (m : mat) : list nat := filter (fun i => negb (forallb (fun j => reqb (el m i j) 0) (idx (nc m)))) (idx (nr m)).
Definition nz_cols (m : mat) : list nat := filter (fun j => negb (forallb (fun i => reqb (el m i j) 0) (idx (nr m)))) (idx (nc m)).

(** statistics.py:36-57 [get_chi2_using_dependent_frequency_estimates] *)
Definition get_chi2 (clamp : bool) (m : mat) (l : lambda) : res R :=
  let m1 := submat m (nz_rows m) (idx (nc m)) in
  let m2 := submat m1 (idx (nr m1)) (nz_cols m1) in
  chi2_contingency clamp m2 l.

(** statistics.py:94-105 [theoretical_ndof] *)
Definition theoretical_ndof (m : mat) : Z := (Z.of_nat (nr m * nc m) - Z.of_nat (nr m + nc m) + 2 - 1)%Z.

(** statistics.py:74-91 [estimate_simple_ndof]; for a table with total 0 all expected values are NaN and none equals 0 *)
Definition zero_expected (m : mat) : nat :=
  if Req_EM_T (matsum m) 0 then 0%nat
  else length (filter (fun c => reqb (expected m (fst c) (snd c)) 0) (list_prod (idx (nr m)) (idx (nc m)))).
Definition estimate_simple_ndof (m : mat) : Z :=
  let endof := (Z.of_nat (nr m * nc m) - Z.of_nat (nr m + nc m) + 2 - 1 - Z.of_nat (zero_expected m))%Z in
  if (endof <? 0)%Z then 0%Z else endof.
