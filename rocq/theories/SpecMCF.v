(** Specification: comparing the statistics of tables up to the rounding error of their computation. *)
From Coq Require Import List Bool Reals.
From Verif Require Import Base F64 StatsModel SpecStats Chi2FModel SpecChi2F SpecGStat.
Import ListNotations.
Open Scope R_scope.

(** the exact statistic of a table of counts (0 for a table without one) *)
Definition exact_stat (lam : lambda) (m : fmat) : R := match get_chi2 true (real_table m) lam with Ok x => x | Raise _ => 0 end.
(** how far a computed statistic may be from it (C88, C102) *)
Definition stat_tol (lam : lambda) (m : fmat) : R :=
  match lam with Pearson => chi2_tol (real_table m) (exact_stat lam m) | LogLikelihood => g_tol (real_table m) (exact_stat lam m) end.
(** the statistic of [m'] is above (below) that of [m] by more than the two errors *)
Definition clearly_above (lam : lambda) (m m' : fmat) : Prop := exact_stat lam m + stat_tol lam m < exact_stat lam m' - stat_tol lam m'.
Definition clearly_below (lam : lambda) (m m' : fmat) : Prop := exact_stat lam m' + stat_tol lam m' < exact_stat lam m - stat_tol lam m.
Definition n_clearly_above (lam : lambda) (m : fmat) (sims : list fmat) : nat :=
  length (filter (fun m' => if Rlt_dec (exact_stat lam m + stat_tol lam m) (exact_stat lam m' - stat_tol lam m') then true else false) sims).
Definition n_clearly_below (lam : lambda) (m : fmat) (sims : list fmat) : nat :=
  length (filter (fun m' => if Rlt_dec (exact_stat lam m' + stat_tol lam m') (exact_stat lam m - stat_tol lam m) then true else false) sims).
(** a table whose statistic can be computed *)
Definition fit_for_mc (m : fmat) : Prop := count_table64 m /\ has_records (real_table m) /\ moderate (real_table m).
