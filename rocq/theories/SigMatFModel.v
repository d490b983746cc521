(** phik/significance.py:203-338 [significance_from_hist2d], [significance_from_rebinned_df], [significance_matrix] with the numbers in binary64. *)
From Coq Require Import String ZArith List Bool.
From Flocq Require Import BinarySingleNaN.
From Verif Require Import F64 Base Cells BinModel HistModel StatsModel PhikModel BrentFModel Chi2FModel GStatModel SigFModel ZTailModel MCFModel HybFModel PhikMatFModel.
Import ListNotations.
Open Scope list_scope.

(** the three documented values of significance_method *)
Inductive sigm := Asymptotic | MC | Hybrid.

Section S.
Variable percentile : list f64 -> f64 -> f64.
Variable add_up : site -> list f64 -> f64.
Variable add_mean : list f64 -> f64.
Variables flog fppf : f64 -> f64.
Variable fsf : f64 -> f64 -> f64.
Variable fnsf : f64 -> f64 -> f64 -> f64.
Variable ffit : list f64 -> f64.
Variable comp : bool.

(** statistics.py:94-105 [theoretical_ndof]; an integer, converted to float64 where it meets chi2 *)
Definition ndof64 (m : fmat) : f64 := ofZ (Z.of_nat (fr m * fc m) - Z.of_nat (fr m + fc m) + 2 - 1).
(** significance.py:203-239 [significance_from_hist2d], given the tables [sims] that the simulation returns for MC and hybrid *)
Definition signif_tables64 (s : sigm) (lam : lambda) (values : fmat) (sims : list fmat) : res (f64 * f64) :=
  match s with
  | Asymptotic => let* c := stat64 add_up flog lam values in significance64 flog fppf fsf c (ndof64 values)
  | MC => let* p := mc_from_tables64 percentile add_up flog lam values sims in Ok (p, fopp (fppf p))
  | Hybrid => hybrid_from_tables64 add_up add_mean flog fppf fsf fnsf ffit lam values sims
  end.
(** significance.py:274-289: one pair of columns; a column is paired with itself as well. [sims c0 c1]: the tables simulated for this pair *)
Definition calc_signif_64 (s : sigm) (lam : lambda) (sims : string -> string -> list fmat) (p q : string * col) : res (string * string * f64) :=
  let '(c0, x) := p in let '(c1, y) := q in
  let h := crosstab (combine (c_cells x) (c_cells y)) in
  if is01 (length (h_rows h)) || is01 (length (h_cols h)) then Ok (c0, c1, fnan)
  else let* pz := signif_tables64 s lam (hmat64 h) (sims c0 c1) in Ok (c0, c1, snd pz).
(** significance.py:242-299 [significance_from_rebinned_df] *)
Definition signif_rebinned_64 (f : frame) (s : sigm) (lam : lambda) sims (dropna uf of : bool) : res ftable :=
  let f' := clean dropna uf of f in
  let order := keys f' in
  let* vals := mapM (fun pq => calc_signif_64 s lam sims (fst pq) (snd pq)) (combos f') in
  Ok (match vals with
      | [] => mkFT order order (map (fun _ => map (fun _ => fnan) order) order)
      | _ => mkFT order order (map (fun a => map (fun b => fmean comp (fgroup (flong vals) a b)) order) order)
      end).
(** significance.py:302-338 [significance_matrix]: there is no quantile argument *)
Definition signif_matrix_64 npq (df : frame) (interval_cols : option (list string)) (s : sigm) (lam : lambda) sims (bins : bins_arg) (dropna uf of : bool) : res ftable :=
  let ic := match interval_cols with Some l => l | None => guess_interval_cols df end in
  let '(clean_df, ic') := dq_check_nunique_values df ic dropna in
  let* bd := bin_data npq clean_df ic' bins false in
  signif_rebinned_64 (fst bd) s lam sims dropna uf of.
End S.
