(** Model of phik/significance.py.  Floating-point results are [num]; scipy's distributions and optimiser are parameters. *)
From Coq Require Import String ZArith List Bool Reals.
From Flocq Require Import Core.
Import ListNotations.
From Verif Require Import F64 Base Cells BinModel HistModel RSum StatsModel BivModel Num PhikModel ArrayModel RcontModel SimModel.
Open Scope list_scope.
Open Scope R_scope.

(** scipy: chi2.sf(x, df), norm.sf(x, loc, scale), norm.ppf, chi2.pdf, norm.pdf, least_squares(fun, (x0,), bounds=(0,1)) for one
    parameter, and the value percentileofscore gives for an empty list (100 or NaN, depending on the version) *)
Record slib := mkSlib {
  chi2_sf : R -> R -> num;
  norm_sf : R -> R -> R -> num;
  norm_ppf : num -> num;
  chi2_pdf : R -> R -> R;
  norm_pdf : R -> R -> R -> R;
  least_squares : (R -> list num) -> R -> res R;
  rank_of_empty : num }.

(** np.mean *)
Definition mean (l : list R) : num := match l with [] => NaN | _ => Fin (lsum (fun x => x) l / INR (length l)) end.

(** np.histogram(l, bins=n) of a non-empty list: range [min, max] (widened by 1/2 on both sides if they are equal), n equal bins,
    the last one closed *)
Definition lmin (l : list R) : R := match l with [] => 0 | x :: l' => fold_left Rmin l' x end.
Definition lmax (l : list R) : R := match l with [] => 0 | x :: l' => fold_left Rmax l' x end.
Definition hrange (l : list R) : R * R := if reqb (lmin l) (lmax l) then (lmin l - 1/2, lmax l + 1/2) else (lmin l, lmax l).
Definition hbound (l : list R) (n i : nat) : R := let '(a, b) := hrange l in a + INR i * ((b - a) / INR n).
Definition in_hbin (l : list R) (n i : nat) (x : R) : bool :=
  rleb (hbound l n i) x && (rltb x (hbound l n (S i)) || (Nat.eqb (S i) n && rleb x (hbound l n (S i)))).
Definition hcounts (l : list R) (n : nat) : list nat := map (fun i => length (filter (in_hbin l n i) l)) (seq 0 n).

Section Lib.
Variable SL : slib.

(** significance.py:74-87 [hfunc] (the same formula as the local myfunc, 53-54) *)
Definition hfunc (x N f k sigma : R) : R := N * (f * chi2_pdf SL x k + (1 - f) * norm_pdf SL x k sigma).
(** np.sqrt(f - xlogy(y, f) + gammaln(y + 1)) for a count y (significance.py:57-60) *)
Definition residual (f : R) (y : nat) : num :=
  if Nat.eqb y 0 then (if rltb f 0 then NaN else Fin (sqrt f))
  else if rltb f 0 then NaN
  else if reqb f 0 then PInf
  else let ll := f - INR y * ln f + ln (INR (fact y)) in if rltb ll 0 then NaN else Fin (sqrt ll).
(** significance.py:36-71 [fit_test_statistic_distribution]: (f, ndof, sigma, bin width). An empty list or a zero mean makes
    the residuals NaN, which least_squares rejects with ValueError. *)
Definition fit_test_statistic_distribution (chi2s : list R) (nbins : nat) : res (R * R * R * R) :=
  match mean chi2s with
  | Fin kmean =>
      if rleb kmean 0 then Raise ValueError
      else
        let lsigma := sqrt kmean in
        let nsim := INR (length chi2s) in
        let bw := hbound chi2s nbins 1 - hbound chi2s nbins 0 in
        let xhist := map (fun i => hbound chi2s nbins i + (hbound chi2s nbins (S i) - hbound chi2s nbins i) / 2) (seq 0 nbins) in
        let gtest f := map (fun xy => residual (hfunc (fst xy) (nsim * bw) f kmean lsigma) (snd xy)) (combine xhist (hcounts chi2s nbins)) in
        let* f := least_squares SL gtest 1 in
        Ok (f, kmean, lsigma, bw)
  | _ => Raise ValueError
  end.

(** the Chernoff fallback (significance.py:106-109 and 186-192): math.log raises ValueError for arguments <= 0 *)
Definition mlog (x : R) : res R := if rleb x 0 then Raise ValueError else Ok (ln x).
Definition chernoff (chi2 ndof extra : R) : res num :=
  let z := chi2 / ndof in
  let* lz := mlog z in
  let u := - ln (2 * PI) - ndof * lz + ndof * (z - 1) + extra in
  let* lu := mlog u in
  if rltb (u - lu) 0 then Raise ValueError else Ok (Fin (sqrt (u - lu))).

(** significance.py:90-111 [significance_from_chi2_ndof] *)
Definition significance_from_chi2_ndof (chi2 ndof : R) : res (num * num) :=
  let p_value := chi2_sf SL chi2 ndof in
  if neqb p_value (Fin 0) then let* z := chernoff chi2 ndof 0 in Ok (p_value, z)
  else Ok (p_value, nneg (norm_ppf SL p_value)).

(** significance.py:114-128 [significance_from_chi2_asymptotic] *)
Definition significance_from_chi2_asymptotic (values : mat) (chi2 : R) : res (num * num) :=
  significance_from_chi2_ndof chi2 (IZR (theoretical_ndof values)).

(** scipy.stats.percentileofscore(a, score, kind='rank') *)
Definition percentileofscore (a : list R) (score : R) : num :=
  match a with
  | [] => rank_of_empty SL
  | _ =>
      let left := length (filter (fun x => rltb x score) a) in
      let right := length (filter (fun x => rleb x score) a) in
      let plus1 := if Nat.ltb left right then 1%nat else 0%nat in
      Fin (INR (left + right + plus1) * 50 / INR (length a))
  end.
(** 1. - x / 100. *)
Definition one_minus_percent (x : num) : num := match x with Fin r => Fin (1 - r / 100) | NaN => NaN | PInf => MInf | MInf => PInf end.

(** significance.py:131-152 [significance_from_chi2_MC] with the simulated values given *)
Definition MC_of_chi2s (chi2 : R) (chi2s : list R) : num * num :=
  let p := one_minus_percent (percentileofscore chi2s chi2) in (p, nneg (norm_ppf SL p)).

(** significance.py:180: values.sum() / values.shape[0] * values.shape[1] *)
Definition avg_per_bin (values : mat) : R := matsum values / INR (nr values) * INR (nc values).
(** a * p + b * q of floats, a, b real *)
Definition nmix (a : R) (p : num) (b : R) (q : num) : num :=
  match p, q with Fin p, Fin q => Fin (a * p + b * q) | _, _ => NaN end.
(** significance.py:154-200 [significance_from_chi2_hybrid] with the simulated values given *)
Definition hybrid_of_chi2s (chi2 : R) (values : mat) (chi2s : list R) : res (num * num) :=
  if rleb (avg_per_bin values) 4 then
    let* r := fit_test_statistic_distribution chi2s 50 in
    let '(f, endof, lsigma, bw) := r in
    let p := nmix f (chi2_sf SL chi2 endof) (1 - f) (norm_sf SL chi2 endof lsigma) in
    if neqb p (Fin 0) then
      (* u is incremented after log(z) and before log(u) *)
      let* _ := mlog (chi2 / endof) in
      let* lf := mlog f in
      let* z := chernoff chi2 endof (- (2 * lf)) in Ok (p, z)
    else Ok (p, nneg (norm_ppf SL p))
  else
    match mean chi2s with
    | Fin endof => significance_from_chi2_ndof chi2 endof
    | _ => Ok (NaN, nneg (norm_ppf SL NaN))
    end.

Section Sim.
Variable St : Type.
Variable multinomial : Z -> list R -> St -> res (list Z) * St.
Variable randint : Z -> Z -> St -> Z * St.
Variables (libm_exp libm_log : f64 -> f64) (uninit : nat -> list Z) (ib0 : Z) (fuel : nat) (cpp : bool).
Variable clamp : bool.
Notation M := (SimModel.M St).

(** [workers]: see sim_chi2_distribution; [chi2s]: the optional argument *)
Definition get_chi2s (values : mat) (nsim : Z) (l : lambda) (method : string) (chi2s : option (list R)) (workers : option (nat -> St)) : M (list R) :=
  match chi2s with
  | Some c => ret St c
  | None => sim_chi2_distribution St multinomial randint libm_exp libm_log uninit ib0 fuel cpp clamp values nsim l method false workers
  end.
Definition significance_from_chi2_MC (chi2 : R) (values : mat) nsim l method chi2s workers : M (num * num) :=
  mbind St (get_chi2s values nsim l method chi2s workers) (fun c => ret St (MC_of_chi2s chi2 c)).
Definition significance_from_chi2_hybrid (chi2 : R) (values : mat) nsim l method chi2s workers : M (num * num) :=
  mbind St (get_chi2s values nsim l method chi2s workers) (fun c => lift St (hybrid_of_chi2s chi2 values c)).

(** significance.py:203-239 [significance_from_hist2d] *)
Definition significance_from_hist2d (values : mat) (nsim : Z) (l : lambda) (simulation_method significance_method : string)
    (workers : option (nat -> St)) : M (num * num) :=
  mbind St (lift St (get_chi2 clamp values l)) (fun chi2 =>
  if String.eqb significance_method "asymptotic" then lift St (significance_from_chi2_asymptotic values chi2)
  else if String.eqb significance_method "MC" then significance_from_chi2_MC chi2 values nsim l simulation_method None workers
  else if String.eqb significance_method "hybrid" then significance_from_chi2_hybrid chi2 values nsim l simulation_method None workers
  else mraise St NotImplementedError).

(** one pair of columns (significance.py:274-289); the random states of the worker processes may differ from pair to pair *)
Definition calc_signif nsim l simm sigm (workers : string -> string -> option (nat -> St)) (p q : string * col) : M (string * string * num) :=
  let '(c0, x) := p in let '(c1, y) := q in
  let h := crosstab (combine (c_cells x) (c_cells y)) in
  if is01 (length (h_rows h)) || is01 (length (h_cols h)) then ret St (c0, c1, NaN)
  else mbind St (significance_from_hist2d (hmat h) nsim l simm sigm (workers c0 c1)) (fun pz => ret St (c0, c1, snd pz)).

(** significance.py:242-299 [significance_from_rebinned_df]; the second component of the result is the frame left behind *)
Definition significance_from_rebinned_df (f : frame) (l : lambda) simm (nsim : Z) sigm (dropna uf of : bool) workers : M ntable * frame :=
  let f' := clean dropna uf of f in
  let order := keys f' in
  (mbind St (mmap St (fun pq => calc_signif nsim l simm sigm workers (fst pq) (snd pq)) (combos f')) (fun vals =>
   ret St (match vals with
           | [] => mkT order order (map (fun _ => map (fun _ => NaN) order) order)
           | _ => reindex (overview vals) order
           end)), f').

Variable npq : list f64 -> Z -> list f64.
(** significance.py:302-338 [significance_matrix]: there is no quantile argument *)
Definition significance_matrix (df : frame) (interval_cols : option (list string)) (l : lambda) simm (nsim : Z) sigm (bins : bins_arg)
    (dropna uf of : bool) workers : M ntable :=
  let ic := match interval_cols with Some c => c | None => guess_interval_cols df end in
  let '(df_clean, ic') := dq_check_nunique_values df ic dropna in
  mbind St (lift St (bin_data npq df_clean ic' bins false)) (fun bd =>
  fst (significance_from_rebinned_df (fst bd) l simm nsim sigm dropna uf of workers)).

Variable str : cell -> string.
(** significance.py:384-429 [significance_from_binned_array] *)
Definition significance_from_binned_array (x y : list cell) (l : lambda) sigm (nsim : Z) simm (dropna uf of : bool) workers : M (num * num) :=
  let h := crosstab (combine (clean_array str dropna uf of x) (clean_array str dropna uf of y)) in
  if negb (fst (dq_check_hist2d (length (h_rows h)) (length (h_cols h)))) then ret St (NaN, NaN)
  else significance_from_hist2d (hmat h) nsim l simm sigm workers.
(** significance.py:341-381 [significance_from_array] *)
Definition significance_from_array (x y : arr) (num_vars : list string) (bins : bins_arg) (quantile : bool) (l : lambda) (nsim : Z) sigm simm
    (dropna uf of : bool) workers : M (num * num) :=
  match num_vars with
  | [] => significance_from_binned_array (a_cells x) (a_cells y) l sigm nsim simm dropna uf of workers
  | _ =>
      mbind St (lift St (bin_data npq (array_like_to_dataframe str x y) num_vars bins quantile)) (fun bd =>
      match fst bd with
      | [(_, bx); (_, by')] => significance_from_binned_array (c_cells bx) (c_cells by') l sigm nsim simm dropna uf of workers
      | _ => mraise St ValueError
      end)
  end.
End Sim.
End Lib.
