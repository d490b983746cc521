(** phik/simulation.py:42-126 in binary64: what [sim_2d_data] asks numpy's multinomial generator for, numpy's checks of these arguments,
    and the totals [sim_2d_data_patefield] hands to the compiled extension. numpy's sums are parameters, as in Chi2FModel. *)
From Coq Require Import ZArith List Bool Reals.
From Flocq Require Import Core BinarySingleNaN.
From Verif Require Import F64 Base StatsModel BrentFModel Chi2FModel RcontModel SimModel.
Import ListNotations.

(** statistics.py:22-33 [get_dependent_frequency_estimates] of a float64 table (simulation.py:174) *)
Definition fexpected (add_up : site -> list f64 -> f64) (m : fmat) : fmat := mkF (fr m) (fc m) (fun i j => Chi2FModel.fexp add_up m i j).
(** hist.ravel(), data[i] and data.T[j] *)
Definition fravel (m : fmat) : list f64 := map (fun c => fe m (fst c) (snd c)) (fcells m).
Definition frow_of (m : fmat) (i : nat) : list f64 := map (fe m i) (idx (fc m)).
Definition fcol_of (m : fmat) (j : nat) : list f64 := map (fun i => fe m i j) (idx (fr m)).

(** kahan_sum(darr, n) of numpy/random/mtrand.pyx, for the first n numbers of the array *)
Definition kahan_step (sc : f64 * f64) (d : f64) : f64 * f64 :=
  let '(s, c) := sc in let y := fminus d c in let t := fplus s y in (t, fminus (fminus t s) y).
Definition kahan_sum (l : list f64) : f64 := match l with [] => fzero | d :: r => fst (fold_left kahan_step r (d, fzero)) end.
(** the float 1.0 + 1e-12 *)
Definition one_1em12 : f64 := flit (2 ^ 52 + 4504) (-52).
(** mtrand.pyx [multinomial]: n >= 0, 0 <= pvals <= 1, and kahan_sum(pvals[:-1]) > 1.0 + 1e-12 raises ValueError; with a single probability the
    C code reads that one *)
Definition numpy_accepts (n : Z) (pvals : list f64) : bool :=
  (0 <=? n)%Z && forallb (fun p => fle fzero p && fle p fone) pvals &&
  negb (flt one_1em12 (kahan_sum (match pvals with [p] => [p] | _ => removelast pvals end))).

Section Args.
(** hist.sum() *)
Variable sum_up : list f64 -> f64.
(** simulation.py:42-61 [sim_2d_data]: number of trials and probabilities numpy draws with, or the exception. A float number of trials is
    truncated when numpy converts it to a C integer; a NaN total raises ValueError there (an infinite one OverflowError, written ValueError here) *)
Definition sim_args (hist : list f64) (ndata : Z) : res (Z * list f64) :=
  let total := sum_up hist in
  let go n := let p := map (fun x => fdiv x total) hist in if numpy_accepts n p then Ok (n, p) else Raise ValueError in
  if (ndata <=? 0)%Z then
    if fle total fzero then Raise ValueError
    else if ffin total then go (f_trunc total)
    else Raise ValueError
  else go ndata.
(** simulation.py:111-126 [sim_2d_product_multinominal] *)
Definition product_args (m : fmat) (axis : Z) : res (list (Z * list f64)) :=
  if (axis =? 1)%Z then mapM (fun i => sim_args (frow_of m i) 0) (seq 0 (fr m))
  else if (axis =? 0)%Z then mapM (fun j => sim_args (fcol_of m j) 0) (seq 0 (fc m))
  else Raise NotImplementedError.
(** np.rint and astype(np.int32) (simulation.py:93-96) *)
Definition f_rint (x : f64) : Z := ZnearestE (f2R x).
Definition patefield_rows (m : fmat) : list Z := map (fun i => to_int32 (f_rint (sum_up (frow_of m i)))) (seq 0 (fr m)).
Definition patefield_cols (m : fmat) : list Z := map (fun j => to_int32 (f_rint (sum_up (fcol_of m j)))) (seq 0 (fc m)).
End Args.
(** numpy's sum of fewer than 8 numbers: from left to right *)
Definition left_to_right (l : list f64) : f64 := fold_left fplus l fzero.
