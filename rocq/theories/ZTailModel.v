(** The two Z-value formulas for p-values too small for a float, in binary64 arithmetic, operation by operation:
    phik/statistics.py:108-138 [z_from_logp] and the Chernoff fallback of phik/significance.py:90-111 and 189-200.
    The logarithm, the exponential and scipy's distributions are parameters. *)
From Coq Require Import ZArith Bool List.
From Flocq Require Import BinarySingleNaN.
From Verif Require Import F64 Base BrentFModel GlobFModel.
Import ListNotations.

(** np.inf, -np.inf, np.pi = math.pi = 7074237752028440 / 2^51 *)
Definition fpinf : f64 := B754_infinity false.
Definition fminf : f64 := B754_infinity true.
Definition fpi : f64 := flit 7074237752028440 (-51).
(** 2 * np.pi *)
Definition f2pi : f64 := fmult (ofZ 2) fpi.

Section Lib.
(** log of the C library; np.exp; scipy.stats.norm.ppf; scipy.stats.chi2.sf(chi2, ndof) *)
Variable flog : f64 -> f64.
Variable fexpo : f64 -> f64.
Variable fppf : f64 -> f64.
Variable fsf : f64 -> f64 -> f64.

(** statistics.py:108-138 *)
Definition z_from_logp64 (logp : f64) (flip_sign : bool) : f64 :=
  if feqb logp fminf then (if flip_sign then fminf else fpinf)
  else
    let p := fexpo logp in
    let z := if feqb p fzero
             then let u := fminus (fmult (ofZ (-2)) (flog f2pi)) (fmult (ofZ 2) logp) in fsqrt (fminus u (flog u))
             else fopp (fppf p) in
    if flip_sign then fmult z (ofZ (-1)) else z.

(** math.log and math.sqrt raise ValueError outside their domain; a NaN passes through *)
Definition fmlog (x : f64) : res f64 := if fle x fzero then Raise ValueError else Ok (flog x).
Definition fmsqrt (x : f64) : res f64 := if flt x fzero then Raise ValueError else Ok (fsqrt x).
(** significance.py:107-109; with [Some f], significance.py:192-198 where the fit with fraction f was made *)
Definition chernoff64 (chi2 ndof : f64) (f : option f64) : res f64 :=
  let z := fdiv chi2 ndof in
  let* l2pi := fmlog f2pi in
  let* lz := fmlog z in
  let u := fplus (fminus (fopp l2pi) (fmult ndof lz)) (fmult ndof (fminus z (ofZ 1))) in
  let* u := match f with None => Ok u | Some f => let* lf := fmlog f in Ok (fplus u (fmult (ofZ (-2)) lf)) end in
  let* lu := fmlog u in
  fmsqrt (fminus u lu).
(** significance.py:90-111 [significance_from_chi2_ndof] *)
Definition significance64 (chi2 ndof : f64) : res (f64 * f64) :=
  let p := fsf chi2 ndof in
  if feqb p fzero then let* z := chernoff64 chi2 ndof None in Ok (p, z) else Ok (p, fopp (fppf p)).
End Lib.
