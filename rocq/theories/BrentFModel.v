(** scipy.optimize.brentq and the last part of phik/bivariate.py:173-227 [phik_from_chi2] in binary64 arithmetic, operation by operation.
    brentq is scipy/optimize/Zeros/brentq.c (scipy >= 1.7, which compares sign bits; earlier versions compare the product with 0, which
    differs only when the product underflows). The objective is an arbitrary function from floats to floats. *)
From Coq Require Import ZArith Bool List.
From Flocq Require Import BinarySingleNaN.
From Verif Require Import F64 Base.
Import ListNotations.

Definition fabs (x : f64) : f64 := Babs x.
Definition fopp (x : f64) : f64 := Bopp x.
Definition signbit (x : f64) : bool := Bsign x.
Definition fone : f64 := ofZ 1.
Definition ftwo : f64 := ofZ 2.
Definition fthree : f64 := ofZ 3.
(** #define MIN(a, b) ((a) < (b) ? (a) : (b)) *)
Definition cmin (a b : f64) : f64 := if flt a b then a else b.
Definition nonzero (x : f64) : bool := negb (feqb x fzero).

Record fst64 := mkS { x_pre : f64; f_pre : f64; x_cur : f64; f_cur : f64; x_blk : f64; f_blk : f64; s_pre : f64; s_cur : f64 }.

(** if (fpre != 0 && fcur != 0 && (signbit(fpre) != signbit(fcur))) { xblk = xpre; fblk = fpre; spre = scur = xcur - xpre; } *)
Definition opposite (x y : f64) : bool := nonzero x && nonzero y && xorb (signbit x) (signbit y).
Definition s_rebracket (s : fst64) : fst64 :=
  if opposite (f_pre s) (f_cur s)
  then mkS (x_pre s) (f_pre s) (x_cur s) (f_cur s) (x_pre s) (f_pre s) (fminus (x_cur s) (x_pre s)) (fminus (x_cur s) (x_pre s)) else s.
(** if (fabs(fblk) < fabs(fcur)) { xpre = xcur; xcur = xblk; xblk = xpre; fpre = fcur; fcur = fblk; fblk = fpre; } *)
Definition s_swap (s : fst64) : fst64 :=
  if flt (fabs (f_blk s)) (fabs (f_cur s)) then mkS (x_cur s) (f_cur s) (x_blk s) (f_blk s) (x_cur s) (f_cur s) (s_pre s) (s_cur s) else s.
(** delta = (xtol + rtol*fabs(xcur))/2; sbis = (xblk - xcur)/2; *)
Definition s_delta (xtol rtol : f64) (s : fst64) : f64 := fdiv (fplus xtol (fmult rtol (fabs (x_cur s)))) ftwo.
Definition s_bis (s : fst64) : f64 := fdiv (fminus (x_blk s) (x_cur s)) ftwo.
(** the trial step: secant, or inverse quadratic extrapolation *)
Definition s_try (s : fst64) : f64 :=
  if feqb (x_pre s) (x_blk s)
  then fdiv (fmult (fopp (f_cur s)) (fminus (x_cur s) (x_pre s))) (fminus (f_cur s) (f_pre s))
  else let dpre := fdiv (fminus (f_pre s) (f_cur s)) (fminus (x_pre s) (x_cur s)) in
       let dblk := fdiv (fminus (f_blk s) (f_cur s)) (fminus (x_blk s) (x_cur s)) in
       fdiv (fmult (fopp (f_cur s)) (fminus (fmult (f_blk s) dblk) (fmult (f_pre s) dpre)))
            (fmult (fmult dblk dpre) (fminus (f_blk s) (f_pre s))).
Definition s_steps (xtol rtol : f64) (s : fst64) : f64 * f64 :=
  let delta := s_delta xtol rtol s in let sbis := s_bis s in
  if flt delta (fabs (s_pre s)) && flt (fabs (f_cur s)) (fabs (f_pre s))
  then if flt (fmult ftwo (fabs (s_try s))) (cmin (fabs (s_pre s)) (fminus (fmult fthree (fabs sbis)) delta)) then (s_cur s, s_try s) else (sbis, sbis)
  else (sbis, sbis).
(** xpre = xcur; fpre = fcur; if (fabs(scur) > delta) xcur += scur; else xcur += (sbis > 0 ? delta : -delta); fcur = f(xcur) *)
Definition s_move (f : f64 -> f64) (xtol rtol : f64) (s : fst64) : fst64 :=
  let delta := s_delta xtol rtol s in let sbis := s_bis s in
  let '(sp, sc) := s_steps xtol rtol s in
  let x := fplus (x_cur s) (if flt delta (fabs sc) then sc else if flt fzero sbis then delta else fopp delta) in
  mkS (x_cur s) (f_cur s) x (f x) (x_blk s) (f_blk s) sp sc.
Fixpoint s_loop (f : f64 -> f64) (xtol rtol : f64) (iter : nat) (s : fst64) : res f64 :=
  match iter with
  | O => Raise RuntimeError
  | S k => let s := s_swap (s_rebracket s) in
           if negb (nonzero (f_cur s)) || flt (fabs (s_bis s)) (s_delta xtol rtol s) then Ok (x_cur s)
           else s_loop f xtol rtol k (s_move f xtol rtol s)
  end.
Definition brentq64 (f : f64 -> f64) (a b xtol rtol : f64) (iter : nat) : res f64 :=
  if negb (nonzero (f a)) then Ok a else if negb (nonzero (f b)) then Ok b
  else if Bool.eqb (signbit (f a)) (signbit (f b)) then Raise ValueError
  else s_loop f xtol rtol iter (mkS a (f a) b (f b) fzero fzero fzero fzero).

(** the float nearest to 1e-5 (bivariate.py:226, xtol=1e-5); scipy's default rtol = 4 * np.finfo(float).eps = 2^-50 and maxiter = 100 *)
Definition xtol64 : f64 := flit 5902958103587057 (-69).
Definition rtol64 : f64 := flit 1 (-50).

(** np.isclose(a, b, atol=1E-14) for finite a and b: abs(a - b) <= atol + rtol * abs(b) with rtol = 1e-5 (bivariate.py:219) *)
Definition atol64 : f64 := flit 6338253001141147 (-99).
Definition isclose64 (a b : f64) : bool := fle (fabs (fminus a b)) (fplus atol64 (fmult xtol64 (fabs b))).

(** bivariate.py:217-227: what [phik_from_chi2] does once the maximal chi2 and the objective [f] (chi2_from_phik with its arguments) are
    known; the objective depends on the possibly corrected chi2 *)
Definition phik_from_chi2_64 (f : f64 -> f64 -> f64) (chi2 chi2_max pedestal : f64) : res f64 :=
  let chi2 := if flt chi2_max chi2 && isclose64 chi2 chi2_max then chi2_max else chi2 in
  if fle chi2 pedestal then Ok fzero
  else if fle chi2_max chi2 then Ok fone
  else brentq64 (f chi2) fzero fone xtol64 rtol64 100.

(** bivariate.py:164-170, the last steps of [chi2_from_phik], in terms of the number chi2_rho = n * np.sum(ratio) computed before; the
    scale is the one of bivariate.py:217 *)
Definition scale64 (chi2_max pedestal chi2_one : f64) : f64 := fdiv (fminus chi2_max pedestal) chi2_one.
Definition objective64 (chi2_rho : f64 -> f64) (chi2_max pedestal chi2_one : f64) (chi2 rho : f64) : f64 :=
  fminus (fplus pedestal (fmult (chi2_rho rho) (scale64 chi2_max pedestal chi2_one))) chi2.
