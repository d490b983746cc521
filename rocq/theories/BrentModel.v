(** scipy.optimize.brentq (scipy/optimize/Zeros/brentq.c), called at phik/bivariate.py:226, in exact real arithmetic.
    Not part of /repo: modelled so that the contract assumed of the root finder is known to be met by the algorithm used.
    Simplification: real arithmetic instead of binary64; [signbit] comparisons become sign comparisons of non-zero values. *)
From Coq Require Import List Reals Bool.
From Verif Require Import Base RSum StatsModel.
Open Scope R_scope.

Record bst := mkB { xpre : R; fpre : R; xcur : R; fcur : R; xblk : R; fblk : R; spre : R; scur : R }.

Definition opp_sign (x y : R) : bool := orb (andb (rltb x 0) (rltb 0 y)) (andb (rltb 0 x) (rltb y 0)).

(** first two ifs of the loop body *)
Definition b_rebracket (s : bst) : bst :=
  if opp_sign (fpre s) (fcur s)
  then mkB (xpre s) (fpre s) (xcur s) (fcur s) (xpre s) (fpre s) (xcur s - xpre s) (xcur s - xpre s) else s.
Definition b_swap (s : bst) : bst :=
  if rltb (Rabs (fblk s)) (Rabs (fcur s)) then mkB (xcur s) (fcur s) (xblk s) (fblk s) (xcur s) (fcur s) (spre s) (scur s) else s.
Definition b_delta (xtol rtol : R) (s : bst) : R := (xtol + rtol * Rabs (xcur s)) / 2.
Definition b_sbis (s : bst) : R := (xblk s - xcur s) / 2.
Definition b_stry (s : bst) : R :=
  if reqb (xpre s) (xblk s) then - fcur s * (xcur s - xpre s) / (fcur s - fpre s)
  else let dpre := (fpre s - fcur s) / (xpre s - xcur s) in
       let dblk := (fblk s - fcur s) / (xblk s - xcur s) in
       - fcur s * (fblk s * dblk - fpre s * dpre) / (dblk * dpre * (fblk s - fpre s)).
(** the new pair (spre, scur) *)
Definition b_steps (xtol rtol : R) (s : bst) : R * R :=
  let delta := b_delta xtol rtol s in let sbis := b_sbis s in
  if andb (rltb delta (Rabs (spre s))) (rltb (Rabs (fcur s)) (Rabs (fpre s)))
  then if rltb (2 * Rabs (b_stry s)) (Rmin (Rabs (spre s)) (3 * Rabs sbis - delta)) then (scur s, b_stry s) else (sbis, sbis)
  else (sbis, sbis).
Definition b_move (f : R -> R) (xtol rtol : R) (s : bst) : bst :=
  let delta := b_delta xtol rtol s in let sbis := b_sbis s in
  let '(sp, sc) := b_steps xtol rtol s in
  let x := if rltb delta (Rabs sc) then xcur s + sc else if rltb 0 sbis then xcur s + delta else xcur s - delta in
  mkB (xcur s) (fcur s) x (f x) (xblk s) (fblk s) sp sc.
Fixpoint b_loop (f : R -> R) (xtol rtol : R) (iter : nat) (s : bst) : res R :=
  match iter with
  | O => Raise RuntimeError
  | S k => let s := b_swap (b_rebracket s) in
           if orb (reqb (fcur s) 0) (rltb (Rabs (b_sbis s)) (b_delta xtol rtol s)) then Ok (xcur s)
           else b_loop f xtol rtol k (b_move f xtol rtol s)
  end.
(** rtol = 4 * eps, maxiter = 100 are scipy's defaults *)
Definition brent_rtol : R := 4 * / 2 ^ 52.
Definition brent_iter (iter : nat) (f : R -> R) (a b xtol : R) : res R :=
  if reqb (f a) 0 then Ok a else if reqb (f b) 0 then Ok b
  else if negb (opp_sign (f a) (f b)) then Raise ValueError
  else b_loop f xtol brent_rtol iter (mkB a (f a) b (f b) 0 0 0 0).
Definition scipy_brentq := brent_iter 100.
