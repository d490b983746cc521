(** Model of phik/betainc.py over exact reals (rounding is not modelled). *)
From Coq Require Import ZArith List Bool Reals.
From Verif Require Import Base StatsModel Num.
Import ListNotations.
Open Scope R_scope.

(** float division; with Python floats a zero divisor raises (with numpy floats the result is an infinity or NaN and a warning) *)
Definition rdiv (x y : R) : res R := if reqb y 0 then Raise ZeroDivisionError else Ok (x / y).

(** the loop variables am, bm, az, bz of [contfractbeta] *)
Record cfstate := mkCf { am : R; bm : R; az : R; bz : R }.

(** betainc.py:36-42: the values before the loop *)
Definition cf_start (a b x : R) : res cfstate := let* q := rdiv ((a + b) * x) (a + 1) in Ok (mkCf 1 1 1 (1 - q)).

(** betainc.py:45-56: one iteration, em = i + 1 *)
Definition cf_step (a b x em : R) (s : cfstate) : res cfstate :=
  let tem := em + em in
  let* d := rdiv (em * (b - em) * x) ((a - 1 + tem) * (a + tem)) in
  let ap := az s + d * am s in
  let bp := bz s + d * bm s in
  let* d' := rdiv (- (a + em) * (a + b + em) * x) ((a + 1 + tem) * (a + tem)) in
  let app := ap + d' * az s in
  let bpp := bp + d' * bz s in
  let* am' := rdiv ap bpp in
  let* bm' := rdiv bp bpp in
  let* az' := rdiv app bpp in
  Ok (mkCf am' bm' az' 1).

(** betainc.py:44-60: the loop; [n] iterations are left and [i] is the loop counter *)
Fixpoint cf_loop (a b x EPS : R) (n i : nat) (s : cfstate) : res R :=
  match n with
  | O => Raise ValueError
  | S n' =>
      let* s' := cf_step a b x (INR i + 1) s in
      if rltb (Rabs (az s' - az s)) (EPS * Rabs (az s')) then Ok (az s') else cf_loop a b x EPS n' (S i) s'
  end.

(** betainc.py:20-60 [contfractbeta] *)
Definition contfractbeta (a b x : R) (ITMAX : nat) (EPS : R) : res R :=
  let* s := cf_start a b x in cf_loop a b x EPS (S ITMAX) 0 s.
(** the default arguments ITMAX=5000, EPS=1.0e-7 *)
Definition cf_default (a b x : R) : res R := contfractbeta a b x (N.to_nat 5000) (1 / 10000000).

(** np.log: NaN below zero, -inf at zero *)
Definition nlog (x : R) : num := if rltb x 0 then NaN else if reqb x 0 then MInf else Fin (ln x).

Section Gamma.
(** scipy.special.gammaln *)
Variable gammaln : R -> R.

(** betainc.py:86, 123; np.log(x) is NaN outside [0,1] for x or 1-x (0 and 1 are excluded before) *)
Definition lbeta (a b x : R) : num :=
  match nlog x, nlog (1 - x) with
  | Fin lx, Fin ly => Fin (gammaln (a + b) - gammaln a - gammaln b + a * lx + b * ly)
  | _, _ => NaN
  end.
(** np.exp(lbeta) * t *)
Definition exp_times (l : num) (t : R) : num := match l with Fin l => Fin (exp l * t) | _ => NaN end.
(** 1 - p *)
Definition one_minus (p : num) : num := match p with Fin p => Fin (1 - p) | NaN => NaN | PInf => MInf | MInf => PInf end.
(** np.log of a float *)
Definition nlogn (x : num) : num := match x with Fin r => nlog r | PInf => PInf | _ => NaN end.
(** x - y *)
Definition nsub (x y : num) : num := nadd x (nneg y).

(** betainc.py:63-91 [incompbeta] *)
Definition incompbeta (a b x : R) : res num :=
  if reqb x 0 then Ok (Fin 0)
  else if reqb x 1 then Ok (Fin 1)
  else
    let* switch := rdiv (a + 1) (a + b + 2) in
    if rltb x switch then
      let* cf := cf_default a b x in
      let* t := rdiv cf a in
      Ok (exp_times (lbeta a b x) t)
    else
      let* cf := cf_default b a (1 - x) in
      let* t := rdiv cf b in
      Ok (one_minus (exp_times (lbeta a b x) t)).

(** betainc.py:94-134 [log_incompbeta] *)
Definition log_incompbeta (a b x : R) : res (num * num) :=
  if reqb x 0 then Ok (MInf, Fin 0)
  else if reqb x 1 then Ok (Fin 0, MInf)
  else
    let* switch := rdiv (a + 1) (a + b + 2) in
    if rltb x switch then
      let* cf := cf_default a b x in
      let* t := rdiv cf a in
      let p := exp_times (lbeta a b x) t in
      let logp := nsub (nadd (lbeta a b x) (nlog cf)) (nlog a) in
      Ok (logp, nlogn (one_minus p))
    else
      let* cf := cf_default b a (1 - x) in
      let* t := rdiv cf b in
      let p := one_minus (exp_times (lbeta a b x) t) in
      let logq := nsub (nadd (lbeta a b x) (nlog cf)) (nlog b) in
      Ok (nlogn p, logq).
End Gamma.
