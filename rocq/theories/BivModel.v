(** Model of phik/bivariate.py:24-227 in exact real arithmetic. Oracles: [mvn rho lx ly ux uy] is scipy's mvn.mvnun (the
    integral of the bivariate normal with correlation rho over the rectangle), [bq] is scipy.optimize.brentq. *)
From Coq Require Import List Reals Bool ZArith.
Import ListNotations.
From Verif Require Import Base RSum StatsModel SpecSolver.
Open Scope R_scope.

Definition mvn_fun := R -> R -> R -> R -> R -> R.

(** Python list indexing (a negative index counts from the end) and range(n) *)
Definition py_get (l : list R) (i : Z) : res R :=
  let k := if (i <? 0)%Z then (i + Z.of_nat (length l))%Z else i in
  if (k <? 0)%Z then Raise IndexError else match nth_error l (Z.to_nat k) with Some v => Ok v | None => Raise IndexError end.
Definition zrange (n : Z) : list Z := map Z.of_nat (seq 0 (Z.to_nat n)).

(** bivariate.py:96,98,141,144,203,207: np.linspace(-5, 5, n+1) *)
Definition linspace5 (n : Z) : res (list R) :=
  if (n + 1 <? 0)%Z then Raise ValueError
  else Ok (map (fun i => -5 + INR i * (10 / IZR n)) (seq 0 (Z.to_nat (n + 1)))).

(** bivariate.py:73-74, 63-71 [_calc_mvnun] for the cell (i, j) *)
Definition cell_prob (mvn : mvn_fun) (rho : R) (sx sy : list R) (c : Z * Z) : res R :=
  let '(i, j) := c in
  let* a := py_get sx i in let* b := py_get sy j in let* a' := py_get sx (i + 1) in let* b' := py_get sy (j + 1) in Ok (mvn rho a b a' b').
(** bivariate.py:60-71: which cells are computed, and whether the centre is among them *)
Definition half_ranges (n1 n2 : Z) : list (Z * Z) * bool :=
  let block := list_prod (zrange (n1 / 2)) (zrange n2) in
  if (n1 mod 2 =? 1)%Z
  then let mid := map (fun j => (n1 / 2, j)%Z) (zrange (n2 / 2)) in
       if (n2 mod 2 =? 1)%Z then (block ++ mid ++ [(n1 / 2, n2 / 2)%Z], true) else (block ++ mid, false)
  else (block, false).
(** bivariate.py:40-76 [_mvn_array] *)
Definition mvn_array (mvn : mvn_fun) (rho : R) (sx sy : list R) : res (list R) :=
  let '(ranges, odd_odd) := half_ranges (Z.of_nat (length sx) - 1) (Z.of_nat (length sy) - 1) in
  let* corr := mapM (cell_prob mvn rho sx sy) ranges in
  Ok (corr ++ if odd_odd : bool then removelast corr else corr).

(** bivariate.py:154-156,163-165,213-216: sum of (c-c0)^2/c0 where c0 is not zero. The two arrays have the same length
    unless a caller passes a foreign corr0 (numpy would then raise; not modelled: the shorter length is used) *)
Definition ratio_sum (c c0 : list R) : R :=
  lsum (fun p : R * R => let '(x, x0) := p in if Req_EM_T x0 0 then 0 else (x - x0) ^ 2 / x0) (combine c c0).

Definition edges_or (s : option (list R)) (n : Z) : res (list R) := match s with Some e => Ok e | None => linspace5 n end.

(** bivariate.py:118-170 [chi2_from_phik]. Division by chi2_one = 0 is not modelled (numpy yields inf/nan): theorems that
    use the scale assume it is not zero *)
Definition chi2_from_phik (mvn : mvn_fun) (rho n subtract : R) (corr0 : option (list R)) (scale : option R)
    (sx sy : option (list R)) (pedestal : R) (nx ny : Z) : res R :=
  let* sx := edges_or sx nx in
  let* sy := edges_or sy ny in
  let* corr0 := match corr0 with Some c => Ok c | None => mvn_array mvn 0 sx sy end in
  let* scale := match scale with
                | Some s => Ok s
                | None => let* corr1 := mvn_array mvn 1 sx sy in
                          let chi2_one := n * ratio_sum corr1 corr0 in
                          let chi2_max := n * IZR (Z.min (nx - 1) (ny - 1)) in
                          Ok ((chi2_max - pedestal) / chi2_one)
                end in
  let* corrr := mvn_array mvn rho sx sy in
  Ok (pedestal + n * ratio_sum corrr corr0 * scale - subtract).

(** bivariate.py:219: np.isclose(a, b, atol=1E-14), default rtol=1e-5 *)
Definition isclose (a b : R) : bool := rleb (Rabs (a - b)) (1 / 10 ^ 14 + 1 / 10 ^ 5 * Rabs b).
(** bivariate.py:226: xtol=1e-5 *)
Definition phik_xtol : R := 1 / 10 ^ 5.

(** bivariate.py:201-208: explicit edges need a bin count > 1 *)
Definition edges_checked (s : option (list R)) (n : Z) : res (list R) :=
  match s with None => linspace5 n | Some e => if (n <=? 1)%Z then Raise ValueError else Ok e end.
(** the function handed to brentq (bivariate.py:226); it cannot raise there because corr0 was computed on the same edges *)
Definition solver_fun (mvn : mvn_fun) (n chi2 : R) (corr0 : list R) (scale : R) (sx sy : list R) (pedestal : R) (rho : R) : R :=
  match chi2_from_phik mvn rho n chi2 (Some corr0) (Some scale) (Some sx) (Some sy) pedestal (-1) (-1) with Ok v => v | Raise _ => 0 end.
(** bivariate.py:173-227 [phik_from_chi2]; the many-cells warning (lines 210-211) is not modelled *)
Definition phik_from_chi2 (mvn : mvn_fun) (bq : root_finder) (chi2 n : R) (nx ny : Z) (sx sy : option (list R)) (pedestal : R) : res R :=
  if rltb pedestal 0 then Raise ValueError
  else
    let* sx := edges_checked sx nx in
    let* sy := edges_checked sy ny in
    let* corr0 := mvn_array mvn 0 sx sy in
    let* corr1 := mvn_array mvn 1 sx sy in
    let chi2_one := n * ratio_sum corr1 corr0 in
    let chi2_max := n * IZR (Z.min (nx - 1) (ny - 1)) in
    let scale := (chi2_max - pedestal) / chi2_one in
    let chi2 := if andb (rltb chi2_max chi2) (isclose chi2 chi2_max) then chi2_max else chi2 in
    if rleb chi2 pedestal then Ok 0
    else if rleb chi2_max chi2 then Ok 1
    else bq (solver_fun mvn n chi2 corr0 scale sx sy pedestal) 0 1 phik_xtol.

(** np.finfo(float).eps *)
Definition eps64 : R := / 2 ^ 52.
(** bivariate.py:77-115 [bivariate_normal_theory]: table with ny rows and nx columns *)
Definition bivariate_normal_theory (mvn : mvn_fun) (rho : R) (nx ny : Z) (n : R) (sx sy : option (list R)) : res mat :=
  if rltb n 1 then Raise ValueError
  else
    let* sx := edges_or sx nx in
    let* sy := edges_or sy ny in
    if orb (nx <? 0)%Z (ny <? 0)%Z then Raise ValueError
    else
      let n1 := (length sx - 1)%nat in let n2 := (length sy - 1)%nat in
      (* bvn[j, i] = p is out of bounds as soon as both loops run and one count exceeds the array *)
      if andb (negb (Nat.eqb n1 0 || Nat.eqb n2 0)) (orb (nx <? Z.of_nat n1)%Z (ny <? Z.of_nat n2)%Z) then Raise IndexError
      else Ok (mkMat (Z.to_nat ny) (Z.to_nat nx) (fun j i =>
        let v := if andb (Nat.ltb i n1) (Nat.ltb j n2) then mvn rho (nth i sx 0) (nth j sy 0) (nth (S i) sx 0) (nth (S j) sy 0) * n else 0 in
        if rltb v eps64 then eps64 else v)).
