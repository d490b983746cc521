(** phik/betainc.py:20-131 and phik/outliers.py:33-241, 342-428 (CI_method='poisson') in binary64 arithmetic, operation by operation.
    scipy's betainc, gammaln, poisson.sf/logsf, norm.ppf, numpy's log and exp and C's pow(x, 2) are parameters. *)
From Coq Require Import String ZArith List Bool.
From Flocq Require Import BinarySingleNaN.
From Verif Require Import F64 Base Cells BinModel HistModel PhikModel BrentFModel Chi2FModel GlobFModel ZTailModel OutFModel OutModel.
Import ListNotations.
Open Scope list_scope.

(** a / b: with Python floats a zero divisor raises, with numpy floats it gives an infinity or NaN *)
Definition pdiv (py : bool) (x y : f64) : res f64 := if py && feqb y fzero then Raise ZeroDivisionError else Ok (fdiv x y).

(** the loop variables am, bm, az, bz of [contfractbeta] *)
Record cf64 := mkCf64 { am64 : f64; bm64 : f64; az64 : f64; bz64 : f64 }.
(** betainc.py:36-42: bz = 1.0-qab*x/qap *)
Definition cf_start64 (py : bool) (a b x : f64) : res cf64 :=
  let* q := pdiv py (fmult (fplus a b) x) (fplus a fone) in Ok (mkCf64 fone fone fone (fminus fone q)).
(** betainc.py:45-56: one iteration, em = float(i+1) *)
Definition cf_step64 (py : bool) (a b x : f64) (i : nat) (s : cf64) : res cf64 :=
  let em := ofZ (Z.of_nat (S i)) in
  let tem := fplus em em in
  let qab := fplus a b in let qap := fplus a fone in let qam := fminus a fone in
  let* d := pdiv py (fmult (fmult em (fminus b em)) x) (fmult (fplus qam tem) (fplus a tem)) in
  let ap := fplus (az64 s) (fmult d (am64 s)) in
  let bp := fplus (bz64 s) (fmult d (bm64 s)) in
  let* d' := pdiv py (fmult (fmult (fopp (fplus a em)) (fplus qab em)) x) (fmult (fplus qap tem) (fplus a tem)) in
  let app := fplus ap (fmult d' (az64 s)) in
  let bpp := fplus bp (fmult d' (bz64 s)) in
  let* am' := pdiv py ap bpp in
  let* bm' := pdiv py bp bpp in
  let* az' := pdiv py app bpp in
  Ok (mkCf64 am' bm' az' fone).
(** betainc.py:44-61: the loop; [n] iterations are left, [i] is the loop counter *)
Fixpoint cf_loop64 (py : bool) (a b x EPS : f64) (n i : nat) (s : cf64) : res f64 :=
  match n with
  | O => Raise ValueError
  | S n' =>
      let* s' := cf_step64 py a b x i s in
      if flt (fabs (fminus (az64 s') (az64 s))) (fmult EPS (fabs (az64 s'))) then Ok (az64 s') else cf_loop64 py a b x EPS n' (S i) s'
  end.
(** betainc.py:20-61 [contfractbeta] *)
Definition contfractbeta64 (py : bool) (a b x : f64) (ITMAX : nat) (EPS : f64) : res f64 :=
  let* s := cf_start64 py a b x in cf_loop64 py a b x EPS (S ITMAX) 0 s.
(** the defaults ITMAX=5000 and EPS=1.0e-7 *)
Definition eps64 : f64 := flit 944473296573929 (-73).
Definition cf_default64 (a b x : f64) : res f64 := contfractbeta64 false a b x (N.to_nat 5000) eps64.

Section L.
Variable fbetainc : f64 -> f64 -> f64 -> f64.
Variable fgammaln : f64 -> f64.
(** scipy.stats.poisson.sf(k, mu) and logsf *)
Variables fpsf fplogsf : f64 -> f64 -> f64.
Variable fppf : f64 -> f64.
Variables flog fexpo pow2 : f64 -> f64.

(** betainc.py:86, 123 *)
Definition lbeta64 (a b x : f64) : f64 :=
  fplus (fplus (fminus (fminus (fgammaln (fplus a b)) (fgammaln a)) (fgammaln b)) (fmult a (flog x))) (fmult b (flog (fminus fone x))).
(** betainc.py:87, 125: x < (a + 1) / (a + b + 2) *)
Definition low_side64 (a b x : f64) : bool := flt x (fdiv (fplus a fone) (fplus (fplus a b) (ofZ 2))).
(** betainc.py:64-92 [incompbeta] (with numpy floats) *)
Definition incompbeta64 (a b x : f64) : res f64 :=
  if feqb x fzero then Ok fzero else if feqb x fone then Ok fone
  else
    let l := lbeta64 a b x in
    if low_side64 a b x then let* t := cf_default64 a b x in Ok (fdiv (fmult (fexpo l) t) a)
    else let* t := cf_default64 b a (fminus fone x) in Ok (fminus fone (fdiv (fmult (fexpo l) t) b)).
(** betainc.py:95-131 [log_incompbeta] *)
Definition log_incompbeta64 (a b x : f64) : res (f64 * f64) :=
  if feqb x fzero then Ok (fminf, fzero) else if feqb x fone then Ok (fzero, fminf)
  else
    let l := lbeta64 a b x in
    if low_side64 a b x then
      let* t := cf_default64 a b x in
      let p := fdiv (fmult (fexpo l) t) a in
      Ok (fminus (fplus l (flog t)) (flog a), flog (fminus fone p))
    else
      let* t := cf_default64 b a (fminus fone x) in
      let p := fminus fone (fmult (fexpo l) (fdiv t b)) in
      Ok (flog p, fminus (fplus l (flog t)) (flog b)).

(** outliers.py:33-73 [poisson_obs_p] *)
Definition poisson_obs_p64 (nobs : Z) (nexp nexperr : f64) : f64 :=
  if Z.eqb nobs 0 then fone
  else if flt fzero nexperr then let '(b, x) := linnemann64 nexp nexperr in fbetainc (ofZ nobs) b x
  else fpsf (ofZ (nobs - 1)) nexp.
(** outliers.py:76-119 [log_poisson_obs_p] *)
Definition log_poisson_obs_p64 (nobs : Z) (nexp nexperr : f64) : res (f64 * f64) :=
  if Z.eqb nobs 0 then Ok (fzero, fminf)
  else if flt fzero nexperr then let '(b, x) := linnemann64 nexp nexperr in log_incompbeta64 (ofZ nobs) b x
  else Ok (fplogsf (ofZ (nobs - 1)) nexp, flog (fminus fone (fpsf (ofZ (nobs - 1)) nexp))).
(** outliers.py:155-174 [poisson_obs_mid_p] *)
Definition poisson_obs_mid_p64 (nobs : Z) (nexp nexperr : f64) : f64 :=
  mid_p64 (poisson_obs_p64 nobs nexp nexperr) (poisson_obs_p64 (nobs + 1) nexp nexperr).
(** outliers.py:198, 205: np.log(0.5) + l + np.log(1 + np.exp(m - l)) *)
Definition log_mean64 (l m : f64) : f64 := fplus (fplus (flog fhalf) l) (flog (fplus fone (fexpo (fminus m l)))).
(** outliers.py:177-207 [log_poisson_obs_mid_p] *)
Definition log_poisson_obs_mid_p64 (nobs : Z) (nexp nexperr : f64) : res (f64 * f64) :=
  let* t := log_poisson_obs_p64 nobs nexp nexperr in
  let* t1 := log_poisson_obs_p64 (nobs + 1) nexp nexperr in
  Ok (log_mean64 (fst t) (fst t1), log_mean64 (snd t1) (snd t)).
(** outliers.py:122-152, 210-241: the Z-value for a p-value, with the logarithms where it is 0 or 1 *)
Definition z_of_p64 (p : f64) (tlogp : res (f64 * f64)) : res f64 :=
  if feqb p fzero || feqb p fone then
    let* t := tlogp in
    if feqb p fzero then Ok (z_from_logp64 flog fexpo fppf (fst t) false) else Ok (z_from_logp64 flog fexpo fppf (snd t) true)
  else Ok (fopp (fppf p)).
Definition poisson_obs_z64 (nobs : Z) (nexp nexperr : f64) : res f64 :=
  z_of_p64 (poisson_obs_p64 nobs nexp nexperr) (log_poisson_obs_p64 nobs nexp nexperr).
Definition poisson_obs_mid_z64 (nobs : Z) (nexp nexperr : f64) : res f64 :=
  z_of_p64 (poisson_obs_mid_p64 nobs nexp nexperr) (log_poisson_obs_mid_p64 nobs nexp nexperr).

(** outliers.py:342-363 [get_outlier_significances] for one cell, with the estimates of outliers.py:244-277 (the estimates of all cells
    come first in the code, but they do not raise) *)
Definition out_cell64 (t : ztab) (i j : nat) : res (f64 * f64) :=
  let es := estimate64 pow2 t i j in
  let p := poisson_obs_mid_p64 (z_el t i j) (fst es) (snd es) in
  let* z := poisson_obs_mid_z64 (z_el t i j) (fst es) (snd es) in
  Ok (p, z).
(** outliers.py:366-381 [outlier_significance_matrix_from_hist2d] *)
Definition outlier_hist2d_64 (t : ztab) : res (list (list (f64 * f64))) :=
  mapM (fun i => mapM (fun j => out_cell64 t i j) (seq 0 (z_nc t))) (seq 0 (z_nr t)).
(** df_datahist.values (float64 counts, when a cell was missing before fillna, or int64: see [OutFModel]) *)
Definition ztab_of (h : htable) : ztab := mkZtab (length (h_rows h)) (length (h_cols h)) (fun i j => Z.of_nat (nth j (nth i (h_cnt h) []) 0%nat)).
Inductive oresult64 := ONaN64 | OMat64 (rows cols : list cell) (z : list (list f64)).
Variable fmt : Z -> f64 * f64 -> string.
(** outliers.py:384-428 [outlier_significance_matrix_from_rebinned_df] *)
Definition outlier_rebinned_64 (f : frame) (dict : list (string * list (f64 * f64))) (ndecimals : Z) (dropna uf of : bool) : res oresult64 :=
  match f with
  | [(c0, _); (c1, _)] =>
      let '(h, f') := hist2d_from_rebinned_df f dropna uf of in
      let* h := h in
      if is01 (length (h_rows h)) || is01 (length (h_cols h)) then Ok ONaN64
      else
        match f' with
        | [(_, x); (_, y)] =>
            let* rows := relabel fmt ndecimals dict c0 (c_cells x) (h_rows h) in
            let* cols := relabel fmt ndecimals dict c1 (c_cells y) (h_cols h) in
            let* pz := outlier_hist2d_64 (ztab_of h) in
            Ok (OMat64 rows cols (map (map snd) pz))
        | _ => Raise ValueError
        end
  | _ => Raise ValueError
  end.
Variable npq : list f64 -> Z -> list f64.
(** outliers.py:431-473 [outlier_significance_matrix] (retbins=True form) *)
Definition outlier_matrix_64 (df : frame) (interval_cols : option (list string)) (ndecimals : Z) (bins : bins_arg) (quantile dropna uf of : bool)
    : res (oresult64 * list (string * list (f64 * f64))) :=
  if negb (Nat.eqb (length df) 2) then Raise ValueError
  else
    let ic := match interval_cols with Some l => l | None => guess_interval_cols df end in
    let '(df_clean, ic') := dq_check_nunique_values df ic dropna in
    let* bd := bin_data npq df_clean ic' bins quantile in
    let* m := outlier_rebinned_64 (fst bd) (snd bd) ndecimals dropna uf of in
    Ok (m, snd bd).
End L.
