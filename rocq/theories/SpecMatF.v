(** Specification for C99: what the binary64 phik matrix has to look like. *)
From Coq Require Import String ZArith List Bool Reals.
From Verif Require Import F64 Base Cells BinModel HistModel SpecHist RSum StatsModel SpecStats PhikModel SpecPhik BrentFModel Chi2FModel SpecChi2F PhikMatFModel PropsFloatPhik PropsChi2F.
Import ListNotations Chi2FModel SpecChi2F.
Open Scope list_scope.

(** the value in row a and column b *)
Definition fval (t : ftable) (a b : string) : f64 :=
  match pos a (ft_index t), pos b (ft_columns t) with Some i, Some j => nth j (nth i (ft_cells t) []) fnan | _, _ => fnan end.
(** equal as numbers (-0.0 equals 0.0) *)
Definition same_number (x y : f64) : Prop := ffin x = true /\ ffin y = true /\ f2R x = f2R y.
(** [pair_of f c0 x c1 y]: columns c0 and c1 of the frame, c0 to the left of c1 *)
Definition pair_of (f : frame) (c0 : string) (x : col) (c1 : string) (y : col) : Prop := exists l1 l2 l3, f = l1 ++ (c0, x) :: l2 ++ (c1, y) :: l3.
(** what the matrix looks like *)
Definition matrix64_of (add_up : site -> list f64 -> f64) (chi2_rho : f64 -> nat -> nat -> f64 -> f64) (noise d u o : bool) (f : frame) (t : ftable) : Prop :=
  ft_index t = keys f /\ ft_columns t = keys f /\ length (ft_cells t) = length f /\ (forall row, In row (ft_cells t) -> length row = length f) /\
  (forall a b, fval t a b = fval t b a) /\ (forall a, In a (keys f) -> fval t a a = fone) /\
  (forall c0 x c1 y h, pair_of f c0 x c1 y -> is_table_of (counted_as d u o) (combine (c_cells x) (c_cells y)) h ->
     (~ proper_shape (hmat h) /\ fval t c0 c1 = fnan) \/
     (proper_shape (hmat h) /\ exists v, phik_from_hist2d_64 add_up chi2_rho (hmat64 h) noise = Ok v /\ same_number (fval t c0 c1) v /\ unit_interval v)).

(** a frame of a size for which C89's error bounds hold: up to 2^43 records, up to 1024 different values per column *)
Definition moderate_frame (f : frame) : Prop :=
  exists n, (INR n <= 8796093022208)%R /\ forall p, In p f -> length (c_cells (snd p)) = n /\ exists l, (length l <= 1024)%nat /\ forall c, In c (c_cells (snd p)) -> In c l.
(** the computed chi2 of the bivariate normal distribution is sane (see C89) for every number of records and shape that can occur *)
Definition sane_for_all (chi2_rho : f64 -> nat -> nat -> f64 -> f64) : Prop :=
  forall n r c, ffin n = true -> (1 <= f2R n <= 8796093022208)%R -> (2 <= r)%nat -> (2 <= c)%nat -> sane (chi2_rho n r c).
