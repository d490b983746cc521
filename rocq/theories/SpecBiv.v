(** Specification vocabulary for the bivariate-normal part. *)
From Coq Require Import List Reals Sorting.Permutation ZArith.
From Verif Require Import Base RSum SpecSolver.
Import ListNotations.
Open Scope R_scope.

(** edges symmetric about 0 *)
Definition symmetric_edges (s : list R) : Prop := forall k, (k < length s)%nat -> nth k s 0 = - nth (length s - 1 - k) s 0.
(** probability of cell (i, j) of the grid *)
Definition grid_prob (mvn : R -> R -> R -> R -> R -> R) (rho : R) (sx sy : list R) (c : nat * nat) : R :=
  mvn rho (nth (fst c) sx 0) (nth (snd c) sy 0) (nth (S (fst c)) sx 0) (nth (S (snd c)) sy 0).
(** all cells of an n1 x n2 grid *)
Definition all_cells (n1 n2 : nat) : list (nat * nat) := list_prod (seq 0 n1) (seq 0 n2).
(** the binned chi2 per record of correlation [rho] against no correlation *)
Definition binned_chi2 (mvn : R -> R -> R -> R -> R -> R) (sx sy : list R) (rho : R) : R :=
  lsum (fun c => let p0 := grid_prob mvn 0 sx sy c in if Req_EM_T p0 0 then 0 else (grid_prob mvn rho sx sy c - p0) ^ 2 / p0)
       (all_cells (length sx - 1) (length sy - 1)).
(** n+1 equally spaced edges from -5 to 5 *)
Definition unit_edges (n : nat) : list R := map (fun i => -5 + INR i * (10 / INR n)) (seq 0 (n + 1)).

(** what is assumed of the bivariate normal integral *)
Definition point_symmetric (mvn : R -> R -> R -> R -> R -> R) : Prop := forall rho lx ly ux uy, mvn rho lx ly ux uy = mvn rho (- ux) (- uy) (- lx) (- ly).
Record mvn_ok (mvn : R -> R -> R -> R -> R -> R) : Prop := {
  mvn_reflect : point_symmetric mvn;
  mvn_swap : forall rho lx ly ux uy, mvn rho lx ly ux uy = mvn rho ly lx uy ux;
  (** no correlation: every proper rectangle has positive probability *)
  mvn_pos : forall lx ly ux uy, lx < ux -> ly < uy -> 0 < mvn 0 lx ly ux uy;
  (** full correlation: all probability sits on the diagonal *)
  mvn_diag : forall lx ly ux uy, lx < ux -> ux <= ly -> ly < uy -> mvn 1 lx ly ux uy = 0 }.
(** the binned chi2 grows with the correlation and does so continuously *)
Definition chi2_regular (mvn : R -> R -> R -> R -> R -> R) (sx sy : list R) : Prop :=
  continuous_on (binned_chi2 mvn sx sy) 0 1 /\ forall x y, 0 <= x -> x < y -> y <= 1 -> binned_chi2 mvn sx sy x < binned_chi2 mvn sx sy y.
Definition solver_tol : R := 1 / 10 ^ 5 + solver_rtol.
