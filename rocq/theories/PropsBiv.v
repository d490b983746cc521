(** C20-C25: conversion between chi2 and phik (phik/bivariate.py). *)
From Coq Require Import ZArith List Reals Lra Lia Bool Sorting.Permutation.
From Verif Require Import Base RSum StatsModel StatsProofs SpecSolver BrentModel BrentProofs SpecBiv BivModel BivProofs BivProofs2.
Import ListNotations.
Open Scope R_scope.

(** The assumptions on the two library routines are met: scipy's algorithm (with any iteration limit) is a root finder in the
    sense used below, a bisection is one that always converges, and a family of distributions exists with all the properties
    assumed of the bivariate normal integral. *)
Theorem scipy_brentq_is_root_finder : root_finder_ok scipy_brentq. Proof. exact (brent_ok 100). Qed.
Theorem converging_root_finder_exists : exists bq, root_finder_ok bq /\ root_finder_converges bq. Proof. exists bisection. exact bisection_ok. Qed.
Theorem mvn_instance : mvn_ok mixture /\ forall n1 n2, (2 <= n1)%nat -> (2 <= n2)%nat -> chi2_regular mixture (unit_edges n1) (unit_edges n2).
Proof. split; [exact mixture_ok|exact mixture_regular]. Qed.

(** C20 *)
Theorem C20_half_table : forall mvn sx sy, point_symmetric mvn -> sx <> [] -> sy <> [] -> symmetric_edges sx -> symmetric_edges sy ->
  exists cells, Permutation cells (all_cells (length sx - 1) (length sy - 1)) /\
    forall rho, mvn_array mvn rho sx sy = Ok (map (grid_prob mvn rho sx sy) cells).
Proof.
  intros mvn sx sy PS Nx Ny Sx Sy. exists (phik_cells (length sx - 1) (length sy - 1)). split; [apply phik_cells_all|]. intros rho. apply mvn_array_cells; assumption.
Qed.
(** hence sums of any function of (p_rho, p_0) agree with the full grid *)
Theorem C20_sums : forall mvn sx sy rho (h : R -> R -> R) cr c0, point_symmetric mvn -> sx <> [] -> sy <> [] -> symmetric_edges sx -> symmetric_edges sy ->
  mvn_array mvn rho sx sy = Ok cr -> mvn_array mvn 0 sx sy = Ok c0 ->
  lsum (fun p => h (fst p) (snd p)) (combine cr c0) = lsum (fun c => h (grid_prob mvn rho sx sy c) (grid_prob mvn 0 sx sy c)) (all_cells (length sx - 1) (length sy - 1)).
Proof.
  intros mvn sx sy rho h cr c0 PS Nx Ny Sx Sy E1 E2. rewrite mvn_array_cells in E1, E2 by assumption. injection E1 as <-. injection E2 as <-.
  rewrite <- (lsum_perm _ _ _ _ (phik_cells_all (length sx - 1) (length sy - 1))).
  induction (phik_cells (length sx - 1) (length sy - 1)) as [|c l IH]; [reflexivity|]. cbn [map combine]. rewrite !lsum_cons, IH. reflexivity.
Qed.
(** the default edges qualify *)
Theorem C20_default_edges : forall n, (1 <= n)%Z -> exists e, linspace5 n = Ok e /\ e <> [] /\ symmetric_edges e /\ length e = S (Z.to_nat n) /\ nth 0 e 0 = -5 /\ nth (Z.to_nat n) e 0 = 5.
Proof.
  intros n H. exists (unit_edges (Z.to_nat n)). split; [apply linspace5_unit; lia|]. split; [apply unit_not_nil|]. split; [apply unit_symmetric; lia|]. split; [rewrite unit_length; lia|].
  assert (0 < INR (Z.to_nat n)) by (apply lt_0_INR; lia). split; rewrite unit_nth by lia; [simpl; lra|field; lra].
Qed.
(** without edges and bin counts the defaults fail *)
Theorem C20_default_counts_fail : forall mvn rho n, chi2_from_phik mvn rho n 0 None None None None 0 (-1) (-1) = Raise IndexError.
Proof. intros. reflexivity. Qed.

Lemma two_bins_edges : forall n, (2 <= n)%Z -> edges_checked None n = Ok (unit_edges (Z.to_nat n)).
Proof. intros n H. apply linspace5_unit. lia. Qed.
Lemma n_G1 : forall mvn n nx ny, mvn_ok mvn -> 0 < n -> (2 <= nx)%Z -> (2 <= ny)%Z -> n * binned_chi2 mvn (unit_edges (Z.to_nat nx)) (unit_edges (Z.to_nat ny)) 1 <> 0.
Proof. intros mvn n nx ny M N X Y. pose proof (G_one_pos mvn (Z.to_nat nx) (Z.to_nat ny) M ltac:(lia) ltac:(lia)). apply Rmult_integral_contrapositive_currified; lra. Qed.

(** C21 *)
Theorem C21_unit_interval : forall mvn bq chi2 n nx ny pedestal, mvn_ok mvn -> root_finder_ok bq -> 0 < n -> (2 <= nx)%Z -> (2 <= ny)%Z -> 0 <= pedestal ->
  (exists v, phik_from_chi2 mvn bq chi2 n nx ny None None pedestal = Ok v /\ 0 <= v <= 1) \/
  (phik_from_chi2 mvn bq chi2 n nx ny None None pedestal = Raise RuntimeError /\ ~ root_finder_converges bq).
Proof.
  intros mvn bq chi2 n nx ny pedestal M B N X Y P.
  pose proof (unit_symmetric (Z.to_nat nx) ltac:(lia)) as SX. pose proof (unit_symmetric (Z.to_nat ny) ltac:(lia)) as SY.
  pose proof (in_unit mvn (unit_edges (Z.to_nat nx)) (unit_edges (Z.to_nat ny)) bq (mvn_reflect _ M) (unit_not_nil _) (unit_not_nil _) SX SY B n nx ny None None pedestal P (two_bins_edges nx X) (two_bins_edges ny Y) (n_G1 mvn n nx ny M N X Y) chi2) as [H|[H R]]; [left; exact H|right].
  split; [exact H|]. intros C.
  rewrite (mid mvn (unit_edges (Z.to_nat nx)) (unit_edges (Z.to_nat ny)) bq (mvn_reflect _ M) (unit_not_nil _) (unit_not_nil _) SX SY B n nx ny None None pedestal P (two_bins_edges nx X) (two_bins_edges ny Y)) in H by tauto.
  destruct (bracket mvn (unit_edges (Z.to_nat nx)) (unit_edges (Z.to_nat ny)) n chi2 pedestal (n * IZR (Z.min (nx - 1) (ny - 1))) (n_G1 mvn n nx ny M N X Y)) as [B0 B1]; [tauto|tauto|].
  revert H. apply C; [lra|unfold phik_xtol; lra|]. assert (0 <= - pf_fun mvn (unit_edges (Z.to_nat nx)) (unit_edges (Z.to_nat ny)) n chi2 pedestal (n * IZR (Z.min (nx - 1) (ny - 1))) 0 * pf_fun mvn (unit_edges (Z.to_nat nx)) (unit_edges (Z.to_nat ny)) n chi2 pedestal (n * IZR (Z.min (nx - 1) (ny - 1))) 1) by (apply Rmult_le_pos; lra). lra.
Qed.
(** the same with explicit symmetric edges *)
Theorem C21_unit_interval_edges : forall mvn bq chi2 n nx ny sx sy pedestal, point_symmetric mvn -> root_finder_ok bq -> 0 < n -> (2 <= nx)%Z -> (2 <= ny)%Z -> 0 <= pedestal ->
  sx <> [] -> sy <> [] -> symmetric_edges sx -> symmetric_edges sy -> binned_chi2 mvn sx sy 1 <> 0 ->
  (exists v, phik_from_chi2 mvn bq chi2 n nx ny (Some sx) (Some sy) pedestal = Ok v /\ 0 <= v <= 1) \/ phik_from_chi2 mvn bq chi2 n nx ny (Some sx) (Some sy) pedestal = Raise RuntimeError.
Proof.
  intros mvn bq chi2 n nx ny sx sy pedestal PS B N X Y P Nx Ny Sx Sy G.
  assert (EX : edges_checked (Some sx) nx = Ok sx) by (cbn; rewrite (proj2 (Z.leb_gt _ _)) by lia; reflexivity).
  assert (EY : edges_checked (Some sy) ny = Ok sy) by (cbn; rewrite (proj2 (Z.leb_gt _ _)) by lia; reflexivity).
  destruct (in_unit mvn sx sy bq PS Nx Ny Sx Sy B n nx ny (Some sx) (Some sy) pedestal P EX EY ltac:(apply Rmult_integral_contrapositive_currified; lra) chi2) as [H|[H _]]; [left|right]; exact H.
Qed.
(** zero at or below the pedestal, one at or above the maximum, and in between the solver is called with a sign change *)
Theorem C21_cases : forall mvn bq chi2 n nx ny pedestal, mvn_ok mvn -> root_finder_ok bq -> 0 < n -> (2 <= nx)%Z -> (2 <= ny)%Z -> 0 <= pedestal ->
  let chi2_max := n * IZR (Z.min (nx - 1) (ny - 1)) in let r := phik_from_chi2 mvn bq chi2 n nx ny None None pedestal in
  (chi2 <= pedestal -> r = Ok 0) /\ (pedestal < chi2_max -> chi2_max <= chi2 -> r = Ok 1) /\
  (pedestal < chi2 -> chi2 < chi2_max -> exists f, r = bq f 0 1 (1 / 10 ^ 5) /\ f 0 < 0 < f 1).
Proof.
  intros mvn bq chi2 n nx ny pedestal M B N X Y P. cbn zeta.
  pose proof (unit_symmetric (Z.to_nat nx) ltac:(lia)) as SX. pose proof (unit_symmetric (Z.to_nat ny) ltac:(lia)) as SY. pose proof (mvn_reflect _ M) as PS.
  repeat split.
  - intros H. apply (low mvn (unit_edges (Z.to_nat nx)) (unit_edges (Z.to_nat ny))); auto using unit_not_nil, two_bins_edges.
  - intros H H0. apply (high mvn (unit_edges (Z.to_nat nx)) (unit_edges (Z.to_nat ny))); auto using unit_not_nil, two_bins_edges.
  - intros H H0. eexists. split; [apply (mid mvn (unit_edges (Z.to_nat nx)) (unit_edges (Z.to_nat ny))); auto using unit_not_nil, two_bins_edges|].
    destruct (bracket mvn (unit_edges (Z.to_nat nx)) (unit_edges (Z.to_nat ny)) n chi2 pedestal _ (n_G1 mvn n nx ny M N X Y) H H0) as [B0 B1]. split; assumption.
Qed.
(** a pedestal at or above the maximum (possible for small samples with many bins): a chi2 above the pedestal gives 0 if it is within 1e-14 + 1e-5 * maximum of the maximum, else 1 *)
Theorem C21_pedestal_above_max : forall mvn bq chi2 n nx ny pedestal, mvn_ok mvn -> root_finder_ok bq -> 0 < n -> (2 <= nx)%Z -> (2 <= ny)%Z -> 0 <= pedestal ->
  let chi2_max := n * IZR (Z.min (nx - 1) (ny - 1)) in let r := phik_from_chi2 mvn bq chi2 n nx ny None None pedestal in
  chi2_max <= pedestal -> pedestal < chi2 ->
  (chi2 - chi2_max <= 1 / 10 ^ 14 + chi2_max / 10 ^ 5 -> r = Ok 0) /\ (1 / 10 ^ 14 + chi2_max / 10 ^ 5 < chi2 - chi2_max -> r = Ok 1).
Proof.
  intros mvn bq chi2 n nx ny pedestal M B N X Y P. cbn zeta. intros H0 H1.
  pose proof (unit_symmetric (Z.to_nat nx) ltac:(lia)) as SX. pose proof (unit_symmetric (Z.to_nat ny) ltac:(lia)) as SY. pose proof (mvn_reflect _ M) as PS.
  assert (MP : 0 <= n * IZR (Z.min (nx - 1) (ny - 1))) by (apply Rmult_le_pos; [lra|]; apply (IZR_le 0); lia).
  rewrite (phik_from_chi2_closed mvn (unit_edges (Z.to_nat nx)) (unit_edges (Z.to_nat ny))); auto using unit_not_nil, two_bins_edges.
  cbn zeta. set (c := n * IZR (Z.min (nx - 1) (ny - 1))) in *. unfold clip. rewrite (proj2 (rltb_true _ _)) by lra. cbn [andb]. unfold isclose.
  rewrite (Rabs_pos_eq c) by exact MP. rewrite (Rabs_pos_eq (chi2 - c)) by lra. split; intros H.
  - rewrite (proj2 (rleb_true (chi2 - c) _)) by lra. rewrite (proj2 (rleb_true c _)) by lra. reflexivity.
  - rewrite (proj2 (rleb_false (chi2 - c) _)) by lra. rewrite (proj2 (rleb_false chi2 _)) by lra. rewrite (proj2 (rleb_true c _)) by lra. reflexivity.
Qed.
Lemma C21_pedestal_above_max_case : (2 <= 2)%Z /\ 1 * IZR (Z.min (2 - 1) (2 - 1)) <= 1 < 1 + 1 / 10 ^ 6 /\ (1 + 1 / 10 ^ 6) - 1 * IZR (Z.min (2 - 1) (2 - 1)) <= 1 / 10 ^ 14 + 1 * IZR (Z.min (2 - 1) (2 - 1)) / 10 ^ 5.
Proof. change (Z.min (2 - 1) (2 - 1)) with 1%Z. split; [lia|]. split; lra. Qed.
Theorem C21_zero_only : forall mvn bq chi2 n nx ny pedestal, mvn_ok mvn -> root_finder_ok bq -> 0 < n -> (2 <= nx)%Z -> (2 <= ny)%Z -> 0 <= pedestal -> pedestal < n * IZR (Z.min (nx - 1) (ny - 1)) ->
  phik_from_chi2 mvn bq chi2 n nx ny None None pedestal = Ok 0 -> chi2 <= pedestal \/ (exists f, f 0 < 0 < f 1 /\ bq f 0 1 (1 / 10 ^ 5) = Ok 0).
Proof.
  intros mvn bq chi2 n nx ny pedestal M B N X Y P HM E. destruct (C21_cases mvn bq chi2 n nx ny pedestal M B N X Y P) as (_ & C2 & C3). cbn zeta in *.
  destruct (Rle_dec chi2 pedestal) as [H|H]; [left; exact H|right]. destruct (Rle_dec (n * IZR (Z.min (nx - 1) (ny - 1))) chi2) as [H0|H0].
  - rewrite (C2 HM H0) in E. injection E as E. lra.
  - destruct C3 as (f & C4 & C5); [lra|lra|]. exists f. split; [exact C5|]. congruence.
Qed.
Theorem C21_errors : forall mvn bq chi2 n nx ny sx sy pedestal,
  (pedestal < 0 -> phik_from_chi2 mvn bq chi2 n nx ny sx sy pedestal = Raise ValueError) /\
  (0 <= pedestal -> forall e, (nx <= 1)%Z -> phik_from_chi2 mvn bq chi2 n nx ny (Some e) sy pedestal = Raise ValueError) /\
  (0 <= pedestal -> forall e, (2 <= nx)%Z -> (ny <= 1)%Z -> phik_from_chi2 mvn bq chi2 n nx ny sx (Some e) pedestal = Raise ValueError).
Proof.
  intros. repeat split.
  - intros H. unfold phik_from_chi2. rewrite (proj2 (rltb_true _ _) H). reflexivity.
  - intros H e9 H0. unfold phik_from_chi2. rewrite (proj2 (rltb_false _ _) H). cbn [edges_checked]. rewrite (proj2 (Z.leb_le _ _) H0). reflexivity.
  - intros H e9 H0 H1. unfold phik_from_chi2. rewrite (proj2 (rltb_false _ _) H). destruct sx as [s|]; cbn [edges_checked].
    + rewrite (proj2 (Z.leb_gt _ _)) by lia. rewrite (proj2 (Z.leb_le _ _) H1). reflexivity.
    + rewrite linspace5_unit by lia. cbn [rbind]. rewrite (proj2 (Z.leb_le _ _) H1). reflexivity.
Qed.

(** C22 *)
Theorem C22_endpoints : forall mvn n nx ny pedestal, mvn_ok mvn -> 0 < n -> (2 <= nx)%Z -> (2 <= ny)%Z ->
  chi2_from_phik mvn 0 n 0 None None None None pedestal nx ny = Ok pedestal /\
  chi2_from_phik mvn 1 n 0 None None None None pedestal nx ny = Ok (n * IZR (Z.min (nx - 1) (ny - 1))).
Proof.
  intros mvn n nx ny pedestal M N X Y. pose proof (unit_symmetric (Z.to_nat nx) ltac:(lia)) as SX. pose proof (unit_symmetric (Z.to_nat ny) ltac:(lia)) as SY.
  pose proof (n_G1 mvn n nx ny M N X Y) as G. pose proof (mvn_reflect _ M).
  rewrite !(chi2_from_phik_closed mvn (unit_edges (Z.to_nat nx)) (unit_edges (Z.to_nat ny))); auto using unit_not_nil, two_bins_edges; try (apply linspace5_unit; lia).
  rewrite G_zero. split; f_equal; [ring|field; split; intros C; apply G; rewrite C; ring].
Qed.
Theorem C22_roundtrip : forall mvn bq rho n nx ny pedestal c v, mvn_ok mvn -> root_finder_ok bq -> chi2_regular mvn (unit_edges (Z.to_nat nx)) (unit_edges (Z.to_nat ny)) ->
  0 < n -> (2 <= nx)%Z -> (2 <= ny)%Z -> 0 <= pedestal -> pedestal < n * IZR (Z.min (nx - 1) (ny - 1)) -> 0 < rho < 1 ->
  chi2_from_phik mvn rho n 0 None None None None pedestal nx ny = Ok c -> phik_from_chi2 mvn bq c n nx ny None None pedestal = Ok v -> Rabs (v - rho) <= 101 / 10 ^ 7.
Proof.
  intros mvn bq rho n nx ny pedestal c v M B RG N X Y P HM Hr E1 E2. pose proof (unit_symmetric (Z.to_nat nx) ltac:(lia)) as SX. pose proof (unit_symmetric (Z.to_nat ny) ltac:(lia)) as SY.
  pose proof (mvn_reflect _ M). rewrite (chi2_from_phik_closed mvn (unit_edges (Z.to_nat nx)) (unit_edges (Z.to_nat ny))) in E1; auto using unit_not_nil; try (apply linspace5_unit; lia). injection E1 as E1. rewrite Rminus_0_r in E1. subst c.
  apply Rle_trans with solver_tol.
  - apply (roundtrip mvn (unit_edges (Z.to_nat nx)) (unit_edges (Z.to_nat ny)) bq) with (n := n) (nx := nx) (ny := ny) (osx := None) (osy := None) (pedestal := pedestal); auto using unit_not_nil, two_bins_edges, n_G1.
  - unfold solver_tol, solver_rtol. simpl. lra.
Qed.
(** C23 *)
Theorem C23_monotone : forall mvn bq n nx ny pedestal chi2a chi2b va vb, mvn_ok mvn -> root_finder_ok bq -> chi2_regular mvn (unit_edges (Z.to_nat nx)) (unit_edges (Z.to_nat ny)) ->
  0 < n -> (2 <= nx)%Z -> (2 <= ny)%Z -> 0 <= pedestal -> chi2a <= chi2b ->
  phik_from_chi2 mvn bq chi2a n nx ny None None pedestal = Ok va -> phik_from_chi2 mvn bq chi2b n nx ny None None pedestal = Ok vb -> va <= vb + 202 / 10 ^ 7.
Proof.
  intros mvn bq n nx ny pedestal ca cb va vb M B RG N X Y P L Ea Eb. apply Rle_trans with (vb + 2 * solver_tol).
  - apply (monotone mvn (unit_edges (Z.to_nat nx)) (unit_edges (Z.to_nat ny)) bq) with (n := n) (nx := nx) (ny := ny) (osx := None) (osy := None) (pedestal := pedestal) (ca := ca) (cb := cb); auto using unit_not_nil, two_bins_edges, n_G1, mvn_reflect; apply unit_symmetric; lia.
  - unfold solver_tol, solver_rtol. simpl. lra.
Qed.
(** C24: explicit edges, default counts *)
Theorem C24_negative_scale : forall mvn rho n sx sy, point_symmetric mvn -> sx <> [] -> sy <> [] -> symmetric_edges sx -> symmetric_edges sy -> 0 < n -> 0 < binned_chi2 mvn sx sy 1 ->
  chi2_from_phik mvn rho n 0 None None (Some sx) (Some sy) 0 (-1) (-1) = Ok (- 2 * n * (binned_chi2 mvn sx sy rho / binned_chi2 mvn sx sy 1)).
Proof.
  intros mvn rho n sx sy PS Nx Ny Sx Sy N G. rewrite (chi2_from_phik_closed mvn sx sy) by (try assumption; reflexivity). f_equal. change (Z.min (-1 - 1) (-1 - 1)) with (-2)%Z. field. lra.
Qed.
Theorem C24_refuted : forall mvn n k, mvn_ok mvn -> 0 < n -> (2 <= k)%Z -> forall e, linspace5 k = Ok e ->
  exists c c', chi2_from_phik mvn 1 n 0 None None (Some e) (Some e) 0 (-1) (-1) = Ok c /\ chi2_from_phik mvn 1 n 0 None None None None 0 k k = Ok c' /\ c < 0 < c'.
Proof.
  intros mvn n k M N K e E. rewrite linspace5_unit in E by lia. injection E as <-. pose proof (G_one_pos mvn (Z.to_nat k) (Z.to_nat k) M ltac:(lia) ltac:(lia)) as G.
  eexists _, _. split; [apply C24_negative_scale; auto using mvn_reflect, unit_not_nil; apply unit_symmetric; lia|]. split; [apply C22_endpoints; assumption|].
  rewrite Z.min_id. assert (1 <= IZR (k - 1)) by (apply IZR_le; lia). split; [|nra]. replace (binned_chi2 mvn (unit_edges (Z.to_nat k)) (unit_edges (Z.to_nat k)) 1 / binned_chi2 mvn (unit_edges (Z.to_nat k)) (unit_edges (Z.to_nat k)) 1) with 1 by (field; lra). lra.
Qed.
(** C25 *)
Theorem C25_table : forall mvn rho nx ny n, 1 <= n -> (0 <= nx)%Z -> (0 <= ny)%Z -> exists t sx sy, linspace5 nx = Ok sx /\ linspace5 ny = Ok sy /\
  bivariate_normal_theory mvn rho nx ny n None None = Ok t /\ nr t = Z.to_nat ny /\ nc t = Z.to_nat nx /\
  (forall i j, (i < nc t)%nat -> (j < nr t)%nat -> el t j i = Rmax (/ 2 ^ 52) (grid_prob mvn rho sx sy (i, j) * n)) /\
  (forall i j, / 2 ^ 52 <= el t j i).
Proof.
  intros mvn rho nx ny n N X Y. unfold bivariate_normal_theory. rewrite (proj2 (rltb_false _ _) N). cbn [edges_or]. rewrite !linspace5_unit by lia. cbn [rbind].
  rewrite (proj2 (Z.ltb_ge _ _) X), (proj2 (Z.ltb_ge _ _) Y). cbn [orb]. rewrite !unit_length.
  replace (nx <? Z.of_nat (Z.to_nat nx + 1 - 1))%Z with false by (symmetry; apply Z.ltb_ge; lia). replace (ny <? Z.of_nat (Z.to_nat ny + 1 - 1))%Z with false by (symmetry; apply Z.ltb_ge; lia). cbn [orb]. rewrite andb_false_r.
  eexists _, _, _. split; [reflexivity|]. split; [reflexivity|]. split; [reflexivity|]. cbn [nr nc el]. split; [reflexivity|]. split; [reflexivity|]. split.
  - intros i j Hi Hj. rewrite (proj2 (Nat.ltb_lt i _)) by lia. rewrite (proj2 (Nat.ltb_lt j _)) by lia. cbn [andb]. unfold grid_prob. cbn [fst snd]. unfold rltb, Rmax, eps64. destruct (Rlt_dec _ _); destruct (Rle_dec _ _); lra.
  - intros i j. cbn zeta. unfold rltb, eps64. destruct (Rlt_dec _ _); lra.
Qed.
Theorem C25_rejects : forall mvn rho nx ny n sx sy, n < 1 -> bivariate_normal_theory mvn rho nx ny n sx sy = Raise ValueError.
Proof. intros. unfold bivariate_normal_theory. rewrite (proj2 (rltb_true _ _) H). reflexivity. Qed.
(** explicit edges need matching counts: with the default counts the call fails *)
Theorem C25_edges_need_counts : forall mvn rho n sx sy, bivariate_normal_theory mvn rho (-1) (-1) n (Some sx) (Some sy) = Raise ValueError.
Proof. intros. unfold bivariate_normal_theory. destruct (rltb n 1); reflexivity. Qed.

(** * Non-vacuity: all hypotheses of C21-C23 hold together *)
Example C22_C23_hypotheses : exists mvn bq n nx ny pedestal, mvn_ok mvn /\ root_finder_ok bq /\ root_finder_converges bq /\ chi2_regular mvn (unit_edges (Z.to_nat nx)) (unit_edges (Z.to_nat ny)) /\
  0 < n /\ (2 <= nx)%Z /\ (2 <= ny)%Z /\ 0 <= pedestal /\ pedestal < n * IZR (Z.min (nx - 1) (ny - 1)).
Proof.
  exists mixture, bisection, 100, 3%Z, 4%Z, 6. destruct bisection_ok. split; [exact mixture_ok|]. split; [assumption|]. split; [assumption|]. split; [apply mixture_regular; simpl; lia|].
  repeat split; try lia; try lra. change (Z.min (3 - 1) (4 - 1)) with 2%Z. lra.
Qed.

Print Assumptions C20_half_table.
Print Assumptions C21_unit_interval.
Print Assumptions C22_roundtrip.
Print Assumptions C23_monotone.
Print Assumptions C25_table.
