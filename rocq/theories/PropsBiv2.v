(** C21, C22, C25 continued: the value of the conversion in closed form (phik/bivariate.py:77-227). *)
From Coq Require Import ZArith List Reals Lra Lia Bool Sorting.Permutation.
From Verif Require Import Base RSum StatsModel StatsProofs SpecSolver BrentModel BrentProofs SpecBiv BivModel BivProofs BivProofs2 PropsBiv.
Import ListNotations.
Open Scope R_scope.

(** C22: [chi2_from_phik] interpolates between the pedestal (no correlation) and the largest possible chi2 (full correlation)
    in proportion to the binned chi2 of the bivariate normal; the reference value is subtracted *)
Theorem C22_value : forall mvn rho n subtract nx ny pedestal, mvn_ok mvn -> 0 < n -> (2 <= nx)%Z -> (2 <= ny)%Z ->
  let ex := unit_edges (Z.to_nat nx) in let ey := unit_edges (Z.to_nat ny) in
  chi2_from_phik mvn rho n subtract None None None None pedestal nx ny =
  Ok (pedestal + (n * IZR (Z.min (nx - 1) (ny - 1)) - pedestal) * (binned_chi2 mvn ex ey rho / binned_chi2 mvn ex ey 1) - subtract).
Proof.
  intros mvn rho n sub nx ny pedestal M N X Y ex ey. pose proof (unit_symmetric (Z.to_nat nx) ltac:(lia)) as SX. pose proof (unit_symmetric (Z.to_nat ny) ltac:(lia)) as SY.
  pose proof (G_one_pos mvn (Z.to_nat nx) (Z.to_nat ny) M ltac:(lia) ltac:(lia)) as G. pose proof (mvn_reflect _ M).
  rewrite (chi2_from_phik_closed mvn ex ey); auto; try apply unit_not_nil; try (apply linspace5_unit; lia). f_equal. fold ex ey in G. field. split; lra.
Qed.
(** the same with explicit edges and with the optional arguments computed by the caller *)
Theorem C22_value_edges : forall mvn rho n subtract sx sy nx ny pedestal, point_symmetric mvn -> sx <> [] -> sy <> [] -> symmetric_edges sx -> symmetric_edges sy ->
  0 < n -> 0 < binned_chi2 mvn sx sy 1 ->
  chi2_from_phik mvn rho n subtract None None (Some sx) (Some sy) pedestal nx ny =
  Ok (pedestal + (n * IZR (Z.min (nx - 1) (ny - 1)) - pedestal) * (binned_chi2 mvn sx sy rho / binned_chi2 mvn sx sy 1) - subtract).
Proof.
  intros mvn rho n sub sx sy nx ny pedestal PS Nx Ny Sx Sy N G. rewrite (chi2_from_phik_closed mvn sx sy); auto. f_equal. field. split; lra.
Qed.
Theorem C22_precomputed : forall mvn rho n subtract sx sy nx ny pedestal corr0 scale, point_symmetric mvn -> sx <> [] -> sy <> [] -> symmetric_edges sx -> symmetric_edges sy ->
  mvn_array mvn 0 sx sy = Ok corr0 ->
  chi2_from_phik mvn rho n subtract (Some corr0) (Some scale) (Some sx) (Some sy) pedestal nx ny = Ok (pedestal + n * binned_chi2 mvn sx sy rho * scale - subtract) /\
  chi2_from_phik mvn rho n subtract (Some corr0) None (Some sx) (Some sy) pedestal nx ny = chi2_from_phik mvn rho n subtract None None (Some sx) (Some sy) pedestal nx ny.
Proof.
  intros mvn rho n sub sx sy nx ny pedestal c0 sc PS Nx Ny Sx Sy E. split.
  - unfold chi2_from_phik. cbn [edges_or rbind]. rewrite (mvn_array_cells mvn rho sx sy) by assumption. cbn [rbind]. rewrite mvn_array_cells in E by assumption. injection E as <-. rewrite ratio_sum_grid. reflexivity.
  - unfold chi2_from_phik. cbn [edges_or rbind]. rewrite E. reflexivity.
Qed.

(** C21: between the pedestal and the maximum the solver is called with [chi2_from_phik] itself, shifted by the target *)
Theorem C21_equation : forall mvn bq chi2 n nx ny pedestal, mvn_ok mvn -> root_finder_ok bq -> 0 < n -> (2 <= nx)%Z -> (2 <= ny)%Z -> 0 <= pedestal ->
  pedestal < chi2 -> chi2 < n * IZR (Z.min (nx - 1) (ny - 1)) ->
  exists f, phik_from_chi2 mvn bq chi2 n nx ny None None pedestal = bq f 0 1 (1 / 10 ^ 5) /\
    (forall rho, chi2_from_phik mvn rho n chi2 None None None None pedestal nx ny = Ok (f rho)) /\ f 0 < 0 < f 1.
Proof.
  intros mvn bq chi2 n nx ny pedestal M B N X Y P H H0.
  pose proof (unit_symmetric (Z.to_nat nx) ltac:(lia)) as SX. pose proof (unit_symmetric (Z.to_nat ny) ltac:(lia)) as SY. pose proof (mvn_reflect _ M) as PS.
  exists (pf_fun mvn (unit_edges (Z.to_nat nx)) (unit_edges (Z.to_nat ny)) n chi2 pedestal (n * IZR (Z.min (nx - 1) (ny - 1)))). split; [|split].
  - apply (mid mvn (unit_edges (Z.to_nat nx)) (unit_edges (Z.to_nat ny))); auto using unit_not_nil, two_bins_edges.
  - intros rho. rewrite (chi2_from_phik_closed mvn (unit_edges (Z.to_nat nx)) (unit_edges (Z.to_nat ny))); auto using unit_not_nil; apply linspace5_unit; lia.
  - destruct (bracket mvn (unit_edges (Z.to_nat nx)) (unit_edges (Z.to_nat ny)) n chi2 pedestal _ (n_G1 mvn n nx ny M N X Y) H H0) as [B0 B1]. split; assumption.
Qed.
(** C21: and the answer is within the solver's tolerance of the one correlation whose chi2 is the given one *)
Theorem C21_solution : forall mvn bq chi2 n nx ny pedestal v, mvn_ok mvn -> root_finder_ok bq -> chi2_regular mvn (unit_edges (Z.to_nat nx)) (unit_edges (Z.to_nat ny)) ->
  0 < n -> (2 <= nx)%Z -> (2 <= ny)%Z -> 0 <= pedestal -> pedestal < chi2 -> chi2 < n * IZR (Z.min (nx - 1) (ny - 1)) ->
  phik_from_chi2 mvn bq chi2 n nx ny None None pedestal = Ok v ->
  exists rho, 0 < rho < 1 /\ chi2_from_phik mvn rho n 0 None None None None pedestal nx ny = Ok chi2 /\ Rabs (v - rho) <= 101 / 10 ^ 7 /\
    (forall rho', 0 <= rho' <= 1 -> chi2_from_phik mvn rho' n 0 None None None None pedestal nx ny = Ok chi2 -> rho' = rho).
Proof.
  intros mvn bq chi2 n nx ny pedestal v M B RG N X Y P H H0 E.
  pose proof (unit_symmetric (Z.to_nat nx) ltac:(lia)) as SX. pose proof (unit_symmetric (Z.to_nat ny) ltac:(lia)) as SY. pose proof (mvn_reflect _ M) as PS.
  pose proof (G_one_pos mvn (Z.to_nat nx) (Z.to_nat ny) M ltac:(lia) ltac:(lia)) as G1.
  destruct (near_root mvn (unit_edges (Z.to_nat nx)) (unit_edges (Z.to_nat ny)) bq PS (unit_not_nil _) (unit_not_nil _) SX SY B n nx ny None None pedestal P (two_bins_edges nx X) (two_bins_edges ny Y) (n_G1 mvn n nx ny M N X Y) RG N chi2 v H H0 E) as (r & R1 & R2 & R3).
  set (G := binned_chi2 mvn (unit_edges (Z.to_nat nx)) (unit_edges (Z.to_nat ny))) in *. set (mx := n * IZR (Z.min (nx - 1) (ny - 1))) in *.
  assert (G0 : G 0 = 0) by apply G_zero. destruct RG as [_ MON]. fold G in MON.
  assert (Q : 0 < (chi2 - pedestal) / (mx - pedestal) < 1).
  { split; [apply Rdiv_lt_0_compat; lra|]. apply Rmult_lt_reg_r with (mx - pedestal); [lra|]. unfold Rdiv. rewrite Rmult_assoc, Rinv_l by lra. lra. }
  assert (RR : 0 < r < 1).
  { split; [destruct (Req_dec r 0) as [Z|Z]; [rewrite Z, G0 in R2; nra|lra]|destruct (Req_dec r 1) as [Z|Z]; [rewrite Z in R2; nra|lra]]. }
  exists r. split; [exact RR|]. split.
  - rewrite C22_value by assumption. fold G mx. f_equal. rewrite R2. field. lra.
  - split; [apply Rle_trans with (1 := R3); unfold solver_tol, solver_rtol; simpl; lra|].
    intros r' Hr' E'. rewrite C22_value in E' by assumption. fold G mx in E'. apply (f_equal (fun z => match z with Ok y => y | Raise _ => 0 end)) in E'. cbn in E'.
    assert (GE : G r' = G r).
    { rewrite R2. apply Rmult_eq_reg_r with (/ G 1); [|apply Rinv_neq_0_compat; lra]. replace (G 1 * ((chi2 - pedestal) / (mx - pedestal)) * / G 1) with ((chi2 - pedestal) / (mx - pedestal)) by (field; lra).
      apply Rmult_eq_reg_l with (mx - pedestal); [|lra]. replace ((mx - pedestal) * ((chi2 - pedestal) / (mx - pedestal))) with (chi2 - pedestal) by (field; lra). fold (G r' / G 1). lra. }
    destruct (Rtotal_order r' r) as [L|[L|L]]; [|exact L|].
    + pose proof (MON r' r ltac:(lra) L ltac:(lra)). lra.
    + pose proof (MON r r' ltac:(lra) L ltac:(lra)). lra.
Qed.
Example C21_solution_hypotheses : exists mvn bq chi2 n nx ny pedestal v, mvn_ok mvn /\ root_finder_ok bq /\ chi2_regular mvn (unit_edges (Z.to_nat nx)) (unit_edges (Z.to_nat ny)) /\
  0 < n /\ (2 <= nx)%Z /\ (2 <= ny)%Z /\ 0 <= pedestal /\ pedestal < chi2 /\ chi2 < n * IZR (Z.min (nx - 1) (ny - 1)) /\ phik_from_chi2 mvn bq chi2 n nx ny None None pedestal = Ok v.
Proof.
  exists mixture, bisection, 50, 100, 3%Z, 4%Z, 6. destruct bisection_ok as [B C].
  destruct (C21_unit_interval mixture bisection 50 100 3 4 6 mixture_ok B ltac:(lra) ltac:(lia) ltac:(lia) ltac:(lra)) as [(v & E & _)|[_ F]]; [|contradiction].
  exists v. split; [exact mixture_ok|]. split; [exact B|]. split; [apply mixture_regular; simpl; lia|]. split; [lra|]. split; [lia|]. split; [lia|]. split; [lra|]. split; [lra|]. split; [|exact E].
  change (Z.min (3 - 1) (4 - 1)) with 2%Z. lra.
Qed.

(** C25 with explicit edges and matching counts: cell (row j of y, column i of x) is the expected count of the rectangle *)
Theorem C25_table_edges : forall mvn rho nx ny n sx sy, 1 <= n -> length sx = S nx -> length sy = S ny -> exists t,
  bivariate_normal_theory mvn rho (Z.of_nat nx) (Z.of_nat ny) n (Some sx) (Some sy) = Ok t /\ nr t = ny /\ nc t = nx /\
  (forall i j, (i < nx)%nat -> (j < ny)%nat -> el t j i = Rmax (/ 2 ^ 52) (n * mvn rho (nth i sx 0) (nth j sy 0) (nth (S i) sx 0) (nth (S j) sy 0))).
Proof.
  intros mvn rho nx ny n sx sy N LX LY. unfold bivariate_normal_theory. rewrite (proj2 (rltb_false _ _) N). cbn [edges_or rbind].
  rewrite (proj2 (Z.ltb_ge (Z.of_nat nx) 0)), (proj2 (Z.ltb_ge (Z.of_nat ny) 0)) by lia. cbn [orb]. rewrite LX, LY. cbn [Nat.sub]. rewrite !Nat.sub_0_r, !Z.ltb_irrefl. cbn [orb]. rewrite andb_false_r.
  eexists. split; [reflexivity|]. cbn [nr nc el]. rewrite !Nat2Z.id. split; [reflexivity|]. split; [reflexivity|]. intros i j Hi Hj.
  rewrite (proj2 (Nat.ltb_lt i nx)), (proj2 (Nat.ltb_lt j ny)) by assumption. cbn [andb]. rewrite (Rmult_comm n). unfold rltb, Rmax, eps64. destruct (Rlt_dec _ _); destruct (Rle_dec _ _); lra.
Qed.
(** fewer bins than the edges describe is an IndexError, a negative count a ValueError *)
Theorem C25_edges_mismatch : forall mvn rho nx ny n sx sy, 1 <= n -> (2 <= length sx)%nat -> (2 <= length sy)%nat ->
  ((nx < 0)%Z \/ (ny < 0)%Z -> bivariate_normal_theory mvn rho nx ny n (Some sx) (Some sy) = Raise ValueError) /\
  ((0 <= nx)%Z -> (0 <= ny)%Z -> (nx < Z.of_nat (length sx) - 1)%Z \/ (ny < Z.of_nat (length sy) - 1)%Z -> bivariate_normal_theory mvn rho nx ny n (Some sx) (Some sy) = Raise IndexError).
Proof.
  intros mvn rho nx ny n sx sy N LX LY. unfold bivariate_normal_theory. rewrite (proj2 (rltb_false _ _) N). cbn [edges_or rbind]. split.
  - intros H. assert (E : ((nx <? 0) || (ny <? 0))%Z%bool = true) by (apply orb_true_iff; rewrite !Z.ltb_lt; tauto). rewrite E. reflexivity.
  - intros A B H. rewrite (proj2 (Z.ltb_ge nx 0)), (proj2 (Z.ltb_ge ny 0)) by lia. cbn [orb].
    rewrite (proj2 (Nat.eqb_neq (length sx - 1) 0)), (proj2 (Nat.eqb_neq (length sy - 1) 0)) by lia. cbn [orb negb andb].
    assert (E : ((nx <? Z.of_nat (length sx - 1)) || (ny <? Z.of_nat (length sy - 1)))%Z%bool = true) by (apply orb_true_iff; rewrite !Z.ltb_lt; lia). rewrite E. reflexivity.
Qed.
Print Assumptions C21_solution.
