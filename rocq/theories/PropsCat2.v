(** C94: declaring a category that never occurs changes the correlation. *)
From Coq Require Import String ZArith List Bool Reals Lia Lra.
Import ListNotations.
From Coquelicot Require Import Coquelicot.
From Verif Require Import F64 Base Cells BinModel SpecBin HistModel SpecHist HistProofs RSum StatsModel SpecStats StatsProofs StatsProofs2 StatsProofs3 SpecSolver
  BrentModel BrentProofs BivModel SpecBiv BivProofs BivProofs2 PropsBiv2 PropsStats Num PhikModel SpecPhik PhikProofs PhikMatProofs PhikInvProofs Gauss SpecBvn BvnProofs BvnProofs2 BvnProofs3 PropsBvn PropsPhik PropsPhik2 CatModel SpecCat PropsCat.
Open Scope list_scope.
Open Scope R_scope.

(** an upper bound on the chi2 of a weak correlation on the 3 x 3 grid *)
Lemma exp_le : forall a b, a <= b -> exp a <= exp b.
Proof. intros a b [H| ->]; [left; apply exp_increasing; exact H|right; reflexivity]. Qed.
Lemma dens_third : forall r x y, 0 <= r <= 1 / 2 -> 0 <= bvn_density r x y <= 1 / 3.
Proof.
  intros r x y H. unfold bvn_density. pose proof PI2_3_2 as P3. unfold PI2 in P3.
  assert (S : 1 / 2 <= sqrt (1 - r ^ 2)). { replace (1 / 2) with (sqrt ((1 / 2) * (1 / 2))) by (apply sqrt_square; lra). apply sqrt_le_1_alt. nra. }
  assert (D : 3 <= 2 * PI * sqrt (1 - r ^ 2)) by nra.
  assert (E : exp (- (x ^ 2 - 2 * r * x * y + y ^ 2) / (2 * (1 - r ^ 2))) <= 1).
  { apply Rle_trans with (exp 0); [apply exp_le|rewrite exp_0; lra]. assert (0 < 2 * (1 - r ^ 2)) by nra. assert (0 <= x ^ 2 - 2 * r * x * y + y ^ 2) by (pose proof (pow2_ge_0 (x - r * y)); pose proof (pow2_ge_0 y); nra).
    set (q := x ^ 2 - _ + _) in *. set (d := 2 * (1 - r ^ 2)) in *. apply Rmult_le_reg_r with d; [lra|]. unfold Rdiv. rewrite Rmult_assoc, Rinv_l by lra. lra. }
  pose proof (exp_pos (- (x ^ 2 - 2 * r * x * y + y ^ 2) / (2 * (1 - r ^ 2)))) as E0. set (e := exp _) in *. set (d := 2 * PI * _) in *.
  split; [left; apply Rdiv_lt_0_compat; lra|]. apply Rmult_le_reg_r with d; [lra|]. unfold Rdiv. rewrite Rmult_assoc, Rinv_l by lra. lra.
Qed.
Lemma prob_near_0 : forall r a c b d, 0 <= r <= 1 / 2 -> Rabs (bvn_prob r a c b d - bvn_prob 0 a c b d) <= 2 / 3 * r.
Proof.
  intros r a c b d H. destruct (MVT_gen (fun r => bvn_prob r a c b d) 0 r (fun r => corner r a c b d)) as (z & Z & E).
  - intros t T. rewrite Rmin_left, Rmax_right in T by lra. apply prob_derive. lra.
  - intros t T. rewrite Rmin_left, Rmax_right in T by lra. apply derivable_continuous_pt, ex_derive_Reals_0; eexists; apply prob_derive; lra.
  - rewrite Rmin_left, Rmax_right in Z by lra. rewrite E, Rabs_mult, (Rabs_pos_eq (r - 0)) by lra. assert (0 <= z <= 1 / 2) by lra.
    pose proof (dens_third z b d H0). pose proof (dens_third z a d H0). pose proof (dens_third z b c H0). pose proof (dens_third z a c H0).
    assert (Rabs (corner z a c b d) <= 2 / 3) by (unfold corner; apply Rabs_le; lra). nra.
Qed.
Lemma phi_gap : forall u, -2 <= u -> u + 1 / 3 <= 2 -> 1 / 81 <= gPhi (u + 1 / 3) - gPhi u.
Proof.
  intros u U1 U2. destruct (MVT_gen gPhi u (u + 1 / 3) gphi) as (z & Z & E).
  - intros t _. apply gPhi_derive.
  - intros t _. apply derivable_continuous_pt, ex_derive_Reals_0. eexists. apply gPhi_derive.
  - rewrite Rmin_left, Rmax_right in Z by lra. rewrite E. replace (u + 1 / 3 - u) with (1 / 3) by lra.
    assert (1 / 27 <= gphi z); [|lra]. unfold gphi. pose proof sqrt2pi_bounds as [S1 S2].
    assert (1 / 9 <= exp (- z ^ 2 / 2)).
    { apply Rle_trans with (exp (- (1 + 1))); [|apply exp_le; nra]. rewrite exp_Ropp, exp_plus. pose proof exp_le_3. pose proof (exp_pos 1). apply Rmult_le_reg_r with (exp 1 * exp 1); [nra|]. rewrite Rinv_l by nra. nra. }
    apply Rmult_le_reg_r with (sqrt (2 * PI)); [lra|]. unfold Rdiv at 2. rewrite Rmult_assoc, Rinv_l by lra. nra.
Qed.
Lemma cell_mass : forall i, (i < 3)%nat -> 1 / 81 <= gPhi (nth (S i) (unit_edges 3) 0) - gPhi (nth i (unit_edges 3) 0).
Proof.
  intros i Hi. rewrite !unit_edges_nth by lia. set (a := -5 + INR i * (10 / INR 3)). set (b := -5 + INR (S i) * (10 / INR 3)).
  assert (W : exists u, -2 <= u /\ u + 1 / 3 <= 2 /\ a <= u /\ u + 1 / 3 <= b).
  { unfold a, b. destruct i as [|[|[|i]]]; [exists (-2)|exists 0|exists (5 / 3)|lia]; simpl INR; lra. }
  destruct W as (u & U1 & U2 & U3 & U4). pose proof (phi_gap u U1 U2). pose proof (gPhi_le a u U3). pose proof (gPhi_le _ _ U4). lra.
Qed.
Lemma weak_chi2 : forall r, 0 <= r <= 1 / 2 -> binned_chi2 bvn_prob (unit_edges 3) (unit_edges 3) r <= 26244 * r ^ 2.
Proof.
  intros r H. rewrite (chi2_grid 3 ltac:(lia)).
  assert (B : forall i j, In i (seq 0 3) -> In j (seq 0 3) -> (bvn_prob r (nth i (unit_edges 3) 0) (nth j (unit_edges 3) 0) (nth (S i) (unit_edges 3) 0) (nth (S j) (unit_edges 3) 0) -
      (gPhi (nth (S i) (unit_edges 3) 0) - gPhi (nth i (unit_edges 3) 0)) * (gPhi (nth (S j) (unit_edges 3) 0) - gPhi (nth j (unit_edges 3) 0))) ^ 2 /
      ((gPhi (nth (S i) (unit_edges 3) 0) - gPhi (nth i (unit_edges 3) 0)) * (gPhi (nth (S j) (unit_edges 3) 0) - gPhi (nth j (unit_edges 3) 0))) <= 2916 * r ^ 2).
  { intros i j I J. apply in_seq in I, J. pose proof (cell_mass i ltac:(lia)) as P. pose proof (cell_mass j ltac:(lia)) as Q. rewrite <- prob_0.
    pose proof (prob_near_0 r (nth i (unit_edges 3) 0) (nth j (unit_edges 3) 0) (nth (S i) (unit_edges 3) 0) (nth (S j) (unit_edges 3) 0) H) as D.
    rewrite prob_0 in *. set (p := gPhi _ - gPhi _) in *. set (q := gPhi (nth (S j) _ _) - gPhi _) in *. set (d := bvn_prob _ _ _ _ _ - p * q) in *.
    assert (PQ : 1 / 6561 <= p * q) by nra. assert (DD : d ^ 2 <= 4 / 9 * r ^ 2). { rewrite <- (pow2_abs d). pose proof (Rabs_pos d). nra. }
    apply Rmult_le_reg_r with (p * q); [lra|]. unfold Rdiv. rewrite Rmult_assoc, Rinv_l by lra. pose proof (pow2_ge_0 r). nra. }
  eapply Rle_trans; [apply lsum_le; intros i I; apply lsum_le; intros j J; exact (B i j I J)|]. unfold lsum. cbn. lra.
Qed.

(** two columns of four records; category "c" of the first is declared but never occurs *)
Open Scope string_scope.
Definition x94 : ccol := mkCC (Some [CStr "a"; CStr "b"; CStr "c"]) [CStr "a"; CStr "b"; CStr "a"; CStr "b"].
Definition y94 : ccol := mkCC None [CStr "p"; CStr "q"; CStr "r"; CStr "r"].
Close Scope string_scope.
Definition t94 : mat := tab [[1;0;1];[0;1;1];[0;0;0]]%Z 3.
Definition s94 : mat := tab [[1;0;1];[0;1;1]]%Z 3.
Ltac cells i j := do 4 (destruct i as [|i]; [do 4 (destruct j as [|j]; [first [lia | simpl; lra | reflexivity]|]); lia|]); lia.
Lemma t94_eq : mat_eq (hmat (crosstab_c x94 y94)) t94.
Proof.
  split; [reflexivity|]. split; [reflexivity|]. intros i j Hi Hj. change (nr (hmat (crosstab_c x94 y94))) with 3%nat in Hi. change (nc (hmat (crosstab_c x94 y94))) with 3%nat in Hj.
  unfold hmat, t94, tab. cbn [el]. change (h_cnt (crosstab_c x94 y94)) with [[1;0;1];[0;1;1];[0;0;0]]%nat. cells i j.
Qed.
Lemma s94_eq : mat_eq (hmat (crosstab_c (plain x94) (plain y94))) s94.
Proof.
  split; [reflexivity|]. split; [reflexivity|]. intros i j Hi Hj. change (nr (hmat (crosstab_c (plain x94) (plain y94)))) with 2%nat in Hi. change (nc (hmat (crosstab_c (plain x94) (plain y94)))) with 3%nat in Hj.
  unfold hmat, s94, tab. cbn [el]. change (h_cnt (crosstab_c (plain x94) (plain y94))) with [[1;0;1];[0;1;1]]%nat. cells i j.
Qed.
Lemma x94_valid : valid_ccol x94 /\ valid_ccol y94.
Proof.
  split; [|exact I]. cbn. split; [repeat constructor; cbn; intuition discriminate|]. split; [intuition discriminate|]. intros v H. intuition (subst; auto).
Qed.
Lemma t94_facts : nonneg_table t94 /\ has_records t94 /\ nz_rows t94 = [0;1]%nat /\ nz_cols t94 = [0;1;2]%nat /\ matsum t94 = 4.
Proof.
  split; [|split; [|split; [|split]]].
  - intros i j Hi Hj. unfold t94 in *. cbn [nr nc el tab length] in *. cells i j.
  - exists 0%nat, 0%nat. unfold t94. simpl. repeat split; try lia. lra.
  - unfold nz_rows, t94, reqb, tab. cbn. repeat (destruct (Req_EM_T _ _); try lra; cbn). reflexivity.
  - unfold nz_cols, t94, reqb, tab. cbn. repeat (destruct (Req_EM_T _ _); try lra; cbn). reflexivity.
  - unfold t94, tab, matsum, rowsum, lsum. simpl. lra.
Qed.
Lemma t94_chi2 : forall clamp, get_chi2 clamp t94 Pearson = Ok 2.
Proof.
  intros clamp. destruct t94_facts as (HN & HR & RN & CN & MS). rewrite (C14_chi2_value clamp t94 Pearson (nz_rows t94) (nz_cols t94) HN HR (enum_rows_nz _) (enum_cols_nz _)); [|right; rewrite CN; cbn; lia].
  rewrite RN, CN, MS. cbn [length Nat.leb orb]. f_equal. unfold t94, tab, rowsum, colsum, lsum. simpl. lra.
Qed.
Lemma t94_ndof : estimate_simple_ndof t94 = 1%Z.
Proof. destruct t94_facts as (HN & HR & RN & CN & MS). rewrite simple_ndof_form by assumption. rewrite RN, CN. reflexivity. Qed.
Lemma s94_facts : nonneg_table s94 /\ has_records s94 /\ nz_rows s94 = [0;1]%nat /\ nz_cols s94 = [0;1;2]%nat /\ matsum s94 = 4.
Proof.
  split; [|split; [|split; [|split]]].
  - intros i j Hi Hj. unfold s94 in *. cbn [nr nc el tab length] in *. cells i j.
  - exists 0%nat, 0%nat. unfold s94. simpl. repeat split; try lia. lra.
  - unfold nz_rows, s94, reqb, tab. cbn. repeat (destruct (Req_EM_T _ _); try lra; cbn). reflexivity.
  - unfold nz_cols, s94, reqb, tab. cbn. repeat (destruct (Req_EM_T _ _); try lra; cbn). reflexivity.
  - unfold s94, tab, matsum, rowsum, lsum. simpl. lra.
Qed.
Lemma s94_chi2 : forall clamp, get_chi2 clamp s94 Pearson = Ok 2.
Proof.
  intros clamp. rewrite <- (get_chi2_eq clamp _ _ Pearson s94_eq). rewrite <- C94_same_chi2 by apply x94_valid. rewrite (get_chi2_eq clamp _ _ Pearson t94_eq). apply t94_chi2.
Qed.
Lemma s94_ndof : estimate_simple_ndof s94 = 2%Z.
Proof. destruct s94_facts as (HN & HR & RN & CN & MS). rewrite simple_ndof_form by assumption. rewrite RN, CN. reflexivity. Qed.
(** without the declared category the correlation is 0, with it it is above 1/1000, whatever the root finder *)
Theorem C94_unused_refuted : forall clamp bq, root_finder_ok bq -> let L := mkLib clamp bvn_prob bq in
  valid_ccol x94 /\ valid_ccol y94 /\
  calc_phik_c L true (plain x94) (plain y94) = Ok (Fin 0) /\
  (forall v, calc_phik_c L true x94 y94 = Ok v -> exists q, v = Fin q /\ 1 / 1000 <= q <= 1) /\
  (root_finder_converges bq -> exists v, calc_phik_c L true x94 y94 = Ok v).
Proof.
  intros clamp bq RF L. split; [apply x94_valid|]. split; [apply x94_valid|]. assert (LO : lib_ok L) by (split; [apply bvn_mvn_ok|exact RF]).
  destruct t94_facts as (HN & HR & RN & CN & MS). destruct s94_facts as (HN' & HR' & _ & _ & MS').
  assert (PS : proper_shape t94) by (split; cbn; lia). assert (PS' : proper_shape s94) by (split; cbn; lia).
  assert (F : calc_phik_c L true x94 y94 = rmap Fin (phik_from_hist2d L t94 true)).
  { unfold calc_phik_c, table_phik. change (is01 (length (h_rows (crosstab_c x94 y94))) || is01 (length (h_cols (crosstab_c x94 y94)))) with false. cbv iota. rewrite (hist2d_eq L _ _ true t94_eq). destruct (phik_from_hist2d L t94 true); reflexivity. }
  assert (F' : calc_phik_c L true (plain x94) (plain y94) = rmap Fin (phik_from_hist2d L s94 true)).
  { unfold calc_phik_c, table_phik. change (is01 (length (h_rows (crosstab_c (plain x94) (plain y94)))) || is01 (length (h_cols (crosstab_c (plain x94) (plain y94))))) with false. cbv iota. rewrite (hist2d_eq L _ _ true s94_eq). destruct (phik_from_hist2d L s94 true); reflexivity. }
  split; [|split].
  - rewrite F'. destruct (C26_value L s94 true LO HN' HR' PS') as (chi2 & E & V). cbn zeta in V. destruct V as (V & _). rewrite s94_chi2 in E. injection E as <-. rewrite s94_ndof in V. rewrite V by lra. reflexivity.
  - intros v E. rewrite F in E. destruct (phik_from_hist2d L t94 true) as [q|e] eqn:Q; [|discriminate E]. cbn in E. injection E as <-. exists q. split; [reflexivity|].
    destruct (hist2d_unit L t94 LO HN HR PS true) as [(v & Ev & Bv)|[Ev _]]; [|congruence]. assert (v = q) by congruence. subst v. split; [|lra].
    destruct (C26_value L t94 true LO HN HR PS) as (chi2 & E & V). cbn zeta in V. destruct V as (_ & _ & V). rewrite t94_chi2 in E. injection E as <-. rewrite t94_ndof, MS in V.
    change (Z.min (Z.of_nat (nr t94)) (Z.of_nat (nc t94))) with 3%Z in V. change (nr t94) with 3%nat in V. change (nc t94) with 3%nat in V.
    destruct (V ltac:(lra) ltac:(lra) (square_regular 3 ltac:(lia)) q Q) as (rho & R1 & R2 & R3 & _). cbn [l_mvn L] in R2.
    pose proof (C22_value bvn_prob rho 4 0 (Z.of_nat 3) (Z.of_nat 3) 1 bvn_mvn_ok ltac:(lra) ltac:(lia) ltac:(lia)) as W. cbn zeta in W. rewrite R2 in W. injection W as W.
    change (Z.min 2 2) with 2%Z in W. change (Pos.to_nat 3) with 3%nat in W.
    pose proof (C81_full_correlation 3 ltac:(lia)) as G1. simpl INR in G1. pose proof (pow2_ge_0 (1 - normal_mass (-5) 5)) as SQ.
    set (g1 := binned_chi2 _ _ _ 1) in *. assert (G2 : 2 <= g1) by lra. set (g := binned_chi2 _ _ _ rho) in *.
    assert (GV : g = g1 / 7). { assert (T : g / g1 = 1 / 7) by lra. apply Rmult_eq_reg_r with (/ g1); [|apply Rinv_neq_0_compat; lra]. unfold Rdiv in *. rewrite T. field. lra. }
    destruct (Rle_dec rho (1 / 2)) as [S|S].
    + pose proof (weak_chi2 rho ltac:(lra)) as U. fold g in U. assert (2 / 1000 <= rho) by nra. apply Rabs_le_between in R3. lra.
    + apply Rabs_le_between in R3. lra.
  - intros CV. rewrite F. destruct (hist2d_unit L t94 LO HN HR PS true) as [(v & Ev & _)|[_ N]]; [rewrite Ev; eexists; reflexivity|]. exfalso. apply N. exact CV.
Qed.
(** such a root finder exists *)
Example C94_root_finder : root_finder_ok bisection /\ root_finder_converges bisection. Proof. exact bisection_ok. Qed.
(** the hypotheses of the other theorems are met: four declared categories, three used, both columns equal; without category dtype this is perfect association *)
Open Scope string_scope.
Definition p94 : ccol := mkCC (Some [CStr "d"; CStr "c"; CStr "b"; CStr "a"]) [CStr "a"; CStr "b"; CStr "c"].
Close Scope string_scope.
Example C94_never_one_met : valid_ccol p94 /\ categorical p94 || categorical p94 = true /\ used_count (used_x p94 p94) 3 /\ used_count (used_y p94 p94) 3 /\
  (Nat.min 3 3 < Nat.min (length (levels p94)) (length (levels p94)))%nat /\ (forall L, lib_ok L -> calc_phik_c L true (plain p94) (plain p94) = Ok (Fin 1)).
Proof.
  split; [cbn; split; [repeat constructor; cbn; intuition discriminate|]; split; [intuition discriminate|]; intros v H; intuition (subst; auto)|].
  split; [reflexivity|]. split; [|split; [|split; [cbn; lia|]]].
  - exists (cc_cells p94). split; [cbn; repeat constructor; cbn; intuition discriminate|]. split; [reflexivity|]. intros a. unfold used_x. split.
    + intros [<-|[<-|[<-|[]]]]; (split; [discriminate|]; eexists; split; [|cbn; eauto]; discriminate).
    + intros (N & b & Nb & H). exact (in_combine_l _ _ _ _ H).
  - exists (cc_cells p94). split; [cbn; repeat constructor; cbn; intuition discriminate|]. split; [reflexivity|]. intros a. unfold used_y. split.
    + intros [<-|[<-|[<-|[]]]]; (split; [discriminate|]; eexists; split; [|cbn; eauto]; discriminate).
    + intros (N & b & Nb & H). exact (in_combine_r _ _ _ _ H).
  - intros L LO. unfold calc_phik_c, table_phik. change (is01 (length (h_rows (crosstab_c (plain p94) (plain p94)))) || is01 (length (h_cols (crosstab_c (plain p94) (plain p94))))) with false. cbv iota.
    rewrite (proj1 (C28_functional_dependence L (hmat (crosstab_c (plain p94) (plain p94))) (fun j => j) true LO (hmat_nonneg _) (hmat_counts _) (det_check (crosstab_c (plain p94) (plain p94)) (fun j => j) eq_refl eq_refl eq_refl) ltac:(vm_compute; lia) ltac:(vm_compute; lia))). reflexivity.
Qed.
(** every declared category used *)
Open Scope string_scope.
Definition q94 : ccol := mkCC (Some [CStr "b"; CStr "a"]) [CStr "a"; CStr "b"; CNaN].
Close Scope string_scope.
Example C94_all_used_met : valid_ccol q94 /\ (forall a, In a (levels q94) -> used_x q94 q94 a) /\ (forall a, In a (levels q94) -> used_y q94 q94 a).
Proof.
  split; [cbn; split; [repeat constructor; cbn; intuition discriminate|]; split; [intuition discriminate|]; intros v H; intuition (subst; auto)|].
  split; intros a [<-|[<-|[]]]; (split; [discriminate|]; eexists; split; [|cbn; eauto]; discriminate).
Qed.
