(** Lemmas for C105: tables whose counts are all multiplied by k >= 1. *)
From Coq Require Import ZArith List Bool Reals Lra Lia Psatz FunctionalExtensionality.
From Verif Require Import Base RSum StatsModel SpecStats StatsProofs StatsProofs2 StatsProofs3 SpecSolver BivModel SpecBiv PropsStats PropsBiv PropsBiv2 PhikModel SpecPhik PhikProofs PropsPhik2 SpecBvn PropsBvn.
Import ListNotations.
Open Scope R_scope.

Lemma abs_inv : forall x y, Rabs x <= y -> - y <= x <= y.
Proof. intros x y H. unfold Rabs in H. destruct (Rcase_abs x); lra. Qed.
Lemma times_nonneg : forall k m, 0 < k -> nonneg_table m -> nonneg_table (times k m).
Proof. intros k m K HN i j Hi Hj; cbn in *; apply Rmult_le_pos; [lra|apply HN; assumption]. Qed.
Lemma times_records : forall k m, 0 < k -> has_records m -> has_records (times k m).
Proof. intros k m K (i & j & A & B & C). exists i, j; cbn; repeat split; try assumption; apply Rmult_integral_contrapositive_currified; lra. Qed.
Lemma times_expected : forall k m i j, 0 < k -> 0 < matsum m -> expected (times k m) i j = k * expected m i j.
Proof. intros k m i j K M. unfold expected. rewrite times_rowsum, times_colsum, times_matsum. field. lra. Qed.
Lemma times_ndof : forall k m, 0 < k -> 0 < matsum m -> estimate_simple_ndof (times k m) = estimate_simple_ndof m.
Proof.
  intros k m K M. unfold estimate_simple_ndof. assert (E : zero_expected (times k m) = zero_expected m); [|rewrite E; reflexivity]. unfold zero_expected. rewrite times_matsum.
  destruct (Req_EM_T (k * matsum m) 0) as [H|_]; [exfalso; assert (0 < k * matsum m) by (apply Rmult_lt_0_compat; assumption); lra|]. destruct (Req_EM_T (matsum m) 0) as [H|_]; [lra|].
  f_equal. cbn [nr nc times]. apply filter_ext. intros c. rewrite times_expected by assumption. unfold reqb. destruct (Req_EM_T (k * _) 0) as [H|H], (Req_EM_T (expected m (fst c) (snd c)) 0) as [H'|H']; try reflexivity.
  - exfalso. apply Rmult_integral in H. destruct H; [lra|contradiction].
  - exfalso. apply H. rewrite H'. ring.
Qed.

(** Yates' correction takes a smaller share of a larger deviation *)
Lemma yates_dev : forall o e, yates true o e - e = rsign (o - e) * (Rabs (o - e) - Rmin (1 / 2) (Rabs (o - e))).
Proof.
  intros o e. unfold yates, rsign. rewrite (Rabs_minus_sym e o). set (r := Rmin _ _). unfold Rabs. destruct (Rcase_abs (o - e)), (Rlt_dec 0 (e - o)), (Rlt_dec (e - o) 0), (Rlt_dec 0 (o - e)), (Rlt_dec (o - e) 0); try lra.
Qed.
Lemma yates_grows : forall k o e, 1 <= k -> 0 < e -> k * pd_term Pearson (yates true o e) e <= pd_term Pearson (yates true (k * o) (k * e)) (k * e).
Proof.
  intros k o e K E. unfold pd_term. rewrite !yates_dev. replace (k * o - k * e) with (k * (o - e)) by ring. set (d := o - e). rewrite Rabs_mult, (Rabs_right k) by lra.
  pose proof (Rabs_pos d) as P. set (a := Rabs d) in *.
  assert (S1 : rsign (k * d) = rsign d) by (unfold rsign; destruct (Rlt_dec 0 (k * d)), (Rlt_dec 0 d), (Rlt_dec (k * d) 0), (Rlt_dec d 0); try reflexivity; exfalso; nra).
  rewrite S1. set (s := rsign d). assert (X0 : 0 <= a - Rmin (1 / 2) a) by (pose proof (Rmin_r (1 / 2) a); lra).
  assert (X1 : k * (a - Rmin (1 / 2) a) <= k * a - Rmin (1 / 2) (k * a)).
  { unfold Rmin. destruct (Rle_dec (1 / 2) a), (Rle_dec (1 / 2) (k * a)); nra. }
  set (x := a - Rmin (1 / 2) a) in *. set (y := k * a - Rmin (1 / 2) (k * a)) in *.
  apply Rmult_le_reg_r with (k * e); [apply Rmult_lt_0_compat; lra|].
  replace (k * (s * x * (s * x) / e) * (k * e)) with ((s * s) * ((k * x) * (k * x))) by (field; lra). replace (s * y * (s * y) / (k * e) * (k * e)) with ((s * s) * (y * y)) by (field; split; lra).
  apply Rmult_le_compat_l; [nra|]. assert (0 <= k * x) by (apply Rmult_le_pos; lra). apply Rmult_le_compat; lra.
Qed.
Lemma plain_scales : forall k o e, 0 < k -> 0 < e -> pd_term Pearson (k * o) (k * e) = k * pd_term Pearson o e.
Proof. intros k o e K E. unfold pd_term. field. lra. Qed.

Lemma any_scales : forall l k o e, 0 < k -> 0 < e -> pd_term l (k * o) (k * e) = k * pd_term l o e.
Proof.
  intros [|] k o e K E; [apply plain_scales; assumption|]. unfold pd_term, xlogy. destruct (Req_EM_T (k * o) 0) as [H|H], (Req_EM_T o 0) as [H'|H']; try lra.
  - apply Rmult_integral in H. destruct H; lra.
  - exfalso. apply H. rewrite H'. ring.
  - replace (k * o / (k * e)) with (o / e) by (field; lra). ring.
Qed.

Section Times.
  Variables (m : mat) (k : R).
  Hypothesis HN : nonneg_table m. Hypothesis HR : has_records m.
  Let MP : 0 < matsum m. Proof. apply matsum_pos; assumption. Qed.
  Lemma times_stat : 1 <= k -> k * stat true Pearson m (nz_rows m) (nz_cols m) <= stat true Pearson (times k m) (nz_rows (times k m)) (nz_cols (times k m)).
  Proof.
    intros K. rewrite times_nz_rows, times_nz_cols by lra. unfold stat. destruct (Nat.eqb _ 0); [lra|]. rewrite <- lsum_scal. apply lsum_le. intros i Hi. rewrite <- lsum_scal. apply lsum_le. intros j Hj.
    assert (EP : 0 < expected m i j). { unfold expected. pose proof (Rpos m HN i Hi). pose proof (Cpos m HN j Hj). apply Rdiv_lt_0_compat; [apply Rmult_lt_0_compat; assumption|exact MP]. }
    unfold stat_term. rewrite times_expected by lra. cbn [el times]. destruct (Nat.eqb _ 1); [apply yates_grows; assumption|]. rewrite plain_scales by lra. lra.
  Qed.
  Lemma times_stat_exact : forall clamp l, 0 < k -> ~ two_by_two m -> stat clamp l (times k m) (nz_rows (times k m)) (nz_cols (times k m)) = k * stat clamp l m (nz_rows m) (nz_cols m).
  Proof.
    intros clamp l K H2. rewrite times_nz_rows, times_nz_cols by lra. unfold stat.
    assert (D : ((length (nz_rows m) - 1) * (length (nz_cols m) - 1))%nat <> 1%nat).
    { intros E. apply dof1 in E. apply H2. exists (nz_rows m), (nz_cols m). split; [apply enum_rows_nz|]. split; [apply enum_cols_nz|]. tauto. }
    destruct (Nat.eqb _ 0); [ring|]. rewrite <- lsum_scal. apply lsum_ext. intros i Hi. rewrite <- lsum_scal. apply lsum_ext. intros j Hj.
    assert (EP : 0 < expected m i j). { unfold expected. pose proof (Rpos m HN i Hi). pose proof (Cpos m HN j Hj). apply Rdiv_lt_0_compat; [apply Rmult_lt_0_compat; assumption|exact MP]. }
    unfold stat_term. destruct (Nat.eqb_spec ((length (nz_rows m) - 1) * (length (nz_cols m) - 1)) 1) as [Z|_]; [contradiction|]. rewrite times_expected by lra. cbn [el times]. apply any_scales; assumption.
  Qed.
End Times.

(** what phik of a table is, in terms of the share of the chi2 above the pedestal *)
Definition regular_grid (m : mat) : Prop := nr m = nc m \/ Nat.min (nr m) (nc m) = 2%nat.
Definition share (m : mat) (rho : R) : R := binned_chi2 bvn_prob (unit_edges (nr m)) (unit_edges (nc m)) rho / binned_chi2 bvn_prob (unit_edges (nr m)) (unit_edges (nc m)) 1.
Definition largest (m : mat) : R := matsum m * (IZR (Z.min (Z.of_nat (nr m)) (Z.of_nat (nc m))) - 1).
Definition noise_part (m : mat) (noise : bool) : R := if noise then IZR (estimate_simple_ndof m) else 0.
Definition phik_is (chi2 ped mx : R) (g : R -> R) (v : R) : Prop :=
  (chi2 <= ped /\ v = 0) \/ (ped < chi2 /\ chi2 = mx /\ v = 1) \/
  (ped < chi2 < mx /\ exists rho, 0 < rho < 1 /\ Rabs (v - rho) <= 101 / 10 ^ 7 /\ g rho = (chi2 - ped) / (mx - ped)).

Lemma share_mono : forall m, proper_shape m -> regular_grid m -> forall a b, 0 <= a -> a < b -> b <= 1 -> share m a < share m b.
Proof.
  intros m [P1 P2] RG a b A AB B. destruct (grid_regular (nr m) (nc m) ltac:(lia) ltac:(lia) RG) as [_ INC]. unfold share.
  destruct (C81_contract) as (MV & _). assert (G1 : 0 < binned_chi2 bvn_prob (unit_edges (nr m)) (unit_edges (nc m)) 1).
  { pose proof (INC 0 1 ltac:(lra) ltac:(lra) ltac:(lra)). assert (0 <= binned_chi2 bvn_prob (unit_edges (nr m)) (unit_edges (nc m)) 0); [|lra]. unfold binned_chi2. apply lsum_nonneg. intros c Hc.
    destruct (Req_EM_T _ 0); [lra|]. replace (grid_prob bvn_prob 0 (unit_edges (nr m)) (unit_edges (nc m)) c - grid_prob bvn_prob 0 (unit_edges (nr m)) (unit_edges (nc m)) c) with 0 by ring. unfold Rdiv. rewrite pow_i by lia. lra. }
  apply Rmult_lt_compat_r; [apply Rinv_0_lt_compat; exact G1|]. apply INC; assumption.
Qed.

Lemma largest_pos : forall m, nonneg_table m -> has_records m -> proper_shape m -> 0 < largest m.
Proof. intros m HN HR [P1 P2]. unfold largest. apply Rmult_lt_0_compat; [apply matsum_pos; assumption|]. rewrite <- minus_IZR. apply IZR_lt. lia. Qed.
Lemma noise_nonneg : forall m b, 0 <= noise_part m b.
Proof.
  intros m b. unfold noise_part. destruct b; [|lra]. apply (IZR_le 0). unfold estimate_simple_ndof. destruct (Z.ltb_spec (Z.of_nat (nr m * nc m) - Z.of_nat (nr m + nc m) + 2 - 1 - Z.of_nat (zero_expected m)) 0); lia.
Qed.
Lemma phik_value : forall bq m b v, root_finder_ok bq -> nonneg_table m -> has_records m -> proper_shape m -> regular_grid m -> phik_from_hist2d (mkLib true bvn_prob bq) m b = Ok v ->
  phik_is (stat true Pearson m (nz_rows m) (nz_cols m)) (noise_part m b) (largest m) (share m) v /\ 0 <= stat true Pearson m (nz_rows m) (nz_cols m) <= largest m.
Proof.
  intros bq m b v BQ HN HR PS RG E. set (L := mkLib true bvn_prob bq) in *. assert (LO : lib_ok L) by (split; [apply C81_contract|exact BQ]).
  pose proof (matsum_pos m HN HR) as MP. pose proof PS as [P1 P2].
  assert (S0 : 0 <= stat true Pearson m (nz_rows m) (nz_cols m)) by (apply stat_nonneg; [assumption|assumption|left; reflexivity]).
  assert (SM : stat true Pearson m (nz_rows m) (nz_cols m) <= largest m).
  { eapply Rle_trans; [apply (C16_chi2_max m _ HN HR); apply get_chi2_closed; assumption|]. unfold largest. apply Rmult_le_compat_l; [lra|]. rewrite <- Nat2Z.inj_min, <- INR_IZR_INZ.
    destruct (Nat.min_spec (nr m) (nc m)) as [[_ ->]|[_ ->]]; [pose proof (Rmin_l (INR (nr m) - 1) (INR (nc m) - 1))|pose proof (Rmin_r (INR (nr m) - 1) (INR (nc m) - 1))]; lra. }
  split; [|lra]. destruct (C26_value L m b LO HN HR PS) as (chi2 & EC & V1 & V2 & V3). cbn zeta in V1, V2, V3. change (l_clamp L) with true in EC. rewrite get_chi2_closed in EC by assumption. injection EC as <-.
  fold (noise_part m b) in V1, V2, V3. fold (largest m) in V2, V3. set (c := stat true Pearson m (nz_rows m) (nz_cols m)) in *.
  destruct (Rle_dec c (noise_part m b)) as [H|H]; [left; split; [exact H|]; specialize (V1 H); congruence|]. destruct (Rle_dec (largest m) c) as [H'|H'].
  - right. left. split; [lra|]. split; [lra|]. specialize (V2 ltac:(lra) H'). congruence.
  - right. right. split; [lra|]. destruct (V3 ltac:(lra) ltac:(lra)) with (v := v) as (rho & A & B & C & _); [apply grid_regular; [lia|lia|exact RG]|exact E|]. exists rho. split; [exact A|]. split; [exact C|].
    pose proof (C22_value bvn_prob rho (matsum m) 0 (Z.of_nat (nr m)) (Z.of_nat (nc m)) (noise_part m b) (proj1 LO) MP ltac:(lia) ltac:(lia)) as V. cbn zeta in V. change (l_mvn L) with bvn_prob in B. rewrite B in V. rewrite !Nat2Z.id in V. injection V as V. fold (share m rho) in V.
    replace (matsum m * IZR (Z.min (Z.of_nat (nr m) - 1) (Z.of_nat (nc m) - 1))) with (largest m) in V by (unfold largest; f_equal; rewrite <- minus_IZR; f_equal; lia).
    rewrite V. replace (noise_part m b + (largest m - noise_part m b) * share m rho - 0 - noise_part m b) with ((largest m - noise_part m b) * share m rho) by ring. field. lra.
Qed.

(** comparison of two values on the same grid *)
Lemma phik_is_range : forall c p M g v, phik_is c p M g v -> - (101 / 10 ^ 7) <= v <= 1 + 101 / 10 ^ 7.
Proof. intros c p M g v [[_ ->]|[(_ & _ & ->)|(_ & rho & R1 & A & _)]]; [lra|lra|]. apply abs_inv in A. lra. Qed.
Lemma compare : forall g c1 p1 M1 v1 c2 p2 M2 v2, (forall a b, 0 <= a -> a < b -> b <= 1 -> g a < g b) -> 0 < M1 -> 0 < M2 -> 0 <= p1 -> 0 <= p2 ->
  c1 / M1 <= c2 / M2 -> p2 / M2 <= p1 / M1 -> c2 <= M2 -> phik_is c1 p1 M1 g v1 -> phik_is c2 p2 M2 g v2 -> v1 <= v2 + 202 / 10 ^ 7.
Proof.
  intros g c1 p1 M1 v1 c2 p2 M2 v2 INC HM1 HM2 P1 P2 HC HP CM H1 H2. pose proof (phik_is_range _ _ _ _ _ H1) as B1. pose proof (phik_is_range _ _ _ _ _ H2) as B2.
  assert (XC : c1 * M2 <= c2 * M1). { apply (Rmult_le_compat_r (M1 * M2)) in HC; [|nra]. replace (c1 / M1 * (M1 * M2)) with (c1 * M2) in HC by (field; lra). replace (c2 / M2 * (M1 * M2)) with (c2 * M1) in HC by (field; lra). exact HC. }
  assert (XP : p2 * M1 <= p1 * M2). { apply (Rmult_le_compat_r (M1 * M2)) in HP; [|nra]. replace (p2 / M2 * (M1 * M2)) with (p2 * M1) in HP by (field; lra). replace (p1 / M1 * (M1 * M2)) with (p1 * M2) in HP by (field; lra). exact HP. }
  destruct H1 as [[_ ->]|H1]; [lra|].
  assert (Q1 : p1 < c1) by (destruct H1 as [(? & _)|((? & _) & _)]; assumption).
  assert (Q2 : p2 < c2) by (apply Rmult_lt_reg_r with M1; [exact HM1|]; apply Rle_lt_trans with (p1 * M2); [exact XP|]; apply Rlt_le_trans with (c1 * M2); [apply Rmult_lt_compat_r; assumption|exact XC]).
  destruct H2 as [[H2 _]|[(_ & _ & ->)|((_ & L2) & r2 & R2 & A2 & E2)]]; [lra| |].
  - destruct H1 as [(_ & _ & ->)|(_ & r1 & R1 & A1 & _)]; [lra|]. apply abs_inv in A1. lra.
  - assert (L1 : c1 < M1) by (apply Rmult_lt_reg_r with M2; [exact HM2|]; apply Rle_lt_trans with (c2 * M1); [exact XC|]; rewrite (Rmult_comm M1); apply Rmult_lt_compat_r; assumption).
    destruct H1 as [(_ & L & _)|(_ & r1 & R1 & A1 & E1)]; [lra|]. apply abs_inv in A1. apply abs_inv in A2.
    assert (LE : r1 <= r2); [|lra]. apply Rnot_lt_le. intros LT. pose proof (INC r2 r1 ltac:(lra) LT ltac:(lra)) as X. rewrite E1, E2 in X.
    apply (Rmult_lt_compat_r ((M1 - p1) * (M2 - p2))) in X; [|apply Rmult_lt_0_compat; lra].
    replace ((c2 - p2) / (M2 - p2) * ((M1 - p1) * (M2 - p2))) with ((c2 - p2) * (M1 - p1)) in X by (field; lra). replace ((c1 - p1) / (M1 - p1) * ((M1 - p1) * (M2 - p2))) with ((c1 - p1) * (M2 - p2)) in X by (field; lra).
    (* M1 (M1-c1)... *)
    assert (U : (M2 - c2) * (M1 - p1) <= (M1 - c1) * (M2 - p2)); [|nra].
    (* (1 - c2/M2)(1 - p1/M1) <= (1 - c1/M1)(1 - p2/M2) *)
    assert (U1 : (M2 - c2) * M1 <= (M1 - c1) * M2) by lra. assert (U2 : (M1 - p1) * M2 <= (M2 - p2) * M1) by lra.
    apply Rmult_le_reg_r with (M1 * M2); [apply Rmult_lt_0_compat; assumption|].
    replace ((M2 - c2) * (M1 - p1) * (M1 * M2)) with (((M2 - c2) * M1) * ((M1 - p1) * M2)) by ring. replace ((M1 - c1) * (M2 - p2) * (M1 * M2)) with (((M1 - c1) * M2) * ((M2 - p2) * M1)) by ring.
    apply Rmult_le_compat; [apply Rmult_le_pos; lra|apply Rmult_le_pos; lra|exact U1|exact U2].
Qed.
