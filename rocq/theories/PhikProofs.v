From Coq Require Import ZArith List Reals Lra Lia Bool Sorting.Permutation Psatz.
From Verif Require Import Base RSum StatsModel SpecStats StatsProofs StatsProofs2 StatsProofs3 SpecSolver SpecBiv BivModel BivProofs BivProofs2 PropsBiv HistModel PhikModel SpecPhik.
Import ListNotations.
Open Scope R_scope.

Definition pedestal_of (m : mat) (noise : bool) : R := IZR (if noise then estimate_simple_ndof m else 0%Z).
Lemma pedestal_nonneg : forall m b, nonneg_table m -> has_records m -> 0 <= pedestal_of m b.
Proof. intros m b HN HR. unfold pedestal_of. apply IZR_le. destruct b; [apply simple_ndof_bounds; assumption|lia]. Qed.

Lemma hist2d_unfold : forall L m b, nonneg_table m -> has_records m ->
  phik_from_hist2d L m b = phik_from_chi2 (l_mvn L) (l_bq L) (stat (l_clamp L) Pearson m (nz_rows m) (nz_cols m)) (matsum m) (Z.of_nat (nr m)) (Z.of_nat (nc m)) None None (pedestal_of m b).
Proof.
  intros L m b HN HR. unfold phik_from_hist2d. rewrite get_chi2_closed by assumption. cbn [rbind]. unfold pedestal_of.
  pose proof (simple_ndof_bounds m HN HR). destruct b; [rewrite (proj2 (Z.ltb_ge _ _)) by lia; reflexivity|reflexivity].
Qed.

Section Closed.
  Variables (L : lib) (m : mat).
  Hypothesis LO : lib_ok L.
  Hypothesis HN : nonneg_table m. Hypothesis HR : has_records m. Hypothesis PS : proper_shape m.
  Let Np : 0 < matsum m. Proof. apply matsum_pos; assumption. Qed.
  Let Hx : (2 <= Z.of_nat (nr m))%Z. Proof. destruct PS. lia. Qed.
  Let Hy : (2 <= Z.of_nat (nc m))%Z. Proof. destruct PS. lia. Qed.

  Lemma hist2d_unit : forall b, (exists v, phik_from_hist2d L m b = Ok v /\ 0 <= v <= 1) \/ (phik_from_hist2d L m b = Raise RuntimeError /\ ~ lib_converges L).
  Proof. intros b. rewrite hist2d_unfold by assumption. destruct LO. apply C21_unit_interval; try assumption. apply pedestal_nonneg; assumption. Qed.

  Definition chi2_max : R := matsum m * IZR (Z.min (Z.of_nat (nr m) - 1) (Z.of_nat (nc m) - 1)).
  Definition G := binned_chi2 (l_mvn L) (unit_edges (nr m)) (unit_edges (nc m)).

  Lemma phik_closed : forall chi2 ped, 0 <= ped -> phik_from_chi2 (l_mvn L) (l_bq L) chi2 (matsum m) (Z.of_nat (nr m)) (Z.of_nat (nc m)) None None ped =
    let c := clip chi2 chi2_max in
    if rleb c ped then Ok 0 else if rleb chi2_max c then Ok 1 else l_bq L (pf_fun (l_mvn L) (unit_edges (nr m)) (unit_edges (nc m)) (matsum m) c ped chi2_max) 0 1 phik_xtol.
  Proof.
    intros chi2 ped HP. destruct LO as [MV BQ]. destruct PS.
    rewrite (phik_from_chi2_closed (l_mvn L) (unit_edges (nr m)) (unit_edges (nc m))); [reflexivity|apply mvn_reflect, MV|apply unit_not_nil|apply unit_not_nil|apply unit_symmetric; lia|apply unit_symmetric; lia|exact BQ|exact HP| |].
    - rewrite two_bins_edges by exact Hx. rewrite Nat2Z.id. reflexivity.
    - rewrite two_bins_edges by exact Hy. rewrite Nat2Z.id. reflexivity.
  Qed.
  Lemma hist2d_closed : forall b, phik_from_hist2d L m b =
    let ped := pedestal_of m b in let c := clip (stat (l_clamp L) Pearson m (nz_rows m) (nz_cols m)) chi2_max in
    if rleb c ped then Ok 0 else if rleb chi2_max c then Ok 1 else l_bq L (pf_fun (l_mvn L) (unit_edges (nr m)) (unit_edges (nc m)) (matsum m) c ped chi2_max) 0 1 phik_xtol.
  Proof. intros b. rewrite hist2d_unfold by assumption. rewrite phik_closed by (apply pedestal_nonneg; assumption). reflexivity. Qed.
  Lemma chi2_max_pos : 0 < chi2_max.
  Proof. unfold chi2_max. apply Rmult_lt_0_compat; [exact Np|]. apply IZR_lt. lia. Qed.
End Closed.

(** * Symmetry *)
Lemma binned_chi2_swap : forall mvn sx sy rho, mvn_ok mvn -> binned_chi2 mvn sy sx rho = binned_chi2 mvn sx sy rho.
Proof.
  intros mvn sx sy rho MV. unfold binned_chi2.
  rewrite (lsum_perm _ _ _ (map (fun c => (snd c, fst c)) (all_cells (length sx - 1) (length sy - 1)))).
  - rewrite lsum_map. apply lsum_ext. intros [i j] _. unfold grid_prob. cbn [fst snd]. cbn zeta. rewrite (mvn_swap mvn MV 0), (mvn_swap mvn MV rho). reflexivity.
  - unfold all_cells. apply NoDup_Permutation; [apply nodup_prod; apply seq_NoDup| |].
    + apply FinFun.Injective_map_NoDup; [intros [a b] [c d] E; injection E as -> ->; reflexivity|]. apply nodup_prod; apply seq_NoDup.
    + intros [i j]. rewrite in_map_iff. split; [intros H; exists (j, i); split; [reflexivity|]; apply in_prod_iff; apply in_prod_iff in H; tauto|].
      intros ([a b] & E & H). injection E as -> ->. apply in_prod_iff. apply in_prod_iff in H. tauto.
Qed.

Theorem hist2d_transp : forall L m b, lib_ok L -> nonneg_table m -> has_records m -> proper_shape m -> phik_from_hist2d L (transp m) b = phik_from_hist2d L m b.
Proof.
  intros L m b LO HN HR PS. assert (PS' : proper_shape (transp m)) by (destruct PS; split; cbn; assumption).
  pose proof (transp_nonneg m HN) as HN'. pose proof (transp_records m HR) as HR'.
  rewrite !hist2d_closed by assumption. cbn zeta.
  assert (E1 : stat (l_clamp L) Pearson (transp m) (nz_rows (transp m)) (nz_cols (transp m)) = stat (l_clamp L) Pearson m (nz_rows m) (nz_cols m)).
  { change (nz_rows (transp m)) with (nz_cols m). change (nz_cols (transp m)) with (nz_rows m). apply stat_transp. }
  assert (E2 : pedestal_of (transp m) b = pedestal_of m b) by (unfold pedestal_of; destruct b; [rewrite simple_ndof_transp by assumption|]; reflexivity).
  assert (E3 : chi2_max (transp m) = chi2_max m) by (unfold chi2_max; rewrite matsum_transp; cbn [nr nc transp]; rewrite Z.min_comm; reflexivity).
  rewrite E1, E2, E3. destruct (rleb _ _); [reflexivity|]. destruct (rleb _ _); [reflexivity|]. destruct LO as [MV BQ].
  apply (rf_ext _ BQ); [lra|unfold phik_xtol; lra|]. intros x _. unfold pf_fun. cbn [nr nc transp]. rewrite matsum_transp. rewrite !(binned_chi2_swap _ (unit_edges (nr m))) by exact MV. reflexivity.
Qed.

Lemma permutes_rearr : forall m I J, permutes m I J -> rearrangement m I J.
Proof. intros m I J (A & B & C & D). split; [exact A|]. split; [exact B|]. split; [intros; apply C; assumption|]. split; [intros; apply D; assumption|]. intros. split; [apply C|apply D]; assumption. Qed.
Lemma permutes_len : forall m I J, permutes m I J -> length I = nr m /\ length J = nc m.
Proof.
  intros m I J (A & B & C & D). split; [rewrite <- (seq_length (nr m) 0)|rewrite <- (seq_length (nc m) 0)]; apply Permutation_length, NoDup_Permutation; auto using seq_NoDup; intros x; rewrite in_seq; [rewrite C|rewrite D]; lia.
Qed.
Lemma sub_nonneg : forall m I J, rearrangement m I J -> nonneg_table m -> nonneg_table (submat m I J).
Proof. intros m I J (A & B & C & D & E) N p q Hp Hq. cbn [nr nc el submat] in *. apply N; [apply C, nth_In, Hp|apply D, nth_In, Hq]. Qed.
Lemma sub_records : forall m I J, rearrangement m I J -> has_records m -> has_records (submat m I J).
Proof.
  intros m I J (A & B & C & D & E) (i & j & Hi & Hj & Q). destruct (E i j Hi Hj Q) as [X Y]. apply (In_nth _ _ 0%nat) in X. destruct X as (p & Hp & X). apply (In_nth _ _ 0%nat) in Y. destruct Y as (q & Hq & Y).
  exists p, q. cbn [nr nc el submat]. rewrite X, Y. tauto.
Qed.
Theorem hist2d_perm2 : forall L m b I J, lib_ok L -> nonneg_table m -> has_records m -> proper_shape m -> permutes m I J -> phik_from_hist2d L (submat m I J) b = phik_from_hist2d L m b.
Proof.
  intros L m b I J LO HN HR PS PM. pose proof (permutes_rearr _ _ _ PM) as RR. destruct (permutes_len _ _ _ PM) as [LI LJ].
  pose proof (sub_nonneg _ _ _ RR HN) as HN'. pose proof (sub_records _ _ _ RR HR) as HR'.
  assert (E0 : stat (l_clamp L) Pearson (submat m I J) (nz_rows (submat m I J)) (nz_cols (submat m I J)) = stat (l_clamp L) Pearson m (nz_rows m) (nz_cols m)).
  { pose proof (get_chi2_rearr (l_clamp L) m Pearson I J RR) as H. rewrite !get_chi2_closed in H by assumption. congruence. }
  rewrite !hist2d_unfold by assumption. cbn [nr nc submat]. rewrite LI, LJ, E0, sub_matsum by exact RR. f_equal. unfold pedestal_of. destruct b; [|reflexivity]. f_equal.
  rewrite !simple_ndof_form by assumption. cbn [nr nc submat]. rewrite LI, LJ.
  rewrite <- (Permutation_length (sub_nz_rows m I J RR)), <- (Permutation_length (sub_nz_cols m I J RR)), !map_length. reflexivity.
Qed.

(** * Independence *)
Theorem hist2d_independent : forall L m b, lib_ok L -> nonneg_table m -> has_records m -> proper_shape m -> independent_table m -> phik_from_hist2d L m b = Ok 0.
Proof.
  intros L m b LO HN HR PS HI. rewrite hist2d_closed by assumption. cbn zeta. rewrite stat_zero by assumption. pose proof (pedestal_nonneg m b HN HR). pose proof (chi2_max_pos m HN HR PS).
  unfold clip. rewrite (proj2 (rltb_false _ _)) by lra. cbn [andb]. rewrite (proj2 (rleb_true _ _)) by lra. reflexivity.
Qed.

(** * Perfect association *)
Section Perfect.
  Variables (m : mat) (k : nat).
  Hypothesis HN : nonneg_table m. Hypothesis PA : perfect_association m k. Hypothesis K1 : (1 <= k)%nat.
  Let NR : nr m = k. Proof. apply PA. Qed.
  Let NC : nc m = k. Proof. apply PA. Qed.
  Lemma perfect_records : has_records m.
  Proof. destruct PA as (A & B & C & D). destruct (C 0%nat) as (j & Hj & E & _); [lia|]. exists 0%nat, j. repeat split; [lia|lia|exact E]. Qed.
  Lemma perfect_nz_rows : nz_rows m = idx k.
  Proof.
    clear K1. unfold nz_rows. rewrite NR. destruct PA as (A & B & C & D).
    assert (H : forall l, (forall i, In i l -> (i < k)%nat) -> filter (fun i => negb (forallb (fun j => reqb (el m i j) 0) (idx (nc m)))) l = l).
    { induction l as [|i l IH]; intros H; [reflexivity|]. cbn [filter]. destruct (C i) as (j & Hj & E & _); [apply H; left; reflexivity|].
      destruct (forallb (fun j => reqb (el m i j) 0) (idx (nc m))) eqn:F.
      - exfalso. rewrite forallb_forall in F. specialize (F j). rewrite reqb_true in F. apply E, F. apply in_idx. lia.
      - cbn [negb]. f_equal. apply IH. intros; apply H; right; assumption. }
    apply H. intros i Hi. apply in_idx. exact Hi.
  Qed.
End Perfect.
Lemma perfect_transp : forall m k, perfect_association m k -> perfect_association (transp m) k.
Proof. intros m k (A & B & C & D). repeat split; cbn; assumption. Qed.
Lemma perfect_nz_cols : forall m k, perfect_association m k -> nz_cols m = idx k.
Proof. intros m k H. exact (perfect_nz_rows (transp m) k (perfect_transp _ _ H)). Qed.

Lemma perfect_rowsum : forall m k i j, perfect_association m k -> (i < k)%nat -> (j < k)%nat -> el m i j <> 0 -> rowsum m i = el m i j.
Proof.
  intros m k i j (A & B & C & D) Hi Hj E. destruct (C i Hi) as (j0 & Hj0 & E0 & U). assert (j = j0) by (apply U; assumption). subst j0.
  unfold rowsum. rewrite B. rewrite (lsum_support _ Nat.eq_dec _ _ [j]); [unfold lsum; simpl; lra|apply seq_NoDup|repeat constructor; intros []|].
  intros q Hq. rewrite in_seq. simpl. split; [intros H; left; symmetry; apply U; [lia|exact Hq]|intros [<-|[]]; lia].
Qed.
Lemma perfect_colsum : forall m k i j, perfect_association m k -> (i < k)%nat -> (j < k)%nat -> el m i j <> 0 -> colsum m j = el m i j.
Proof. intros m k i j H Hi Hj E. apply (perfect_rowsum (transp m) k j i (perfect_transp _ _ H) Hj Hi E). Qed.

Lemma perfect_pearson : forall m k, nonneg_table m -> perfect_association m k -> (1 <= k)%nat ->
  lsum (fun i => lsum (fun j => pd_term Pearson (el m i j) (expected m i j)) (idx k)) (idx k) = matsum m * (INR k - 1).
Proof.
  intros m k HN PA K. pose proof (perfect_records m k PA K) as HR. pose proof (pearson_sum m HN HR) as H. rewrite (perfect_nz_rows m k PA), (perfect_nz_cols m k PA) in H. rewrite H.
  assert (E : lsum (fun i => lsum (fun j => el m i j * el m i j / (rowsum m i * colsum m j)) (idx k)) (idx k) = INR k); [|rewrite E; ring].
  rewrite (lsum_ext _ _ (fun _ => 1)); [rewrite lsum_const, idx_length; lra|]. intros i Hi. apply in_idx in Hi.
  rewrite (lsum_ext _ _ (fun j => / rowsum m i * el m i j)).
  - rewrite lsum_scal. assert (B : nc m = k) by apply PA. assert (P : 0 < rowsum m i) by (apply nz_row_pos; [exact HN|rewrite (perfect_nz_rows m k PA); apply in_idx, Hi]).
    assert (E : lsum (el m i) (idx k) = rowsum m i) by (unfold rowsum; rewrite B; reflexivity). change (/ rowsum m i * lsum (el m i) (idx k) = 1). rewrite E. field. lra.
  - intros j Hj. apply in_idx in Hj. destruct (Req_dec (el m i j) 0) as [E|E]; [rewrite E; unfold Rdiv; ring|]. rewrite (perfect_rowsum m k i j), (perfect_colsum m k i j) by assumption. field. exact E.
Qed.

Lemma perfect_total : forall m k, nonneg_table m -> perfect_association m k -> counts m -> INR k <= matsum m.
Proof.
  intros m k HN PA CT. assert (A := PA). destruct A as (A & B & C & D). unfold matsum. rewrite A. replace (INR k) with (lsum (fun _ : nat => 1) (seq 0 k)) by (rewrite lsum_const, seq_length; lra).
  apply lsum_le. intros i Hi. apply in_seq in Hi. destruct (C i) as (j & Hj & E & U); [lia|]. rewrite (perfect_rowsum m k i j PA) by (try assumption; lia). destruct (CT i j); [lia|lia|contradiction|assumption].
Qed.

Theorem hist2d_perfect : forall L m k b, lib_ok L -> nonneg_table m -> perfect_association m k -> (3 <= k)%nat -> counts m -> phik_from_hist2d L m b = Ok 1.
Proof.
  intros L m k b LO HN PA K CT. pose proof (perfect_records m k PA ltac:(lia)) as HR. assert (Q := PA). destruct Q as (A & B & C & D).
  assert (PS : proper_shape m) by (split; lia). rewrite hist2d_closed by assumption. cbn zeta.
  assert (E : stat (l_clamp L) Pearson m (nz_rows m) (nz_cols m) = chi2_max m).
  { unfold stat. rewrite (perfect_nz_rows m k PA), (perfect_nz_cols m k PA), !idx_length. destruct (Nat.eqb_spec ((k - 1) * (k - 1)) 0) as [Z|_]; [nia|].
    unfold stat_term. destruct (Nat.eqb_spec ((k - 1) * (k - 1)) 1) as [Z|_]; [nia|]. rewrite perfect_pearson by (assumption || lia). unfold chi2_max. rewrite A, B, Z.min_id, INR_IZR_INZ, <- minus_IZR. reflexivity. }
  rewrite E. unfold clip. rewrite (proj2 (rltb_false _ _)) by lra. cbn [andb].
  assert (P : pedestal_of m b < chi2_max m).
  { unfold pedestal_of. destruct b; [|apply chi2_max_pos; assumption]. rewrite simple_ndof_form by assumption. rewrite (perfect_nz_rows m k PA), (perfect_nz_cols m k PA), !idx_length, A, B. unfold chi2_max. rewrite A, B, Z.min_id.
    rewrite Z.max_r by nia. replace ((Z.of_nat k - 1) * (Z.of_nat k - 1) - (Z.of_nat (k * k) - Z.of_nat (k * k)))%Z with ((Z.of_nat k - 1) * (Z.of_nat k - 1))%Z by lia. rewrite mult_IZR.
    pose proof (perfect_total m k HN PA CT) as T. rewrite INR_IZR_INZ in T. assert (0 < IZR (Z.of_nat k - 1)) by (apply IZR_lt; lia). apply Rmult_lt_compat_r; [assumption|]. rewrite minus_IZR. lra. }
  rewrite (proj2 (rleb_false _ _)) by lra. rewrite (proj2 (rleb_true _ _)) by lra. reflexivity.
Qed.

(** * Scaling *)
Lemma times_rowsum : forall k m i, rowsum (times k m) i = k * rowsum m i. Proof. intros. unfold rowsum. cbn [nc el times]. apply lsum_scal. Qed.
Lemma times_colsum : forall k m i, colsum (times k m) i = k * colsum m i. Proof. intros. unfold colsum. cbn [nr el times]. apply lsum_scal. Qed.
Lemma times_matsum : forall k m, matsum (times k m) = k * matsum m.
Proof. intros. unfold matsum. cbn [nr times]. rewrite (lsum_ext _ _ (fun i => k * rowsum m i)) by (intros; apply times_rowsum). apply lsum_scal. Qed.
Lemma times_nz_rows : forall k m, k <> 0 -> nz_rows (times k m) = nz_rows m.
Proof.
  intros k m H. unfold nz_rows. cbn [nr nc el times]. apply filter_ext. intros i. f_equal. apply eq_true_iff_eq. rewrite !forallb_forall. split; intros F j Hj; specialize (F j Hj); apply reqb_true in F; apply reqb_true.
  - destruct (Rmult_integral _ _ F); [contradiction|assumption].
  - rewrite F. ring.
Qed.
Lemma times_nz_cols : forall k m, k <> 0 -> nz_cols (times k m) = nz_cols m.
Proof. intros k m H. exact (times_nz_rows k (transp m) H). Qed.
Theorem hist2d_scale : forall L m k, lib_ok L -> nonneg_table m -> has_records m -> proper_shape m -> ~ two_by_two m -> 0 < k -> phik_from_hist2d L (times k m) false = phik_from_hist2d L m false.
Proof.
  intros L m k LO HN HR PS H2 K.
  assert (HN' : nonneg_table (times k m)) by (intros i j Hi Hj; cbn in *; apply Rmult_le_pos; [lra|apply HN; assumption]).
  assert (HR' : has_records (times k m)) by (destruct HR as (i & j & A & B & C); exists i, j; cbn; repeat split; try assumption; apply Rmult_integral_contrapositive_currified; lra).
  assert (PS' : proper_shape (times k m)) by exact PS.
  pose proof (matsum_pos m HN HR) as MP. pose proof (chi2_max_pos m HN HR PS) as CP.
  rewrite !hist2d_closed by assumption. cbn zeta. unfold pedestal_of.
  assert (D : ((length (nz_rows m) - 1) * (length (nz_cols m) - 1))%nat <> 1%nat).
  { intros E. apply dof1 in E. apply H2. exists (nz_rows m), (nz_cols m). split; [apply enum_rows_nz|]. split; [apply enum_cols_nz|]. tauto. }
  set (s := stat (l_clamp L) Pearson m (nz_rows m) (nz_cols m)).
  assert (ES : stat (l_clamp L) Pearson (times k m) (nz_rows (times k m)) (nz_cols (times k m)) = k * s).
  { unfold s. rewrite times_nz_rows, times_nz_cols by lra. unfold stat. destruct (Nat.eqb _ 0); [ring|]. rewrite <- lsum_scal. apply lsum_ext. intros i Hi. rewrite <- lsum_scal. apply lsum_ext. intros j Hj.
    unfold stat_term. destruct (Nat.eqb_spec ((length (nz_rows m) - 1) * (length (nz_cols m) - 1)) 1) as [Z|_]; [contradiction|].
    pose proof (Rpos m HN i Hi). pose proof (Cpos m HN j Hj).
    unfold pd_term, expected. rewrite times_rowsum, times_colsum, times_matsum. cbn [el times]. field. repeat split; lra. }
  rewrite ES. assert (EM : chi2_max (times k m) = k * chi2_max m) by (unfold chi2_max; rewrite times_matsum; cbn [nr nc times]; ring). rewrite EM.
  (* the clipped value *)
  assert (CL : forall c M, 0 < M -> (c < M /\ clip c M = c) \/ (M <= c /\ M <= clip c M /\ 0 < clip c M)).
  { intros c M HM. unfold clip. destruct (Rlt_dec c M); [left|right].
    - rewrite (proj2 (rltb_false _ _)) by lra. tauto.
    - destruct (andb _ _); lra. }
  assert (KP : 0 < k * chi2_max m) by (apply Rmult_lt_0_compat; assumption).
  destruct (CL s _ CP) as [[C1 E1]|(C1 & C2 & C3)]; destruct (CL (k * s) _ KP) as [[D1 E2]|(D1 & D2 & D3)].
  - rewrite E1, E2. destruct (Rle_dec s 0) as [S0|S0].
    + rewrite !(proj2 (rleb_true _ _)) by nra. reflexivity.
    + rewrite !(proj2 (rleb_false _ 0)) by nra. rewrite !(proj2 (rleb_false (_ : R) s)), (proj2 (rleb_false _ (k * s))) by lra. destruct LO as [MV BQ].
      symmetry. rewrite <- (rf_scale _ BQ _ k) by (try lra; unfold phik_xtol; lra). apply (rf_ext _ BQ); [lra|unfold phik_xtol; lra|]. intros x _. unfold pf_fun. rewrite times_matsum. cbn [nr nc times].
      destruct PS as [P1 P2]. pose proof (G_one_pos (l_mvn L) (nr m) (nc m) MV P1 P2) as GP.
      set (g1 := binned_chi2 _ _ _ 1) in *. set (gx := binned_chi2 _ _ _ x). set (M := chi2_max m) in *. set (N := matsum m) in *. clearbody g1 gx M N s. cbv beta. field. split; lra.
  - exfalso. nra.
  - exfalso. nra.
  - rewrite !(proj2 (rleb_false _ 0)) by lra. rewrite !(proj2 (rleb_true _ _)) by lra. reflexivity.
Qed.
