(** C14-C19: the chi2 statistic, expected frequencies and degrees of freedom (phik/statistics.py:22-105). *)
From Coq Require Import ZArith List Reals Lra Lia Bool.
From Verif Require Import Base RSum StatsModel SpecStats StatsProofs StatsProofs2 StatsProofs3.
Import ListNotations.
Open Scope R_scope.

(** C14: defined and non-negative for every table of counts (clamp = the continuity correction of scipy >= 1.7; without
    it the log-likelihood needs whole numbers) *)
Theorem C14_chi2_defined_nonneg : forall clamp l m, nonneg_table m -> has_records m ->
  exists v, get_chi2 clamp m l = Ok v /\ (clamp = true \/ integer_table m \/ l = Pearson -> 0 <= v).
Proof. intros k l m HN HR. exists (stat k l m (nz_rows m) (nz_cols m)). split; [apply get_chi2_closed; assumption|]. intros H. apply stat_nonneg; assumption. Qed.
Theorem C14_chi2_raises_iff : forall clamp l m, (exists e, get_chi2 clamp m l = Raise e) <-> has_negative m \/ ~ has_records m.
Proof.
  intros k l m. split.
  - intros [e E]. destruct (neg_or_nonneg m) as [N|N]; [left; exact N|]. destruct (records_dec m) as [R|R]; [|right; exact R].
    rewrite get_chi2_closed in E by assumption. discriminate.
  - intros [N|R]; exists ValueError; [apply get_chi2_negative|apply get_chi2_empty]; assumption.
Qed.
Theorem C14_chi2_error_is_ValueError : forall clamp l m e, get_chi2 clamp m l = Raise e -> e = ValueError.
Proof.
  intros k l m e E. destruct (proj1 (C14_chi2_raises_iff k l m) (ex_intro _ e E)) as [N|R]; [rewrite get_chi2_negative in E by exact N|rewrite get_chi2_empty in E by exact R]; congruence.
Qed.
(** the closed form behind both: the textbook sum over the non-empty rows and columns, zero if there is only one *)
Theorem C14_chi2_value : forall clamp m l I J, nonneg_table m -> has_records m -> enum_rows m I -> enum_cols m J ->
  length I <> 2%nat \/ length J <> 2%nat ->
  get_chi2 clamp m l = Ok (if (Nat.leb (length I) 1 || Nat.leb (length J) 1)%bool then 0 else
    lsum (fun i => lsum (fun j => let e := rowsum m i * colsum m j / matsum m in
      match l with Pearson => (el m i j - e) * (el m i j - e) / e | LogLikelihood => 2 * (if Req_EM_T (el m i j) 0 then 0 else el m i j * ln (el m i j / e)) end) J) I).
Proof.
  intros k m l I J HN HR [NI EI] [NJ EJ] H2. rewrite get_chi2_closed by assumption. f_equal.
  assert (PI : Permutation.Permutation (nz_rows m) I) by (apply Permutation.NoDup_Permutation; [apply nodup_nz_rows|exact NI|intros; rewrite in_nz_rows; symmetry; apply EI]).
  assert (PJ : Permutation.Permutation (nz_cols m) J) by (apply Permutation.NoDup_Permutation; [apply nodup_nz_cols|exact NJ|intros; rewrite in_nz_cols; symmetry; apply EJ]).
  destruct (records_nz m HR) as [L1 L2].
  rewrite (stat_perm k l m _ _ _ _ PI PJ). rewrite (Permutation.Permutation_length PI) in L1. rewrite (Permutation.Permutation_length PJ) in L2. unfold stat.
  destruct (Nat.eqb_spec ((length I - 1) * (length J - 1)) 0) as [D|D].
  - apply Nat.eq_mul_0 in D. destruct (Nat.leb_spec (length I) 1); [reflexivity|]. destruct (Nat.leb_spec (length J) 1); [reflexivity|]. lia.
  - destruct (Nat.leb_spec (length I) 1); [nia|]. destruct (Nat.leb_spec (length J) 1); [nia|]. cbn [orb].
    apply lsum_ext. intros i _. apply lsum_ext. intros j _. unfold stat_term. rewrite (proj2 (Nat.eqb_neq _ 1)) by (intros C; apply dof1 in C; lia). destruct l; reflexivity.
Qed.

(** C15 *)
Theorem C15_transpose : forall clamp m l, get_chi2 clamp (transp m) l = get_chi2 clamp m l.
Proof. exact get_chi2_transp. Qed.
Theorem C15_rearrange : forall clamp m l I J, rearrangement m I J -> get_chi2 clamp (submat m I J) l = get_chi2 clamp m l.
Proof. exact get_chi2_rearr. Qed.

(** C16 *)
Theorem C16_chi2_max : forall m v, nonneg_table m -> has_records m -> get_chi2 true m Pearson = Ok v ->
  v <= matsum m * Rmin (INR (nr m) - 1) (INR (nc m) - 1).
Proof.
  intros m v HN HR E. rewrite get_chi2_closed in E by assumption. injection E as <-. eapply Rle_trans; [apply stat_max; assumption|].
  apply Rmult_le_compat_l; [left; apply matsum_pos; assumption|]. pose proof (le_INR _ _ (nz_rows_le m)). pose proof (le_INR _ _ (nz_cols_le m)).
  apply Rmin_glb; [eapply Rle_trans; [apply Rmin_l|lra]|eapply Rle_trans; [apply Rmin_r|lra]].
Qed.
Theorem C16_chi2_max_old_scipy : forall m v, nonneg_table m -> has_records m -> integer_table m -> get_chi2 false m Pearson = Ok v ->
  v <= matsum m * Rmin (INR (nr m) - 1) (INR (nc m) - 1).
Proof.
  intros m v HN HR HI E. rewrite get_chi2_closed in E by assumption. injection E as <-. eapply Rle_trans; [apply stat_max_noclamp; assumption|].
  apply Rmult_le_compat_l; [left; apply matsum_pos; assumption|]. pose proof (le_INR _ _ (nz_rows_le m)). pose proof (le_INR _ _ (nz_cols_le m)).
  apply Rmin_glb; [eapply Rle_trans; [apply Rmin_l|lra]|eapply Rle_trans; [apply Rmin_r|lra]].
Qed.

(** C17 *)
Theorem C17_independent_zero : forall clamp l m, nonneg_table m -> has_records m -> independent_table m -> get_chi2 clamp m l = Ok 0.
Proof. intros k l m HN HR HI. rewrite get_chi2_closed, stat_zero by assumption. reflexivity. Qed.
Theorem C17_zero_independent : forall clamp l m, nonneg_table m -> has_records m -> ~ two_by_two m -> get_chi2 clamp m l = Ok 0 -> independent_table m.
Proof.
  intros k l m HN HR H2 E. rewrite get_chi2_closed in E by assumption. injection E as E. apply (stat_zero_conv m HN HR k l); [|exact E].
  intros [LI LJ]. apply H2. exists (nz_rows m), (nz_cols m). split; [apply enum_rows_nz|]. split; [apply enum_cols_nz|]. split; assumption.
Qed.
(** for 2x2 tables the converse fails: with the continuity correction every table whose residuals are at most 1/2 gives 0 *)
Theorem C17_two_by_two_zero : forall l m, nonneg_table m -> has_records m -> two_by_two m ->
  (forall i j, (i < nr m)%nat -> (j < nc m)%nat -> Rabs (el m i j - rowsum m i * colsum m j / matsum m) <= 1/2) -> get_chi2 true m l = Ok 0.
Proof.
  intros l m HN HR (I & J & [NI EI] & [NJ EJ] & LI & LJ) H. rewrite get_chi2_closed by assumption. f_equal. apply stat_zero_2x2; [assumption|assumption| | |].
  - rewrite <- LI. apply Permutation.Permutation_length, Permutation.NoDup_Permutation; [apply nodup_nz_rows|exact NI|intros; rewrite in_nz_rows; symmetry; apply EI].
  - rewrite <- LJ. apply Permutation.Permutation_length, Permutation.NoDup_Permutation; [apply nodup_nz_cols|exact NJ|intros; rewrite in_nz_cols; symmetry; apply EJ].
  - intros i j Hi Hj. apply in_nz_rows in Hi. apply in_nz_cols in Hj. apply H; tauto.
Qed.

(** C18 *)
Theorem C18_expected_totals : forall m, 0 < matsum m -> let e := get_dependent_frequency_estimates m in
  nr e = nr m /\ nc e = nc m /\ (forall i, rowsum e i = rowsum m i) /\ (forall j, colsum e j = colsum m j) /\ matsum e = matsum m /\ (nonneg_table m -> nonneg_table e).
Proof.
  intros m H. cbn zeta. assert (N : matsum m <> 0) by lra. repeat split; [intros; apply gdfe_rowsum, N|intros; apply gdfe_colsum, N|apply gdfe_matsum, N|].
  intros HN i j Hi Hj. cbn in *. apply expected_nonneg; assumption.
Qed.
Theorem C18_expected_product : forall m i j, 0 < matsum m -> el (get_dependent_frequency_estimates m) i j * matsum m = rowsum m i * colsum m j.
Proof. intros m i j H. cbn. unfold expected. field. lra. Qed.

(** C19 *)
Theorem C19_theoretical : forall m, theoretical_ndof m = ((Z.of_nat (nr m) - 1) * (Z.of_nat (nc m) - 1))%Z.
Proof. exact theoretical_ndof_form. Qed.
Theorem C19_simple : forall m I J, nonneg_table m -> has_records m -> enum_rows m I -> enum_cols m J ->
  estimate_simple_ndof m = Z.max 0 ((Z.of_nat (nr m) - 1) * (Z.of_nat (nc m) - 1) - (Z.of_nat (nr m * nc m) - Z.of_nat (length I * length J))).
Proof.
  intros m I J HN HR [NI EI] [NJ EJ]. rewrite simple_ndof_form by assumption.
  rewrite (Permutation.Permutation_length (Permutation.NoDup_Permutation (nodup_nz_rows m) NI (fun i => iff_trans (in_nz_rows m i) (iff_sym (EI i))))).
  rewrite (Permutation.Permutation_length (Permutation.NoDup_Permutation (nodup_nz_cols m) NJ (fun i => iff_trans (in_nz_cols m i) (iff_sym (EJ i))))). reflexivity.
Qed.
Theorem C19_bounds : forall m, nonneg_table m -> has_records m -> (0 <= estimate_simple_ndof m <= theoretical_ndof m)%Z.
Proof. exact simple_ndof_bounds. Qed.
Theorem C19_transpose : forall m, nonneg_table m -> has_records m -> estimate_simple_ndof (transp m) = estimate_simple_ndof m /\ theoretical_ndof (transp m) = theoretical_ndof m.
Proof. intros m HN HR. split; [apply simple_ndof_transp; assumption|]. rewrite !theoretical_ndof_form. cbn. ring. Qed.
(** adding empty rows or columns can lower the simple estimate: it is not a function of the non-empty part only *)
Theorem C19_empty_row_lowers : exists m I J, nonneg_table m /\ has_records m /\ rearrangement m I J /\ estimate_simple_ndof m <> estimate_simple_ndof (submat m I J).
Proof.
  set (m := tab [[1;1;1];[1;1;1];[0;0;0]]%Z 3). exists m, [0;1]%nat, [0;1;2]%nat.
  assert (HN : nonneg_table m). { intros i j Hi Hj. unfold m in *. cbn [nr nc el tab length] in *. do 3 (destruct i as [|i]; [do 3 (destruct j as [|j]; [simpl; lra|]); lia|]). lia. }
  assert (HR : has_records m). { exists 0%nat, 0%nat. unfold m. simpl. repeat split; try lia. lra. }
  assert (RR : rearrangement m [0;1]%nat [0;1;2]%nat).
  { repeat split; try (repeat constructor; simpl; intuition lia).
    - intros i Hi. unfold m. simpl in *. intuition lia.
    - intros i Hi. unfold m. simpl in *. intuition lia.
    - unfold m in *. simpl in *. destruct i as [|[|[|i]]]; simpl; auto; [|lia]. exfalso. apply H1. destruct j as [|[|[|j]]]; [reflexivity|reflexivity|reflexivity|lia].
    - unfold m in *. simpl in *. destruct j as [|[|[|j]]]; simpl; auto. lia. }
  split; [exact HN|]. split; [exact HR|]. split; [exact RR|].
  assert (RN : nz_rows m = [0;1]%nat). { unfold nz_rows, m, reqb, tab. cbn. repeat (destruct (Req_EM_T _ _); try lra; cbn). reflexivity. }
  assert (CN : nz_cols m = [0;1;2]%nat). { unfold nz_cols, m, reqb, tab. cbn. repeat (destruct (Req_EM_T _ _); try lra; cbn). reflexivity. }
  rewrite simple_ndof_form by assumption. rewrite RN, CN.
  rewrite simple_ndof_form.
  - assert (RS : length (nz_rows (submat m [0;1]%nat [0;1;2]%nat)) = 2%nat) by (rewrite <- (map_length (fun p => nth p [0;1]%nat 0%nat)); rewrite (Permutation.Permutation_length (sub_nz_rows _ _ _ RR)), RN; reflexivity).
    assert (CS : length (nz_cols (submat m [0;1]%nat [0;1;2]%nat)) = 3%nat) by (rewrite <- (map_length (fun p => nth p [0;1;2]%nat 0%nat)); rewrite (Permutation.Permutation_length (sub_nz_cols _ _ _ RR)), CN; reflexivity).
    rewrite RS, CS. vm_compute. discriminate.
  - intros p q Hp Hq. cbn [nr nc el submat] in *. destruct RR as (_ & _ & BI & BJ & _). apply HN; [apply BI, nth_In, Hp|apply BJ, nth_In, Hq].
  - exists 0%nat, 0%nat. unfold m. simpl. repeat split; try lia. lra.
Qed.

(** * The hypotheses are met by concrete tables *)
Definition ex23 := tab [[10;20;0];[5;0;7]]%Z 3.
Example ex_nonneg : nonneg_table ex23 /\ has_records ex23 /\ integer_table ex23.
Proof.
  repeat split.
  - intros i j Hi Hj. unfold ex23 in *. cbn [nr nc el tab length] in *. do 2 (destruct i as [|i]; [do 3 (destruct j as [|j]; [simpl; lra|]); lia|]). lia.
  - exists 0%nat, 0%nat. unfold ex23. simpl. repeat split; try lia. lra.
  - intros i j Hi Hj. unfold ex23 in *. cbn [nr nc el tab length] in *. exists (Z.to_nat (nth j (nth i [[10;20;0];[5;0;7]] []) 0))%Z.
    rewrite INR_IZR_INZ, Z2Nat.id; [reflexivity|]. do 2 (destruct i as [|i]; [do 3 (destruct j as [|j]; [simpl; lia|]); lia|]). lia.
Qed.
Example ex_enum : enum_rows ex23 [0;1]%nat /\ enum_cols ex23 [0;1;2]%nat.
Proof.
  assert (RN : nz_rows ex23 = [0;1]%nat). { unfold nz_rows, ex23, reqb, tab. cbn. repeat (destruct (Req_EM_T _ _); try lra; cbn). reflexivity. }
  assert (CN : nz_cols ex23 = [0;1;2]%nat). { unfold nz_cols, ex23, reqb, tab. cbn. repeat (destruct (Req_EM_T _ _); try lra; cbn). reflexivity. }
  rewrite <- RN, <- CN. split; [apply enum_rows_nz|apply enum_cols_nz].
Qed.
(** an independent table, and a 2x2 table that is not independent but has chi2 = 0 *)
Example ex_indep : independent_table (tab [[1;2;3];[2;4;6]]%Z 3) /\ 0 < matsum (tab [[1;2;3];[2;4;6]]%Z 3).
Proof.
  split.
  - intros i j Hi Hj. cbn [nr nc tab length] in *. unfold tab, rowsum, colsum, matsum, rowsum, lsum. do 2 (destruct i as [|i]; [do 3 (destruct j as [|j]; [simpl; lra|]); lia|]). lia.
  - unfold tab, matsum, rowsum, lsum. simpl. lra.
Qed.
Definition ex22 := tab [[2;1];[1;1]]%Z 2.
Theorem C17_two_by_two_counterexample : nonneg_table ex22 /\ has_records ex22 /\ two_by_two ex22 /\ ~ independent_table ex22 /\ get_chi2 true ex22 Pearson = Ok 0.
Proof.
  assert (HN : nonneg_table ex22). { intros i j Hi Hj. unfold ex22 in *. cbn [nr nc el tab length] in *. do 2 (destruct i as [|i]; [do 2 (destruct j as [|j]; [simpl; lra|]); lia|]). lia. }
  assert (HR : has_records ex22). { exists 0%nat, 0%nat. unfold ex22. simpl. repeat split; try lia. lra. }
  assert (T2 : two_by_two ex22).
  { exists (nz_rows ex22), (nz_cols ex22). split; [apply enum_rows_nz|]. split; [apply enum_cols_nz|].
    assert (RN : nz_rows ex22 = [0;1]%nat). { unfold nz_rows, ex22, reqb, tab. cbn. repeat (destruct (Req_EM_T _ _); try lra; cbn). reflexivity. }
    assert (CN : nz_cols ex22 = [0;1]%nat). { unfold nz_cols, ex22, reqb, tab. cbn. repeat (destruct (Req_EM_T _ _); try lra; cbn). reflexivity. }
    rewrite RN, CN. split; reflexivity. }
  split; [exact HN|]. split; [exact HR|]. split; [exact T2|]. split.
  - intros H. specialize (H 0%nat 0%nat). unfold ex22, tab, rowsum, colsum, matsum, rowsum, lsum in H. simpl in H. specialize (H ltac:(lia) ltac:(lia)). lra.
  - apply C17_two_by_two_zero; try assumption. intros i j Hi Hj. unfold ex22 in *. cbn [nr nc tab length] in *. unfold tab, rowsum, colsum, matsum, rowsum, lsum.
    do 2 (destruct i as [|i]; [do 2 (destruct j as [|j]; [simpl; apply Rabs_le; lra|]); lia|]). lia.
Qed.

Print Assumptions C14_chi2_defined_nonneg.
Print Assumptions C14_chi2_value.
Print Assumptions C15_rearrange.
Print Assumptions C16_chi2_max.
Print Assumptions C17_zero_independent.
Print Assumptions C19_simple.
