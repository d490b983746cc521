(** C16 for the log-likelihood statistic: it never exceeds 2 N ln(min(r, c)), which every diagonal table attains. *)
From Coq Require Import ZArith List Reals Lra Lia Bool Psatz.
From Verif Require Import Base RSum StatsModel SpecStats StatsProofs StatsProofs2 PropsStats.
Import ListNotations.
Open Scope R_scope.

Lemma ln_le1 : forall x, 0 < x -> ln x <= x - 1.
Proof. intros x Hx. pose proof (exp_ineq1_le (ln x)) as Q. rewrite exp_ln in Q by exact Hx. lra. Qed.
Lemma ln_le_ln : forall x y, 0 < x -> x <= y -> ln x <= ln y.
Proof. intros x y P [H| ->]; [left; apply ln_increasing; assumption|lra]. Qed.
(** the corrected cell lies between the observed and the expected count *)
Lemma yates_between : forall o e c, o <= c -> e <= c -> yates true o e <= c.
Proof.
  intros o e c H H'. unfold yates, rsign. destruct (Rlt_dec 0 (e - o)).
  - assert (Rmin (1/2) (Rabs (e - o)) <= Rabs (e - o)) by apply Rmin_r. rewrite (Rabs_pos_eq (e - o)) in * by lra. lra.
  - destruct (Rlt_dec (e - o) 0); [|lra]. assert (0 <= Rmin (1/2) (Rabs (e - o))) by (apply Rmin_glb; [lra|apply Rabs_pos]). lra.
Qed.

Section Core.
  Variable m : mat.
  Hypothesis HN : nonneg_table m.
  Hypothesis HR : has_records m.
  Let I := nz_rows m.
  Let J := nz_cols m.
  Let N := matsum m.
  Let Npos : 0 < N. Proof. apply matsum_pos; assumption. Qed.
  Lemma row_yates : length I = 2%nat -> length J = 2%nat -> forall i, In i I -> lsum (fun j => yates true (el m i j) (expected m i j)) J = rowsum m i.
  Proof.
    intros LI LJ i Hi. pose proof (sumO_row m i Hi) as S. fold J in S. rewrite two_sum in S by exact LJ. rewrite two_sum by exact LJ. rewrite <- S.
    set (g := fun x => Rmin (1/2) (Rabs x) * rsign x). assert (G : forall x, g (- x) = - g x) by (intros x; unfold g; rewrite rsign_odd, Rabs_Ropp; lra).
    assert (D : expected m i (nth 1 J 0%nat) - el m i (nth 1 J 0%nat) = - (expected m i (nth 0 J 0%nat) - el m i (nth 0 J 0%nat))).
    { pose proof (sumE_row m HN HR i) as E. fold J in E. rewrite two_sum in E by exact LJ. lra. }
    unfold yates. fold (g (expected m i (nth 0 J 0%nat) - el m i (nth 0 J 0%nat))). fold (g (expected m i (nth 1 J 0%nat) - el m i (nth 1 J 0%nat))). rewrite D, G. lra.
  Qed.
  Lemma g_cell_max : forall i j o, In i I -> In j J -> 0 <= o <= colsum m j -> pd_term LogLikelihood o (expected m i j) <= 2 * (o * ln (N / rowsum m i)).
  Proof.
    intros i j o Hi Hj Ho. pose proof (Rpos m HN i Hi) as Ri. pose proof (Cpos m HN j Hj) as Cj. pose proof (Epos m HN HR i j Hi Hj) as E. unfold pd_term, xlogy. apply Rmult_le_compat_l; [lra|].
    destruct (Req_EM_T o 0) as [-> |Z]; [lra|]. apply Rmult_le_compat_l; [lra|]. apply ln_le_ln; [apply Rdiv_lt_0_compat; lra|].
    apply Rmult_le_reg_r with (expected m i j); [exact E|]. unfold Rdiv. rewrite Rmult_assoc, Rinv_l by lra. unfold expected. fold N. replace (N * / rowsum m i * (rowsum m i * colsum m j / N)) with (colsum m j) by (field; lra). lra.
  Qed.
  Lemma entropy : lsum (fun i => rowsum m i * ln (N / rowsum m i)) I <= N * ln (INR (length I)).
  Proof.
    destruct (records_nz m HR) as [L _]. fold I in L. apply le_INR in L. change (INR 1) with 1 in L. set (k := INR (length I)) in *.
    apply Rle_trans with (lsum (fun i => ln k * rowsum m i + (N / k - rowsum m i)) I).
    - apply lsum_le. intros i Hi. pose proof (Rpos m HN i Hi) as Ri. replace (N / rowsum m i) with (N / (rowsum m i * k) * k) by (field; lra). assert (P : 0 < N / (rowsum m i * k)) by (apply Rdiv_lt_0_compat; [exact Npos|nra]). rewrite ln_mult by lra.
      pose proof (ln_le1 _ P) as Q. assert (rowsum m i * ln (N / (rowsum m i * k)) <= rowsum m i * (N / (rowsum m i * k) - 1)) by (apply Rmult_le_compat_l; lra). replace (rowsum m i * (N / (rowsum m i * k) - 1)) with (N / k - rowsum m i) in * by (field; lra). lra.
    - rewrite lsum_plus, lsum_scal, lsum_minus. rewrite lsum_const. pose proof (sumR m) as SR. fold I N in SR. change (lsum (fun i => rowsum m i) I) with (lsum (rowsum m) I). rewrite SR. fold k. right. field. lra.
  Qed.
  Lemma g_max_rows : stat true LogLikelihood m I J <= 2 * N * ln (INR (length I)).
  Proof.
    destruct (records_nz m HR) as [L _]. fold I in L. apply le_INR in L. change (INR 1) with 1 in L. unfold stat. destruct (Nat.eqb _ 0).
    { apply Rmult_le_pos; [lra|]. rewrite <- ln_1. apply ln_le_ln; lra. }
    set (d := ((length I - 1) * (length J - 1))%nat). set (o' := fun i j => if Nat.eqb d 1 then yates true (el m i j) (expected m i j) else el m i j).
    apply Rle_trans with (lsum (fun i => 2 * (rowsum m i * ln (N / rowsum m i))) I); [|rewrite lsum_scal; pose proof entropy; lra].
    apply lsum_le. intros i Hi. apply Rle_trans with (lsum (fun j => 2 * ln (N / rowsum m i) * o' i j) J).
    - apply lsum_le. intros j Hj. change (stat_term true LogLikelihood d m i j) with (pd_term LogLikelihood (o' i j) (expected m i j)). eapply Rle_trans; [apply (g_cell_max i j (o' i j)); [exact Hi|exact Hj|]|right; ring].
      pose proof (Oge m HN i j Hi Hj) as O. pose proof (Epos m HN HR i j Hi Hj) as E. pose proof (Rpos m HN i Hi) as Ri. pose proof (Cpos m HN j Hj) as Cj.
      assert (OC : el m i j <= colsum m j) by (rewrite <- (sumO_col m j Hj); apply (lsum_le_elem _ (fun i => el m i j)); [intros; apply (Oge m HN); assumption|exact Hi]).
      assert (EC : expected m i j <= colsum m j). { rewrite <- (sumE_col m HN HR j). apply (lsum_le_elem _ (fun i => expected m i j)); [intros; left; apply (Epos m HN HR); assumption|exact Hi]. }
      unfold o'. destruct (Nat.eqb d 1); [|lra]. split; [apply yates_nonneg; lra|apply yates_between; assumption].
    - rewrite lsum_scal. replace (lsum (o' i) J) with (rowsum m i); [right; ring|]. symmetry. unfold o'. destruct (Nat.eqb_spec d 1) as [D|D]; [apply dof1 in D; destruct D; apply row_yates; assumption|apply sumO_row; exact Hi].
  Qed.
End Core.

Lemma g_le_rows : forall m v, nonneg_table m -> has_records m -> get_chi2 true m LogLikelihood = Ok v -> v <= 2 * matsum m * ln (INR (nr m)).
Proof.
  intros m v HN HR E. rewrite get_chi2_closed in E by assumption. injection E as <-. eapply Rle_trans; [apply g_max_rows; assumption|]. pose proof (matsum_pos m HN HR) as NP. destruct (records_nz m HR) as [L _]. apply le_INR in L. change (INR 1) with 1 in L.
  apply Rmult_le_compat_l; [lra|]. apply ln_le_ln; [lra|]. apply le_INR, nz_rows_le.
Qed.
(** The log-likelihood statistic of an r x c table with N records is at most 2 N ln(min(r, c)), also with the 2x2 continuity correction. *)
Theorem C16_g_max : forall m v, nonneg_table m -> has_records m -> get_chi2 true m LogLikelihood = Ok v ->
  0 <= v <= 2 * matsum m * ln (Rmin (INR (nr m)) (INR (nc m))).
Proof.
  intros m v HN HR E. split.
  - destruct (C14_chi2_defined_nonneg true LogLikelihood m HN HR) as (w & W & P). assert (w = v) by congruence. subst w. apply P. auto.
  - unfold Rmin. destruct (Rle_dec _ _); [apply g_le_rows; assumption|]. rewrite <- matsum_transp. change (nc m) with (nr (transp m)). apply g_le_rows.
    + intros i j Hi Hj. apply HN; assumption.
    + destruct HR as (i & j & Hi & Hj & Z). exists j, i. auto.
    + rewrite C15_transpose. exact E.
Qed.
Print Assumptions C16_g_max.

(** and the bound is attained: [k] rows and [k] columns that correspond to each other, with the same number of records in each pair *)
Definition diag (k : nat) (a : R) : mat := mkMat k k (fun i j => if Nat.eqb i j then a else 0).
Lemma lsum_pick : forall k i (a : R), (i < k)%nat -> lsum (fun j => if Nat.eqb i j then a else 0) (seq 0 k) = a /\ lsum (fun j => if Nat.eqb j i then a else 0) (seq 0 k) = a.
Proof.
  intros k i a H. assert (X : forall s n, (s <= i < s + n)%nat -> lsum (fun j => if Nat.eqb i j then a else 0) (seq s n) = a).
  { intros s n. revert s. induction n as [|n IH]; intros s Hs; [lia|]. cbn [seq]. rewrite lsum_cons. destruct (Nat.eqb_spec i s) as [-> |Z].
    - rewrite lsum_0; [lra|]. intros j Hj. apply in_seq in Hj. destruct (Nat.eqb_spec s j); [lia|reflexivity].
    - rewrite IH by lia. lra. }
  split; [apply X; lia|]. rewrite (lsum_ext _ _ (fun j => if Nat.eqb i j then a else 0)) by (intros j _; rewrite Nat.eqb_sym; reflexivity). apply X. lia.
Qed.
Theorem C16_g_max_attained : forall k a, (3 <= k)%nat -> 0 < a ->
  nonneg_table (diag k a) /\ has_records (diag k a) /\ get_chi2 true (diag k a) LogLikelihood = Ok (2 * matsum (diag k a) * ln (Rmin (INR k) (INR k))).
Proof.
  intros k a K A. assert (KR : 3 <= INR k) by (apply le_INR in K; simpl in K; lra).
  assert (RS : forall i, (i < k)%nat -> rowsum (diag k a) i = a) by (intros i Hi; apply (lsum_pick k i a Hi)). assert (CS : forall j, (j < k)%nat -> colsum (diag k a) j = a) by (intros j Hj; apply (lsum_pick k j a Hj)).
  assert (T : matsum (diag k a) = INR k * a). { unfold matsum. cbn [nr diag]. rewrite (lsum_ext _ _ (fun _ => a)) by (intros i Hi; apply in_seq in Hi; apply RS; lia). rewrite lsum_const, seq_length. reflexivity. }
  assert (NN : nonneg_table (diag k a)) by (intros i j _ _; cbn [el diag]; destruct (Nat.eqb i j); lra).
  assert (HR : has_records (diag k a)) by (exists 0%nat, 0%nat; cbn [nr nc el diag Nat.eqb]; repeat split; try lia; lra).
  split; [exact NN|]. split; [exact HR|].
  rewrite (C14_chi2_value true (diag k a) LogLikelihood (seq 0 k) (seq 0 k) NN HR).
  - rewrite !seq_length. replace (Nat.leb k 1) with false by (symmetry; apply Nat.leb_gt; lia). cbn [orb]. f_equal. rewrite T.
    rewrite (lsum_ext _ _ (fun _ => 2 * a * ln (INR k))).
    + rewrite lsum_const, seq_length. replace (Rmin (INR k) (INR k)) with (INR k) by (unfold Rmin; destruct (Rle_dec _ _); reflexivity). ring.
    + intros i Hi. apply in_seq in Hi. rewrite (lsum_ext _ _ (fun j => if Nat.eqb i j then 2 * a * ln (INR k) else 0)); [apply (lsum_pick k i); lia|]. intros j Hj. apply in_seq in Hj. cbv zeta. rewrite RS, CS by lia. cbn [el diag].
      destruct (Nat.eqb i j); destruct (Req_EM_T _ 0) as [Z|Z]; try lra. replace (a / (a * a / (INR k * a))) with (INR k) by (field; lra). ring.
  - split; [apply seq_NoDup|]. intros i. rewrite in_seq. cbn [nr nc el diag]. split; [intros H; split; [lia|]; exists i; rewrite Nat.eqb_refl; split; [lia|lra]|intros [H _]; lia].
  - split; [apply seq_NoDup|]. intros i. rewrite in_seq. cbn [nr nc el diag]. split; [intros H; split; [lia|]; exists i; rewrite Nat.eqb_refl; split; [lia|lra]|intros [H _]; lia].
  - left. rewrite seq_length. lia.
Qed.
Print Assumptions C16_g_max_attained.
