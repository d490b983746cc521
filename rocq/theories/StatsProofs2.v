From Coq Require Import ZArith List Reals Lra Lia Bool Sorting.Permutation Psatz.
From Verif Require Import Base RSum StatsModel SpecStats StatsProofs.
Import ListNotations.
Open Scope R_scope.

(** * Expected frequencies *)
Lemma gdfe_rowsum : forall m i, matsum m <> 0 -> rowsum (get_dependent_frequency_estimates m) i = rowsum m i.
Proof.
  intros m i H. unfold rowsum at 1, get_dependent_frequency_estimates, expected. cbn [nc el].
  rewrite (lsum_ext _ _ (fun j => rowsum m i / matsum m * colsum m j)) by (intros; unfold Rdiv; ring).
  rewrite lsum_scal. change (lsum (fun j => colsum m j) (seq 0 (nc m))) with (lsum (colsum m) (seq 0 (nc m))). rewrite <- matsum_colsum. field. exact H.
Qed.
Lemma gdfe_colsum : forall m j, matsum m <> 0 -> colsum (get_dependent_frequency_estimates m) j = colsum m j.
Proof.
  intros m j H. unfold colsum at 1, get_dependent_frequency_estimates, expected. cbn [nr el].
  rewrite (lsum_ext _ _ (fun i => colsum m j / matsum m * rowsum m i)) by (intros; unfold Rdiv; ring).
  rewrite lsum_scal. change (lsum (rowsum m) (seq 0 (nr m))) with (matsum m). field. exact H.
Qed.
Lemma gdfe_matsum : forall m, matsum m <> 0 -> matsum (get_dependent_frequency_estimates m) = matsum m.
Proof. intros m H. unfold matsum at 1. cbn [nr get_dependent_frequency_estimates]. apply lsum_ext. intros i _. apply gdfe_rowsum, H. Qed.
Lemma expected_nonneg : forall m i j, nonneg_table m -> 0 < matsum m -> (i < nr m)%nat -> (j < nc m)%nat -> 0 <= expected m i j.
Proof.
  intros m i j H P Hi Hj. unfold expected. apply Rmult_le_pos; [apply Rmult_le_pos; [apply rowsum_nonneg|apply colsum_nonneg]; assumption|]. left. apply Rinv_0_lt_compat, P.
Qed.

Section Core.
  Variable m : mat.
  Hypothesis HN : nonneg_table m.
  Hypothesis HR : has_records m.
  Let I := nz_rows m.
  Let J := nz_cols m.
  Let N := matsum m.
  Let Npos : 0 < N. Proof. apply matsum_pos; assumption. Qed.
  Lemma Rpos : forall i, In i I -> 0 < rowsum m i. Proof. intros; apply nz_row_pos; assumption. Qed.
  Lemma Cpos : forall j, In j J -> 0 < colsum m j. Proof. intros; apply nz_col_pos; assumption. Qed.
  Lemma Epos : forall i j, In i I -> In j J -> 0 < expected m i j.
  Proof. intros i j Hi Hj. apply Rdiv_lt_0_compat; [|exact Npos]. apply Rmult_lt_0_compat; [apply Rpos|apply Cpos]; assumption. Qed.
  Lemma Oge : forall i j, In i I -> In j J -> 0 <= el m i j.
  Proof. intros i j Hi Hj. apply in_nz_rows in Hi. apply in_nz_cols in Hj. apply HN; tauto. Qed.
  Lemma sumO_row : forall i, In i I -> lsum (fun j => el m i j) J = rowsum m i.
  Proof. intros i Hi. apply in_nz_rows in Hi. apply (rearr_rowsum m I J (core_rearr m)). tauto. Qed.
  Lemma sumO_col : forall j, In j J -> lsum (fun i => el m i j) I = colsum m j.
  Proof. intros j Hj. apply in_nz_cols in Hj. apply (rearr_colsum m I J (core_rearr m)). tauto. Qed.
  Lemma sumR : lsum (rowsum m) I = N. Proof. apply (rearr_matsum m I J (core_rearr m)). Qed.
  Lemma sumC : lsum (colsum m) J = N.
  Proof. pose proof (rearr_matsum (transp m) J I (rearr_transp _ _ _ (core_rearr m))) as H. rewrite matsum_transp in H. exact H. Qed.
  Lemma sumE_row : forall i, lsum (fun j => expected m i j) J = rowsum m i.
  Proof.
    intros i. unfold expected. rewrite (lsum_ext _ _ (fun j => rowsum m i / N * colsum m j)) by (intros; unfold Rdiv, N; ring).
    rewrite lsum_scal. change (lsum (fun j => colsum m j) J) with (lsum (colsum m) J). rewrite sumC. field. lra.
  Qed.
  Lemma sumE_col : forall j, lsum (fun i => expected m i j) I = colsum m j.
  Proof.
    intros j. unfold expected. rewrite (lsum_ext _ _ (fun i => colsum m j / N * rowsum m i)) by (intros; unfold Rdiv, N; ring).
    rewrite lsum_scal. change (lsum (fun i => rowsum m i) I) with (lsum (rowsum m) I). rewrite sumR. field. lra.
  Qed.

  (** ** an arbitrary odd correction has no effect on the total of a 2x2 table *)
  Lemma two_sum : forall (f : nat -> R) l, length l = 2%nat -> lsum f l = f (nth 0 l 0%nat) + f (nth 1 l 0%nat).
  Proof. intros f l H. destruct l as [|a [|b [|c l]]]; try discriminate. unfold lsum. simpl. lra. Qed.
  Lemma dof1 : forall a b, ((a - 1) * (b - 1))%nat = 1%nat -> a = 2%nat /\ b = 2%nat.
  Proof. intros a b H. apply Nat.eq_mul_1 in H. lia. Qed.
  (** residuals of a 2x2 core *)
  Lemma resid2 : length I = 2%nat -> length J = 2%nat -> let d p q := expected m (nth p I 0%nat) (nth q J 0%nat) - el m (nth p I 0%nat) (nth q J 0%nat) in
    d 0%nat 1%nat = - d 0%nat 0%nat /\ d 1%nat 0%nat = - d 0%nat 0%nat /\ d 1%nat 1%nat = d 0%nat 0%nat.
  Proof.
    intros LI LJ d.
    assert (RI : forall p, (p < 2)%nat -> In (nth p I 0%nat) I) by (intros; apply nth_In; lia).
    assert (RJ : forall p, (p < 2)%nat -> In (nth p J 0%nat) J) by (intros; apply nth_In; lia).
    pose proof (sumE_row (nth 0 I 0%nat)) as A0. pose proof (sumO_row (nth 0 I 0%nat) (RI 0%nat ltac:(lia))) as B0.
    pose proof (sumE_row (nth 1 I 0%nat)) as A1. pose proof (sumO_row (nth 1 I 0%nat) (RI 1%nat ltac:(lia))) as B1.
    pose proof (sumE_col (nth 0 J 0%nat)) as C0. pose proof (sumO_col (nth 0 J 0%nat) (RJ 0%nat ltac:(lia))) as D0.
    rewrite two_sum in A0, B0, A1, B1, C0, D0 by assumption. unfold d. repeat split; lra.
  Qed.
  Lemma odd_total : forall g : R -> R, (forall x, g (- x) = - g x) -> length I = 2%nat -> length J = 2%nat ->
    lsum (fun i => lsum (fun j => g (expected m i j - el m i j)) J) I = 0.
  Proof.
    intros g Hg LI LJ. rewrite two_sum by exact LI. rewrite !two_sum by exact LJ.
    destruct (resid2 LI LJ) as (A & B & C). cbn beta zeta in A, B, C. rewrite A, B, C, Hg. lra.
  Qed.
  Lemma rsign_odd : forall x, rsign (- x) = - rsign x.
  Proof. intros. unfold rsign. repeat destruct Rlt_dec; lra. Qed.
  Lemma rsign_abs : forall x, rsign x * Rabs x = x.
  Proof. intros. unfold rsign. destruct (Rlt_dec 0 x); [rewrite Rabs_pos_eq by lra; lra|]. destruct (Rlt_dec x 0); [rewrite Rabs_left by lra; lra|]. assert (x = 0) by lra. subst. lra. Qed.

  Lemma total_yates : forall k, length I = 2%nat -> length J = 2%nat -> lsum (fun i => lsum (fun j => yates k (el m i j) (expected m i j)) J) I = N.
  Proof.
    intros k LI LJ. unfold yates.
    rewrite (lsum_ext _ _ (fun i => lsum (fun j => el m i j) J + lsum (fun j => (fun x => (if k then Rmin (1/2) (Rabs x) else 1/2) * rsign x) (expected m i j - el m i j)) J)) by (intros; apply lsum_plus).
    rewrite lsum_plus. pose proof (odd_total (fun x => (if k then Rmin (1/2) (Rabs x) else 1/2) * rsign x) ltac:(intros x; cbn beta; rewrite rsign_odd, Rabs_Ropp; lra) LI LJ) as T0.
    cbn beta in T0 |- *. rewrite T0.
    rewrite (lsum_ext _ _ (rowsum m)) by (intros; apply sumO_row; assumption). rewrite sumR. lra.
  Qed.

  (** ** signs and sizes of the Yates correction *)
  Lemma yates_nonneg : forall o e, 0 <= o -> 0 <= e -> 0 <= yates true o e.
  Proof.
    intros o e Ho He. unfold yates, rsign. destruct (Rlt_dec 0 (e - o)).
    - assert (0 <= Rmin (1/2) (Rabs (e - o))) by (apply Rmin_glb; [lra|apply Rabs_pos]). lra.
    - destruct (Rlt_dec (e - o) 0); [|lra]. assert (Rmin (1/2) (Rabs (e - o)) <= Rabs (e - o)) by apply Rmin_r. rewrite (Rabs_left (e - o)) in * by lra. lra.
  Qed.
  Lemma yates_nonneg_int : forall k e, 0 <= e -> 0 <= yates false (INR k) e.
  Proof.
    intros k e He. unfold yates, rsign. destruct k as [|k].
    - rewrite Rminus_0_r. destruct (Rlt_dec 0 e); [simpl; lra|]. destruct (Rlt_dec e 0); simpl; lra.
    - rewrite S_INR. pose proof (pos_INR k). destruct (Rlt_dec 0 _); [lra|]. destruct (Rlt_dec _ 0); lra.
  Qed.
  Lemma yates_closer : forall o e, Rabs (yates true o e - e) <= Rabs (o - e).
  Proof.
    intros o e. unfold yates, rsign, Rmin. destruct (Rlt_dec 0 (e - o)); [|destruct (Rlt_dec (e - o) 0)].
    - rewrite (Rabs_pos_eq (e - o)) by lra. destruct (Rle_dec (1/2) (e - o)); rewrite (Rabs_left (o - e)) by lra; apply Rabs_le; lra.
    - rewrite (Rabs_left (e - o)) by lra. destruct (Rle_dec (1/2) (- (e - o))); rewrite (Rabs_pos_eq (o - e)) by lra; apply Rabs_le; lra.
    - assert (e = o) by lra. subst. destruct (Rle_dec _ _); rewrite !Rminus_diag_eq by lra; lra.
  Qed.
  Lemma yates_id : forall k o e, o = e -> yates k o e = o.
  Proof. intros k o e ->. unfold yates, rsign. rewrite Rminus_diag_eq by reflexivity. destruct (Rlt_dec 0 0); [lra|]. lra. Qed.

  (** ** terms *)
  Lemma ln_ge : forall x, 0 < x -> 1 - / x <= ln x.
  Proof.
    intros x Hx. assert (H : ln (/ x) <= / x - 1).
    { pose proof (exp_ineq1_le (ln (/ x))) as Q. rewrite exp_ln in Q by (apply Rinv_0_lt_compat; exact Hx). lra. }
    rewrite ln_Rinv in H by exact Hx. lra.
  Qed.
  Lemma pearson_nonneg : forall o e, 0 < e -> 0 <= pd_term Pearson o e.
  Proof. intros o e He. unfold pd_term. apply Rmult_le_pos; [apply (Rle_0_sqr (o - e))|]. left. apply Rinv_0_lt_compat, He. Qed.
  Lemma llr_ge : forall o e, 0 <= o -> 0 < e -> 2 * (o - e) <= pd_term LogLikelihood o e.
  Proof.
    intros o e Ho He. unfold pd_term, xlogy. destruct (Req_EM_T o 0) as [->|Hne]; [lra|].
    assert (P : 0 < o) by lra. assert (Q : 0 < o / e) by (apply Rdiv_lt_0_compat; assumption).
    pose proof (ln_ge _ Q) as L. assert (o * (1 - / (o / e)) = o - e) by (field; lra). assert (o * (1 - / (o / e)) <= o * ln (o / e)) by (apply Rmult_le_compat_l; lra). lra.
  Qed.

  Lemma stat_nonneg : forall k l, k = true \/ integer_table m \/ l = Pearson -> 0 <= stat k l m I J.
  Proof.
    intros k l HK. unfold stat. destruct (Nat.eqb _ 0); [lra|]. set (d := ((length I - 1) * (length J - 1))%nat).
    destruct l.
    - apply lsum_nonneg. intros i Hi. apply lsum_nonneg. intros j Hj. apply pearson_nonneg, Epos; assumption.
    - set (o' := fun i j => if Nat.eqb d 1 then yates k (el m i j) (expected m i j) else el m i j).
      assert (T : lsum (fun i => lsum (fun j => o' i j) J) I = N).
      { unfold o'. destruct (Nat.eqb_spec d 1) as [D|D].
        - apply dof1 in D. destruct D. apply total_yates; assumption.
        - rewrite (lsum_ext _ _ (rowsum m)) by (intros; apply sumO_row; assumption). apply sumR. }
      assert (E : lsum (fun i => lsum (fun j => expected m i j) J) I = N) by (rewrite (lsum_ext _ _ (rowsum m)) by (intros; apply sumE_row); apply sumR).
      apply Rle_trans with (lsum (fun i => lsum (fun j => 2 * (o' i j - expected m i j)) J) I).
      + rewrite (lsum_ext _ _ (fun i => 2 * (lsum (fun j => o' i j) J - lsum (fun j => expected m i j) J))) by (intros; rewrite lsum_scal, lsum_minus; reflexivity).
        rewrite lsum_scal, lsum_minus, T, E. lra.
      + apply lsum_le. intros i Hi. apply lsum_le. intros j Hj. apply llr_ge; [|apply Epos; assumption].
        unfold o'. pose proof (Oge i j Hi Hj). pose proof (Epos i j Hi Hj). destruct (Nat.eqb d 1); [|assumption].
        destruct HK as [->|[HI|HI]]; [apply yates_nonneg; lra| |discriminate].
        destruct k; [apply yates_nonneg; lra|]. apply in_nz_rows in Hi. apply in_nz_cols in Hj. destruct (HI i j) as [c ->]; [tauto|tauto|]. apply yates_nonneg_int. lra.
  Qed.

  (** ** the maximum *)
  Lemma sum_sq : lsum (fun i => lsum (fun j => el m i j * el m i j / (rowsum m i * colsum m j)) J) I <= INR (length I).
  Proof.
    replace (INR (length I)) with (lsum (fun _ : nat => 1) I) by (rewrite lsum_const; lra).
    apply lsum_le. intros i Hi. pose proof (Rpos i Hi) as Ri.
    apply Rle_trans with (lsum (fun j => / rowsum m i * el m i j) J).
    - apply lsum_le. intros j Hj. pose proof (Cpos j Hj) as Cj. pose proof (Oge i j Hi Hj) as O.
      assert (el m i j <= colsum m j) by (rewrite <- (sumO_col j Hj); apply (lsum_le_elem _ (fun i => el m i j)); [intros; apply Oge; assumption|exact Hi]).
      apply Rmult_le_reg_r with (rowsum m i * colsum m j); [nra|]. unfold Rdiv. rewrite Rmult_assoc, Rinv_l by nra. replace (/ rowsum m i * el m i j * (rowsum m i * colsum m j)) with (el m i j * colsum m j) by (field; lra). nra.
    - rewrite lsum_scal, sumO_row by exact Hi. rewrite Rinv_l by lra. lra.
  Qed.
  Lemma pearson_sum : lsum (fun i => lsum (fun j => pd_term Pearson (el m i j) (expected m i j)) J) I
     = N * lsum (fun i => lsum (fun j => el m i j * el m i j / (rowsum m i * colsum m j)) J) I - N.
  Proof.
    rewrite <- lsum_scal.
    rewrite (lsum_ext _ _ (fun i => N * lsum (fun j => el m i j * el m i j / (rowsum m i * colsum m j)) J - rowsum m i)).
    { rewrite lsum_minus. change (lsum (fun a => rowsum m a) I) with (lsum (rowsum m) I). rewrite sumR. reflexivity. }
    intros i Hi. pose proof (Rpos i Hi) as Ri.
    rewrite (lsum_ext _ _ (fun j => N * (el m i j * el m i j / (rowsum m i * colsum m j)) - (2 * el m i j - expected m i j))).
    { rewrite lsum_minus, lsum_scal, lsum_minus, lsum_scal, sumO_row, sumE_row by exact Hi. lra. }
    intros j Hj. pose proof (Cpos j Hj) as Cj. unfold pd_term, expected. fold N. field. lra.
  Qed.
End Core.

Lemma transp_nonneg : forall m, nonneg_table m -> nonneg_table (transp m). Proof. intros m H i j Hi Hj. apply H; assumption. Qed.
Lemma transp_records : forall m, has_records m -> has_records (transp m). Proof. intros m (i & j & A & B & C). exists j, i. cbn. tauto. Qed.

Lemma pearson_max_rows : forall m, nonneg_table m -> has_records m ->
  lsum (fun i => lsum (fun j => pd_term Pearson (el m i j) (expected m i j)) (nz_cols m)) (nz_rows m) <= matsum m * (INR (length (nz_rows m)) - 1).
Proof.
  intros m HN HR. rewrite pearson_sum by assumption. pose proof (sum_sq m HN). pose proof (matsum_pos m HN HR). nra.
Qed.
Lemma pearson_max_cols : forall m, nonneg_table m -> has_records m ->
  lsum (fun i => lsum (fun j => pd_term Pearson (el m i j) (expected m i j)) (nz_cols m)) (nz_rows m) <= matsum m * (INR (length (nz_cols m)) - 1).
Proof.
  intros m HN HR. pose proof (pearson_max_rows (transp m) (transp_nonneg _ HN) (transp_records _ HR)) as H. rewrite matsum_transp in H.
  rewrite lsum_swap. eapply Rle_trans; [|exact H]. right. apply lsum_ext. intros j _. apply lsum_ext. intros i _. f_equal.
  unfold expected. rewrite rowsum_transp, colsum_transp, matsum_transp. f_equal. lra.
Qed.

Lemma filter_length_le : forall A (p : A -> bool) l, (length (filter p l) <= length l)%nat.
Proof. induction l as [|a l IH]; cbn [filter length]; [lia|]. destruct (p a); cbn [length]; lia. Qed.
Lemma nz_rows_le : forall m, (length (nz_rows m) <= nr m)%nat.
Proof. intros m. unfold nz_rows. rewrite <- (idx_length (nr m)) at 2. apply filter_length_le. Qed.
Lemma nz_cols_le : forall m, (length (nz_cols m) <= nc m)%nat.
Proof. intros m. unfold nz_cols. rewrite <- (idx_length (nc m)) at 2. apply filter_length_le. Qed.

Lemma pearson_pointwise : forall m (o' : nat -> nat -> R), nonneg_table m -> has_records m ->
  (forall i j, In i (nz_rows m) -> In j (nz_cols m) -> Rabs (o' i j - expected m i j) <= Rabs (el m i j - expected m i j)) ->
  lsum (fun i => lsum (fun j => pd_term Pearson (o' i j) (expected m i j)) (nz_cols m)) (nz_rows m) <=
  lsum (fun i => lsum (fun j => pd_term Pearson (el m i j) (expected m i j)) (nz_cols m)) (nz_rows m).
Proof.
  intros m o' HN HR H. apply lsum_le. intros i Hi. apply lsum_le. intros j Hj. unfold pd_term, Rdiv. apply Rmult_le_compat_r; [left; apply Rinv_0_lt_compat, Epos; assumption|].
  pose proof (H i j Hi Hj). change ((o' i j - expected m i j) * (o' i j - expected m i j)) with (Rsqr (o' i j - expected m i j)). change ((el m i j - expected m i j) * (el m i j - expected m i j)) with (Rsqr (el m i j - expected m i j)).
  apply Rsqr_le_abs_1. assumption.
Qed.

Lemma stat_max : forall m, nonneg_table m -> has_records m ->
  stat true Pearson m (nz_rows m) (nz_cols m) <= matsum m * Rmin (INR (length (nz_rows m)) - 1) (INR (length (nz_cols m)) - 1).
Proof.
  intros m HN HR. pose proof (matsum_pos m HN HR) as NP. destruct (records_nz m HR) as [L1 L2].
  assert (M1 : 0 <= INR (length (nz_rows m)) - 1) by (apply le_INR in L1; simpl in L1; lra).
  assert (M2 : 0 <= INR (length (nz_cols m)) - 1) by (apply le_INR in L2; simpl in L2; lra).
  unfold stat. destruct (Nat.eqb _ 0).
  - apply Rmult_le_pos; [lra|]. apply Rmin_glb; assumption.
  - apply Rle_trans with (lsum (fun i => lsum (fun j => pd_term Pearson (el m i j) (expected m i j)) (nz_cols m)) (nz_rows m)).
    + apply pearson_pointwise; [assumption|assumption|]. intros i j _ _. destruct (Nat.eqb _ 1); [apply yates_closer|lra].
    + unfold Rmin. destruct (Rle_dec _ _); [apply pearson_max_rows|apply pearson_max_cols]; assumption.
Qed.

(** the correction without the clamp, on whole-number tables *)
Lemma stat_max_noclamp : forall m, nonneg_table m -> has_records m -> integer_table m ->
  stat false Pearson m (nz_rows m) (nz_cols m) <= matsum m * Rmin (INR (length (nz_rows m)) - 1) (INR (length (nz_cols m)) - 1).
Proof.
  intros m HN HR HI. pose proof (matsum_pos m HN HR) as NP.
  destruct (Nat.eqb_spec ((length (nz_rows m) - 1) * (length (nz_cols m) - 1)) 1) as [D|D].
  2:{ pose proof (stat_max m HN HR) as H. unfold stat, stat_term in *. apply Nat.eqb_neq in D. rewrite D in *. exact H. }
  assert (D0 := D). apply dof1 in D. destruct D as [LI LJ]. unfold stat, stat_term. rewrite D0. cbn [Nat.eqb]. rewrite LI, LJ. replace (Rmin (INR 2 - 1) (INR 2 - 1)) with 1 by (unfold Rmin; destruct (Rle_dec _ _); simpl; lra).
  set (I := nz_rows m) in *. set (J := nz_cols m) in *.
  pose proof (resid2 m HN HR LI LJ) as RES. cbn beta zeta in RES. fold I J in RES.
  set (d := expected m (nth 0 I 0%nat) (nth 0 J 0%nat) - el m (nth 0 I 0%nat) (nth 0 J 0%nat)) in *.
  destruct (Rle_dec (1/4) (Rabs d)) as [B|B].
  - apply Rle_trans with (lsum (fun i => lsum (fun j => pd_term Pearson (el m i j) (expected m i j)) (nz_cols m)) (nz_rows m)).
    + apply (pearson_pointwise m (fun i j => yates false (el m i j) (expected m i j))); [assumption|assumption|]. fold I J. intros i j Hi Hj.
      assert (A : Rabs (expected m i j - el m i j) = Rabs d).
      { destruct I as [|i0 [|i1 [|]]]; try discriminate. destruct J as [|j0 [|j1 [|]]]; try discriminate. cbn [nth] in *. destruct RES as (R1 & R2 & R3).
        destruct Hi as [<-|[<-|[]]]; destruct Hj as [<-|[<-|[]]]; rewrite ?R1, ?R2, ?R3, ?Rabs_Ropp; reflexivity. }
      rewrite (Rabs_minus_sym (el m i j)), A. unfold yates, rsign. clear RES. revert A B. generalize (Rabs d). intros ad A B. destruct (Rlt_dec 0 _); [|destruct (Rlt_dec _ 0)].
      * rewrite Rabs_pos_eq in A by lra. apply Rabs_le. lra.
      * rewrite Rabs_left in A by lra. apply Rabs_le. lra.
      * apply Rabs_le. lra.
    + eapply Rle_trans; [apply pearson_max_rows; assumption|]. fold I. rewrite LI. simpl. lra.
  - assert (RI : forall p, (p < 2)%nat -> In (nth p I 0%nat) I) by (intros; apply nth_In; lia).
    assert (RJ : forall p, (p < 2)%nat -> In (nth p J 0%nat) J) by (intros; apply nth_In; lia).
    assert (Rint : forall i, In i I -> 1 <= rowsum m i).
    { intros i Hi. apply in_nz_rows in Hi. destruct Hi as (Hi & j & Hj & E). apply Rle_trans with (el m i j).
      - destruct (HI i j Hi Hj) as [c Ec]. rewrite Ec in *. destruct c as [|c]; [simpl in E; lra|]. rewrite S_INR. pose proof (pos_INR c). lra.
      - apply (lsum_le_elem _ (fun j => el m i j)); [intros x Hx; apply in_seq in Hx; apply HN; lia|apply in_seq; lia]. }
    assert (Cint : forall j, In j J -> 1 <= colsum m j).
    { intros j Hj. apply in_nz_cols in Hj. destruct Hj as (Hj & i & Hi & E). apply Rle_trans with (el m i j).
      - destruct (HI i j Hi Hj) as [c Ec]. rewrite Ec in *. destruct c as [|c]; [simpl in E; lra|]. rewrite S_INR. pose proof (pos_INR c). lra.
      - apply (lsum_le_elem _ (fun i => el m i j)); [intros x Hx; apply in_seq in Hx; apply HN; lia|apply in_seq; lia]. }
    apply Rle_trans with (lsum (fun i => lsum (fun j => (matsum m * (1/4)) * (/ rowsum m i * / colsum m j)) J) I).
    + apply lsum_le. intros i Hi. apply lsum_le. intros j Hj.
      assert (A : Rabs (expected m i j - el m i j) = Rabs d).
      { destruct I as [|i0 [|i1 [|]]]; try discriminate. destruct J as [|j0 [|j1 [|]]]; try discriminate. cbn [nth] in *. destruct RES as (R1 & R2 & R3).
        destruct Hi as [<-|[<-|[]]]; destruct Hj as [<-|[<-|[]]]; rewrite ?R1, ?R2, ?R3, ?Rabs_Ropp; reflexivity. }
      assert (Q : Rabs (yates false (el m i j) (expected m i j) - expected m i j) <= 1/2).
      { unfold yates, rsign. clear RES. revert A B. generalize (Rabs d). intros ad A B. destruct (Rlt_dec 0 _); [|destruct (Rlt_dec _ 0)].
        - rewrite Rabs_pos_eq in A by lra. apply Rabs_le. lra.
        - rewrite Rabs_left in A by lra. apply Rabs_le. lra.
        - apply Rabs_le. lra. }
      pose proof (Rint i Hi). pose proof (Cint j Hj). unfold pd_term.
      assert (SQ : (yates false (el m i j) (expected m i j) - expected m i j) * (yates false (el m i j) (expected m i j) - expected m i j) <= 1/4).
      { apply Rsqr_le_abs_1 in Q || idtac. revert Q. generalize (yates false (el m i j) (expected m i j) - expected m i j). intros z Q. apply Rabs_le_inv in Q || idtac. destruct (Rabs_def2 z (1/2 + 1)) as [? ?]; [lra|]. pose proof (Rle_abs z). pose proof (Rle_abs (- z)). rewrite Rabs_Ropp in *. nra. }
      replace (matsum m * (1/4) * (/ rowsum m i * / colsum m j)) with ((1/4) * / expected m i j) by (unfold expected; field; lra).
      unfold Rdiv at 1. apply Rmult_le_compat_r; [|exact SQ]. left. apply Rinv_0_lt_compat, Epos; assumption.
    + rewrite two_sum by exact LI. rewrite !two_sum by exact LJ.
      assert (Inv : forall x, 1 <= x -> 0 < / x <= 1). { intros x Hx. split; [apply Rinv_0_lt_compat; lra|]. rewrite <- Rinv_1. apply Rinv_le_contravar; lra. }
      pose proof (Inv _ (Rint _ (RI 0%nat ltac:(lia)))). pose proof (Inv _ (Rint _ (RI 1%nat ltac:(lia)))). pose proof (Inv _ (Cint _ (RJ 0%nat ltac:(lia)))). pose proof (Inv _ (Cint _ (RJ 1%nat ltac:(lia)))).
      set (a := / rowsum m (nth 0 I 0%nat)) in *. set (b := / rowsum m (nth 1 I 0%nat)) in *. set (c := / colsum m (nth 0 J 0%nat)) in *. set (e := / colsum m (nth 1 J 0%nat)) in *.
      clearbody a b c e. assert (Q : (a + b) * (c + e) <= 2 * 2) by (apply Rmult_le_compat; lra).
      replace (matsum m * (1/4) * (a * c) + matsum m * (1/4) * (a * e) + (matsum m * (1/4) * (b * c) + matsum m * (1/4) * (b * e))) with (matsum m * ((a + b) * (c + e) / 4)) by field.
      apply Rmult_le_compat_l; lra.
Qed.
