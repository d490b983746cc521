From Coq Require Import ZArith List Reals Lra Lia Bool Sorting.Permutation.
From Verif Require Import Base RSum StatsModel SpecStats.
Import ListNotations.
Open Scope R_scope.

Lemma reqb_true : forall x y, reqb x y = true <-> x = y.
Proof. intros. unfold reqb. destruct (Req_EM_T x y); split; intros; congruence. Qed.
Lemma reqb_false : forall x y, reqb x y = false <-> x <> y.
Proof. intros. unfold reqb. destruct (Req_EM_T x y); split; intros; congruence. Qed.
Lemma rltb_true : forall x y, rltb x y = true <-> x < y.
Proof. intros. unfold rltb. destruct (Rlt_dec x y); split; intros; try congruence; lra. Qed.
Lemma rltb_false : forall x y, rltb x y = false <-> y <= x.
Proof. intros. unfold rltb. destruct (Rlt_dec x y); split; intros; try congruence; lra. Qed.
Lemma rleb_true : forall x y, rleb x y = true <-> x <= y.
Proof. intros. unfold rleb. destruct (Rle_dec x y); split; intros; try congruence; lra. Qed.
Lemma rleb_false : forall x y, rleb x y = false <-> y < x.
Proof. intros. unfold rleb. destruct (Rle_dec x y); split; intros; try congruence; lra. Qed.
Lemma in_idx : forall n i, In i (idx n) <-> (i < n)%nat.
Proof. intros. unfold idx. rewrite in_seq. lia. Qed.
Lemma nodup_idx : forall n, NoDup (idx n). Proof. intros; apply seq_NoDup. Qed.
Lemma idx_length : forall n, length (idx n) = n. Proof. intros; apply seq_length. Qed.
Lemma nth_idx : forall n i, (i < n)%nat -> nth i (idx n) 0%nat = i.
Proof. intros. unfold idx. rewrite seq_nth by assumption. lia. Qed.

Lemma ext_cells : forall n k (p q : nat -> nat -> bool), (forall i j, (i < n)%nat -> (j < k)%nat -> p i j = q i j) ->
  existsb (fun c => p (fst c) (snd c)) (list_prod (idx n) (idx k)) = existsb (fun c => q (fst c) (snd c)) (list_prod (idx n) (idx k)).
Proof.
  intros n k p q H. apply eq_true_iff_eq. rewrite !existsb_exists.
  split; intros ([i j] & Hin & E); exists (i, j); (split; [exact Hin|]); apply in_prod_iff in Hin; rewrite !in_idx in Hin; cbn [fst snd] in *; rewrite H in * by tauto; exact E.
Qed.
Lemma existsb_cells_false : forall n k (p : nat -> nat -> bool), existsb (fun c => p (fst c) (snd c)) (list_prod (idx n) (idx k)) = false <->
  forall i j, (i < n)%nat -> (j < k)%nat -> p i j = false.
Proof.
  intros n k p. split.
  - intros H i j Hi Hj. destruct (p i j) eqn:E; [|reflexivity].
    rewrite (proj2 (existsb_exists _ _)) in H; [discriminate|]. exists (i, j). split; [apply in_prod_iff; rewrite !in_idx; tauto|exact E].
  - intros H. destruct (existsb _ _) eqn:E; [|reflexivity]. apply existsb_exists in E. destruct E as ([i j] & Hin & E).
    apply in_prod_iff in Hin. rewrite !in_idx in Hin. cbn [fst snd] in E. rewrite H in E by tauto. discriminate.
Qed.
Lemma existsb_cells_true : forall n k (p : nat -> nat -> bool), existsb (fun c => p (fst c) (snd c)) (list_prod (idx n) (idx k)) = true <->
  exists i j, (i < n)%nat /\ (j < k)%nat /\ p i j = true.
Proof.
  intros n k p. rewrite existsb_exists. split.
  - intros ([i j] & Hin & E). apply in_prod_iff in Hin. rewrite !in_idx in Hin. exists i, j. tauto.
  - intros (i & j & Hi & Hj & E). exists (i, j). split; [apply in_prod_iff; rewrite !in_idx; tauto|exact E].
Qed.

(** * Equality of tables *)
Lemma rowsum_eq : forall m m' i, mat_eq m m' -> (i < nr m)%nat -> rowsum m i = rowsum m' i.
Proof. intros m m' i (A & B & C) H. unfold rowsum. rewrite <- B. apply lsum_ext. intros j Hj. apply in_seq in Hj. apply C; lia. Qed.
Lemma colsum_eq : forall m m' j, mat_eq m m' -> (j < nc m)%nat -> colsum m j = colsum m' j.
Proof. intros m m' j (A & B & C) H. unfold colsum. rewrite <- A. apply lsum_ext. intros i Hi. apply in_seq in Hi. apply C; lia. Qed.
Lemma matsum_eq : forall m m', mat_eq m m' -> matsum m = matsum m'.
Proof. intros m m' E. unfold matsum. destruct E as (A & B & C). rewrite <- A. apply lsum_ext. intros i Hi. apply in_seq in Hi. apply rowsum_eq; [repeat split; assumption|lia]. Qed.
Lemma expected_eq : forall m m' i j, mat_eq m m' -> (i < nr m)%nat -> (j < nc m)%nat -> expected m i j = expected m' i j.
Proof. intros. unfold expected. rewrite (rowsum_eq m m'), (colsum_eq m m'), (matsum_eq m m') by assumption. reflexivity. Qed.
Lemma chi2_contingency_eq : forall k l m m', mat_eq m m' -> chi2_contingency k m l = chi2_contingency k m' l.
Proof.
  intros k l m m' E. pose proof (expected_eq m m') as X. assert (E0 := E). destruct E as (A & B & C). unfold chi2_contingency. rewrite <- A, <- B.
  rewrite (ext_cells _ _ (fun i j => rltb (el m i j) 0) (fun i j => rltb (el m' i j) 0)) by (intros; rewrite C by assumption; reflexivity).
  rewrite (ext_cells _ _ (fun i j => reqb (expected m i j) 0) (fun i j => reqb (expected m' i j) 0)) by (intros; rewrite X by assumption; reflexivity).
  destruct (existsb _ _); [reflexivity|]. destruct (Nat.eqb _ _); [reflexivity|]. destruct (existsb _ _); [reflexivity|]. destruct (Z.eqb _ 0); [reflexivity|].
  f_equal. apply lsum_ext. intros i Hi. apply in_idx in Hi. apply lsum_ext. intros j Hj. apply in_idx in Hj. rewrite X, C by assumption. reflexivity.
Qed.

(** * Non-empty rows and columns *)
Lemma in_nz_rows : forall m i, In i (nz_rows m) <-> (i < nr m)%nat /\ exists j, (j < nc m)%nat /\ el m i j <> 0.
Proof.
  intros m i. unfold nz_rows. rewrite filter_In, in_idx. apply and_iff_compat_l. split.
  - intros H. apply negb_true_iff in H. destruct (existsb (fun j => negb (reqb (el m i j) 0)) (idx (nc m))) eqn:E.
    + apply existsb_exists in E. destruct E as (j & Hj & E). apply in_idx in Hj. apply negb_true_iff, reqb_false in E. exists j. tauto.
    + exfalso. apply not_true_iff_false in H. apply H. apply forallb_forall. intros j Hj. destruct (reqb (el m i j) 0) eqn:Q; [reflexivity|].
      exfalso. apply not_true_iff_false in E. apply E. apply existsb_exists. exists j. rewrite Q. auto.
  - intros (j & Hj & N). apply negb_true_iff. apply not_true_iff_false. intros F. rewrite forallb_forall in F.
    specialize (F j (proj2 (in_idx _ _) Hj)). apply reqb_true in F. auto.
Qed.
Lemma nz_cols_transp : forall m, nz_cols m = nz_rows (transp m). Proof. reflexivity. Qed.
Lemma nz_rows_transp : forall m, nz_rows m = nz_cols (transp m). Proof. intros []; reflexivity. Qed.
Lemma in_nz_cols : forall m j, In j (nz_cols m) <-> (j < nc m)%nat /\ exists i, (i < nr m)%nat /\ el m i j <> 0.
Proof. intros. rewrite nz_cols_transp, in_nz_rows. reflexivity. Qed.
Lemma nodup_nz_rows : forall m, NoDup (nz_rows m). Proof. intros. apply NoDup_filter, nodup_idx. Qed.
Lemma nodup_nz_cols : forall m, NoDup (nz_cols m). Proof. intros. apply NoDup_filter, nodup_idx. Qed.
Lemma enum_rows_nz : forall m, enum_rows m (nz_rows m). Proof. intros; split; [apply nodup_nz_rows|intros; apply in_nz_rows]. Qed.
Lemma enum_cols_nz : forall m, enum_cols m (nz_cols m). Proof. intros; split; [apply nodup_nz_cols|intros; apply in_nz_cols]. Qed.

Lemma nodup_map_in : forall (f : nat -> nat) l, (forall x y, In x l -> In y l -> f x = f y -> x = y) -> NoDup l -> NoDup (map f l).
Proof.
  intros f l H N. induction N as [|x l Hx N IH]; cbn [map]; constructor.
  - intros C. apply in_map_iff in C. destruct C as (y & E & Hy). apply Hx. rewrite (H x y); [exact Hy|left; reflexivity|right; exact Hy|symmetry; exact E].
  - apply IH. intros a b Ha Hb. apply H; right; assumption.
Qed.

Definition core (m : mat) : mat := submat m (nz_rows m) (nz_cols m).

Lemma get_chi2_core : forall k m l, get_chi2 k m l = chi2_contingency k (core m) l.
Proof.
  intros k m l. unfold get_chi2. set (m1 := submat m (nz_rows m) (idx (nc m))).
  assert (E : nz_cols m1 = nz_cols m).
  { unfold nz_cols, m1. cbn [nr nc el submat]. rewrite idx_length. apply filter_ext_in. intros j Hj. apply in_idx in Hj. f_equal.
    apply eq_true_iff_eq. rewrite !forallb_forall. split; intros F i Hi.
    - destruct (reqb (el m i j) 0) eqn:Q; [reflexivity|]. apply reqb_false in Q. apply in_idx in Hi.
      assert (In i (nz_rows m)) by (apply in_nz_rows; split; [exact Hi|exists j; tauto]).
      apply (In_nth _ _ 0%nat) in H. destruct H as (p & Hp & H). specialize (F p (proj2 (in_idx _ _) Hp)).
      cbn beta in F. rewrite H, nth_idx in F by exact Hj. apply reqb_true in F. contradiction.
    - apply in_idx in Hi. rewrite nth_idx by exact Hj. apply F. apply in_idx.
      assert (In (nth i (nz_rows m) 0%nat) (nz_rows m)) by (apply nth_In; exact Hi). apply in_nz_rows in H. tauto. }
  rewrite E. apply chi2_contingency_eq. unfold mat_eq, core. cbn [nr nc el submat]. rewrite idx_length. split; [reflexivity|]. split; [reflexivity|].
  intros i j Hi Hj. rewrite nth_idx by (unfold m1; cbn [nr submat]; exact Hi). unfold m1. cbn [el submat]. f_equal.
  rewrite nth_idx; [reflexivity|]. assert (In (nth j (nz_cols m) 0%nat) (nz_cols m)) by (apply nth_In; exact Hj). apply in_nz_cols in H. tauto.
Qed.

(** * Margins under rearrangement *)
Section Rearr.
  Variables (m : mat) (I J : list nat).
  Hypothesis HR : rearrangement m I J.
  Lemma rearr_rowsum : forall i, (i < nr m)%nat -> lsum (fun j => el m i j) J = rowsum m i.
  Proof.
    destruct HR as (NI & NJ & BI & BJ & C). intros i Hi. unfold rowsum. apply lsum_support; [apply Nat.eq_dec|exact NJ|apply seq_NoDup|].
    intros j Hne. rewrite in_seq. split; [intros H; split; [lia|apply BJ in H; lia]|]. intros H. apply (C i j); [exact Hi|lia|exact Hne].
  Qed.
  Lemma rearr_colsum : forall j, (j < nc m)%nat -> lsum (fun i => el m i j) I = colsum m j.
  Proof.
    destruct HR as (NI & NJ & BI & BJ & C). intros j Hj. unfold colsum. apply lsum_support; [apply Nat.eq_dec|exact NI|apply seq_NoDup|].
    intros i Hne. rewrite in_seq. split; [intros H; split; [lia|apply BI in H; lia]|]. intros H. apply (C i j); [lia|exact Hj|exact Hne].
  Qed.
  Lemma rearr_matsum : lsum (rowsum m) I = matsum m.
  Proof.
    destruct HR as (NI & NJ & BI & BJ & C). unfold matsum. apply lsum_support; [apply Nat.eq_dec|exact NI|apply seq_NoDup|].
    intros i Hne. rewrite in_seq. split; [intros H; split; [lia|apply BI in H; lia]|]. intros H.
    destruct (in_dec Nat.eq_dec i I) as [Hi|Hn]; [exact Hi|]. exfalso. apply Hne. apply lsum_0. intros j Hj. apply in_seq in Hj.
    destruct (Req_dec (el m i j) 0) as [E|E]; [exact E|]. exfalso. apply Hn. apply (C i j); [lia|lia|exact E].
  Qed.
  Lemma sub_rowsum : forall p, (p < length I)%nat -> rowsum (submat m I J) p = rowsum m (nth p I 0%nat).
  Proof.
    intros p Hp. unfold rowsum at 1. cbn [nc el submat]. rewrite (lsum_nth _ (fun j => el m (nth p I 0%nat) j) J 0%nat).
    apply rearr_rowsum. destruct HR as (NI & NJ & BI & BJ & C). apply BI, nth_In, Hp.
  Qed.
  Lemma sub_colsum : forall p, (p < length J)%nat -> colsum (submat m I J) p = colsum m (nth p J 0%nat).
  Proof.
    intros p Hp. unfold colsum at 1. cbn [nr el submat]. rewrite (lsum_nth _ (fun i => el m i (nth p J 0%nat)) I 0%nat).
    apply rearr_colsum. destruct HR as (NI & NJ & BI & BJ & C). apply BJ, nth_In, Hp.
  Qed.
  Lemma sub_matsum : matsum (submat m I J) = matsum m.
  Proof.
    rewrite <- rearr_matsum. unfold matsum. cbn [nr submat]. rewrite <- (lsum_nth _ (rowsum m) I 0%nat).
    apply lsum_ext. intros p Hp. apply in_seq in Hp. apply sub_rowsum. lia.
  Qed.
  Lemma sub_expected : forall p q, (p < length I)%nat -> (q < length J)%nat -> expected (submat m I J) p q = expected m (nth p I 0%nat) (nth q J 0%nat).
  Proof. intros. unfold expected. rewrite sub_rowsum, sub_colsum, sub_matsum by assumption. reflexivity. Qed.
End Rearr.

Lemma core_rearr : forall m, rearrangement m (nz_rows m) (nz_cols m).
Proof.
  intros m. split; [apply nodup_nz_rows|]. split; [apply nodup_nz_cols|]. split; [intros i H; apply in_nz_rows in H; tauto|]. split; [intros j H; apply in_nz_cols in H; tauto|].
  intros i j Hi Hj E. rewrite in_nz_rows, in_nz_cols. split; (split; [assumption|]); [exists j|exists i]; tauto.
Qed.

Lemma rowsum_nonneg : forall m i, nonneg_table m -> (i < nr m)%nat -> 0 <= rowsum m i.
Proof. intros m i H Hi. apply lsum_nonneg. intros j Hj. apply in_seq in Hj. apply H; lia. Qed.
Lemma colsum_nonneg : forall m i, nonneg_table m -> (i < nc m)%nat -> 0 <= colsum m i.
Proof. intros m i H Hi. apply lsum_nonneg. intros j Hj. apply in_seq in Hj. apply H; lia. Qed.
Lemma matsum_nonneg : forall m, nonneg_table m -> 0 <= matsum m.
Proof. intros m H. apply lsum_nonneg. intros i Hi. apply in_seq in Hi. apply rowsum_nonneg; [exact H|lia]. Qed.
Lemma rowsum_pos : forall m i j, nonneg_table m -> (i < nr m)%nat -> (j < nc m)%nat -> el m i j <> 0 -> 0 < rowsum m i.
Proof. intros m i j H Hi Hj E. apply lsum_pos with (a := j); [intros x Hx; apply in_seq in Hx; apply H; lia|apply in_seq; lia|]. assert (0 <= el m i j) by (apply H; assumption). lra. Qed.
Lemma colsum_pos : forall m i j, nonneg_table m -> (i < nr m)%nat -> (j < nc m)%nat -> el m i j <> 0 -> 0 < colsum m j.
Proof. intros m i j H Hi Hj E. apply lsum_pos with (a := i); [intros x Hx; apply in_seq in Hx; apply H; lia|apply in_seq; lia|]. assert (0 <= el m i j) by (apply H; assumption). lra. Qed.
Lemma nz_row_pos : forall m i, nonneg_table m -> In i (nz_rows m) -> 0 < rowsum m i.
Proof. intros m i H Hi. apply in_nz_rows in Hi. destruct Hi as (A & j & B & C). eapply rowsum_pos; eassumption. Qed.
Lemma nz_col_pos : forall m i, nonneg_table m -> In i (nz_cols m) -> 0 < colsum m i.
Proof. intros m i H Hi. apply in_nz_cols in Hi. destruct Hi as (A & j & B & C). apply colsum_pos with (i := j); assumption. Qed.
Lemma matsum_pos : forall m, nonneg_table m -> has_records m -> 0 < matsum m.
Proof.
  intros m H (i & j & Hi & Hj & E). apply lsum_pos with (a := i); [intros x Hx; apply in_seq in Hx; apply rowsum_nonneg; [exact H|lia]|apply in_seq; lia|].
  eapply rowsum_pos; eassumption.
Qed.
Lemma matsum_pos_records : forall m, 0 < matsum m -> has_records m.
Proof.
  intros m H. destruct (existsb (fun c => negb (reqb (el m (fst c) (snd c)) 0)) (list_prod (idx (nr m)) (idx (nc m)))) eqn:E.
  - rewrite (existsb_cells_true _ _ (fun i j => negb (reqb (el m i j) 0))) in E. destruct E as (i & j & Hi & Hj & E). apply negb_true_iff, reqb_false in E. exists i, j. tauto.
  - rewrite (existsb_cells_false _ _ (fun i j => negb (reqb (el m i j) 0))) in E. exfalso. assert (matsum m = 0); [|lra].
    apply lsum_0. intros i Hi. apply in_seq in Hi. apply lsum_0. intros j Hj. apply in_seq in Hj. specialize (E i j ltac:(lia) ltac:(lia)). apply negb_false_iff, reqb_true in E. exact E.
Qed.

(** * Closed form of the statistic *)
Definition stat_term (clamp : bool) (l : lambda) (d : nat) (m : mat) (i j : nat) : R :=
  pd_term l (if Nat.eqb d 1 then yates clamp (el m i j) (expected m i j) else el m i j) (expected m i j).
Definition stat (clamp : bool) (l : lambda) (m : mat) (I J : list nat) : R :=
  let d := ((length I - 1) * (length J - 1))%nat in
  if Nat.eqb d 0 then 0 else lsum (fun i => lsum (fun j => stat_term clamp l d m i j) J) I.

Lemma dof_nat : forall a b, (1 <= a)%nat -> (1 <= b)%nat -> (Z.of_nat (a * b) - Z.of_nat (a + b) + 2 - 1)%Z = Z.of_nat ((a - 1) * (b - 1)).
Proof. intros a b Ha Hb. destruct a as [|a]; [lia|]. destruct b as [|b]; [lia|]. cbn [Nat.sub]. rewrite !Nat.sub_0_r. nia. Qed.

Lemma records_nz : forall m, has_records m -> (1 <= length (nz_rows m))%nat /\ (1 <= length (nz_cols m))%nat.
Proof.
  intros m (i & j & Hi & Hj & E).
  assert (A : In i (nz_rows m)) by (apply in_nz_rows; split; [exact Hi|exists j; tauto]).
  assert (B : In j (nz_cols m)) by (apply in_nz_cols; split; [exact Hj|exists i; tauto]).
  destruct (nz_rows m); [destruct A|]. destruct (nz_cols m); [destruct B|]. cbn [length]. lia.
Qed.

Theorem get_chi2_closed : forall k m l, nonneg_table m -> has_records m -> get_chi2 k m l = Ok (stat k l m (nz_rows m) (nz_cols m)).
Proof.
  intros k m l HN HR. rewrite get_chi2_core. unfold chi2_contingency. cbn [nr nc].
  pose proof (records_nz m HR) as [L1 L2]. pose proof (core_rearr m) as RR. pose proof (matsum_pos m HN HR) as MP.
  rewrite (proj2 (existsb_cells_false _ _ (fun i j => rltb (el (core m) i j) 0))).
  2:{ intros p q Hp Hq. apply rltb_false. unfold core. cbn [el submat]. apply HN; [apply (nth_In (nz_rows m) 0%nat) in Hp; apply in_nz_rows in Hp|apply (nth_In (nz_cols m) 0%nat) in Hq; apply in_nz_cols in Hq]; tauto. }
  rewrite (proj2 (Nat.eqb_neq _ _)) by (unfold core; cbn [nr nc submat]; nia).
  rewrite (proj2 (existsb_cells_false _ _ (fun i j => reqb (expected (core m) i j) 0))).
  2:{ intros p q Hp Hq. apply reqb_false. unfold core in *. cbn [nr nc submat] in Hp, Hq. rewrite (sub_expected _ _ _ RR) by assumption. unfold expected.
      assert (0 < rowsum m (nth p (nz_rows m) 0%nat)) by (apply nz_row_pos; [exact HN|apply nth_In; exact Hp]).
      assert (0 < colsum m (nth q (nz_cols m) 0%nat)) by (apply nz_col_pos; [exact HN|apply nth_In; exact Hq]).
      apply Rgt_not_eq. apply Rlt_gt. apply Rdiv_lt_0_compat; [apply Rmult_lt_0_compat; assumption|exact MP]. }
  cbn [nr nc core submat]. rewrite dof_nat by assumption. unfold stat. set (d := ((length (nz_rows m) - 1) * (length (nz_cols m) - 1))%nat).
  replace (Z.of_nat d =? 0)%Z with (Nat.eqb d 0) by (destruct (Nat.eqb_spec d 0); destruct (Z.eqb_spec (Z.of_nat d) 0); auto; lia).
  destruct (Nat.eqb d 0); [reflexivity|]. f_equal.
  replace (Z.of_nat d =? 1)%Z with (Nat.eqb d 1) by (destruct (Nat.eqb_spec d 1); destruct (Z.eqb_spec (Z.of_nat d) 1); auto; lia).
  rewrite <- (lsum_nth _ _ (nz_rows m) 0%nat). apply lsum_ext. intros p Hp. apply in_idx in Hp. cbn [el].
  rewrite <- (lsum_nth _ _ (nz_cols m) 0%nat). apply lsum_ext. intros q Hq. apply in_idx in Hq.
  unfold stat_term. fold (core m). change (el (core m) p q) with (el m (nth p (nz_rows m) 0%nat) (nth q (nz_cols m) 0%nat)).
  unfold core. rewrite (sub_expected _ _ _ RR) by assumption. reflexivity.
Qed.

Lemma get_chi2_negative : forall k m l, has_negative m -> get_chi2 k m l = Raise ValueError.
Proof.
  intros k m l (i & j & Hi & Hj & E). rewrite get_chi2_core. unfold chi2_contingency.
  rewrite (proj2 (existsb_cells_true _ _ (fun i j => rltb (el (core m) i j) 0))); [reflexivity|].
  assert (Z : el m i j <> 0) by lra.
  assert (A : In i (nz_rows m)) by (apply in_nz_rows; split; [exact Hi|exists j; tauto]).
  assert (B : In j (nz_cols m)) by (apply in_nz_cols; split; [exact Hj|exists i; tauto]).
  apply (In_nth _ _ 0%nat) in A. destruct A as (p & Hp & A). apply (In_nth _ _ 0%nat) in B. destruct B as (q & Hq & B).
  exists p, q. split; [exact Hp|]. split; [exact Hq|]. unfold core. cbn [el submat]. rewrite A, B. apply rltb_true. exact E.
Qed.
Lemma get_chi2_empty : forall k m l, ~ has_records m -> get_chi2 k m l = Raise ValueError.
Proof.
  intros k m l H. rewrite get_chi2_core.
  assert (E : nz_rows m = []).
  { destruct (nz_rows m) as [|i t] eqn:Q; [reflexivity|]. exfalso. apply H. assert (In i (nz_rows m)) by (rewrite Q; left; reflexivity). apply in_nz_rows in H0. destruct H0 as (A & j & B & C). exists i, j. tauto. }
  unfold chi2_contingency, core. rewrite E. cbn [nr nc submat length idx list_prod existsb Nat.mul Nat.eqb]. reflexivity.
Qed.
Lemma neg_or_nonneg : forall m, has_negative m \/ nonneg_table m.
Proof.
  intros m. destruct (existsb (fun c => rltb (el m (fst c) (snd c)) 0) (list_prod (idx (nr m)) (idx (nc m)))) eqn:E.
  - left. rewrite (existsb_cells_true _ _ (fun i j => rltb (el m i j) 0)) in E. destruct E as (i & j & Hi & Hj & E). exists i, j. rewrite rltb_true in E. tauto.
  - right. rewrite (existsb_cells_false _ _ (fun i j => rltb (el m i j) 0)) in E. intros i j Hi Hj. specialize (E i j Hi Hj). rewrite rltb_false in E. exact E.
Qed.
Lemma records_dec : forall m, has_records m \/ ~ has_records m.
Proof.
  intros m. destruct (existsb (fun c => negb (reqb (el m (fst c) (snd c)) 0)) (list_prod (idx (nr m)) (idx (nc m)))) eqn:E.
  - left. rewrite (existsb_cells_true _ _ (fun i j => negb (reqb (el m i j) 0))) in E. destruct E as (i & j & Hi & Hj & E). apply negb_true_iff, reqb_false in E. exists i, j. tauto.
  - right. rewrite (existsb_cells_false _ _ (fun i j => negb (reqb (el m i j) 0))) in E. intros (i & j & Hi & Hj & N). specialize (E i j Hi Hj). apply negb_false_iff, reqb_true in E. contradiction.
Qed.

(** the value does not depend on the enumeration *)
Lemma stat_perm : forall k l m I I' J J', Permutation I I' -> Permutation J J' -> stat k l m I J = stat k l m I' J'.
Proof.
  intros k l m I I' J J' PI PJ. unfold stat. rewrite (Permutation_length PI), (Permutation_length PJ). destruct (Nat.eqb _ 0); [reflexivity|].
  rewrite (lsum_perm _ _ _ _ PI). apply lsum_ext. intros i _. apply lsum_perm. exact PJ.
Qed.
Lemma stat_transp : forall k l m I J, stat k l (transp m) J I = stat k l m I J.
Proof.
  intros k l m I J. unfold stat. rewrite (Nat.mul_comm (length J - 1)). destruct (Nat.eqb _ 0); [reflexivity|].
  rewrite lsum_swap. apply lsum_ext. intros i _. apply lsum_ext. intros j _. unfold stat_term.
  replace (expected (transp m) j i) with (expected m i j) by (unfold expected; rewrite rowsum_transp, colsum_transp, matsum_transp; f_equal; lra). reflexivity.
Qed.

Section SubNz.
  Variables (m : mat) (I J : list nat).
  Hypothesis HR : rearrangement m I J.
  Lemma sub_nz_rows : Permutation (map (fun p => nth p I 0%nat) (nz_rows (submat m I J))) (nz_rows m).
  Proof.
    destruct HR as (NI & NJ & BI & BJ & C). apply NoDup_Permutation.
    - apply nodup_map_in; [|apply nodup_nz_rows]. intros x y Hx Hy E. apply in_nz_rows in Hx, Hy. cbn [nr submat] in *. apply (proj1 (NoDup_nth I 0%nat) NI); tauto.
    - apply nodup_nz_rows.
    - intros i. rewrite in_map_iff, in_nz_rows. split.
      + intros (p & <- & Hp). apply in_nz_rows in Hp. cbn [nr nc el submat] in Hp. destruct Hp as (Hp & q & Hq & E). split; [apply BI, nth_In, Hp|]. exists (nth q J 0%nat). split; [apply BJ, nth_In, Hq|exact E].
      + intros (Hi & j & Hj & E). destruct (C i j Hi Hj E) as [A B]. apply (In_nth _ _ 0%nat) in A. destruct A as (p & Hp & A). apply (In_nth _ _ 0%nat) in B. destruct B as (q & Hq & B).
        exists p. split; [exact A|]. apply in_nz_rows. cbn [nr nc el submat]. split; [exact Hp|]. exists q. split; [exact Hq|]. rewrite A, B. exact E.
  Qed.
End SubNz.
Lemma rearr_transp : forall m I J, rearrangement m I J -> rearrangement (transp m) J I.
Proof. intros m I J (A & B & C & D & E). repeat split; auto; intros; destruct (E j i); auto. Qed.
Lemma sub_nz_cols : forall m I J, rearrangement m I J -> Permutation (map (fun p => nth p J 0%nat) (nz_cols (submat m I J))) (nz_cols m).
Proof. intros m I J H. apply (sub_nz_rows (transp m) J I). apply rearr_transp, H. Qed.

Theorem get_chi2_rearr : forall k m l I J, rearrangement m I J -> get_chi2 k (submat m I J) l = get_chi2 k m l.
Proof.
  intros k m l I J HR. assert (HR0 := HR). destruct HR0 as (NI & NJ & BI & BJ & C).
  destruct (neg_or_nonneg m) as [N|N].
  - rewrite (get_chi2_negative _ m) by exact N. apply get_chi2_negative. destruct N as (i & j & Hi & Hj & E).
    destruct (C i j Hi Hj) as [A B]; [lra|]. apply (In_nth _ _ 0%nat) in A. destruct A as (p & Hp & A). apply (In_nth _ _ 0%nat) in B. destruct B as (q & Hq & B).
    exists p, q. cbn [nr nc el submat]. rewrite A, B. tauto.
  - destruct (records_dec m) as [R|R].
    + assert (N' : nonneg_table (submat m I J)) by (intros p q Hp Hq; cbn [nr nc el submat] in *; apply N; [apply BI, nth_In, Hp|apply BJ, nth_In, Hq]).
      assert (R' : has_records (submat m I J)).
      { destruct R as (i & j & Hi & Hj & E). destruct (C i j Hi Hj E) as [A B]. apply (In_nth _ _ 0%nat) in A. destruct A as (p & Hp & A). apply (In_nth _ _ 0%nat) in B. destruct B as (q & Hq & B).
        exists p, q. cbn [nr nc el submat]. rewrite A, B. tauto. }
      rewrite !get_chi2_closed by assumption. f_equal.
      rewrite <- (stat_perm k l m _ _ _ _ (sub_nz_rows m I J HR) (sub_nz_cols m I J HR)).
      unfold stat. rewrite !map_length. destruct (Nat.eqb _ 0); [reflexivity|]. rewrite lsum_map. apply lsum_ext. intros p Hp. rewrite lsum_map. apply lsum_ext. intros q Hq.
      apply in_nz_rows in Hp. apply in_nz_cols in Hq. cbn [nr nc submat] in Hp, Hq. unfold stat_term. rewrite (sub_expected _ _ _ HR) by tauto. reflexivity.
    + rewrite (get_chi2_empty _ m) by exact R. apply get_chi2_empty. intros (p & q & Hp & Hq & E). apply R. cbn [nr nc el submat] in *. exists (nth p I 0%nat), (nth q J 0%nat). split; [apply BI, nth_In, Hp|]. split; [apply BJ, nth_In, Hq|exact E].
Qed.

Theorem get_chi2_transp : forall k m l, get_chi2 k (transp m) l = get_chi2 k m l.
Proof.
  intros k m l. destruct (neg_or_nonneg m) as [N|N].
  - rewrite (get_chi2_negative _ m) by exact N. apply get_chi2_negative. destruct N as (i & j & Hi & Hj & E). exists j, i. cbn. tauto.
  - destruct (records_dec m) as [R|R].
    + rewrite !get_chi2_closed; [| exact N | exact R | intros i j Hi Hj; apply N; assumption | destruct R as (i & j & Hi & Hj & E); exists j, i; cbn; tauto ].
      f_equal. apply (stat_transp k l m (nz_rows m) (nz_cols m)).
    + rewrite (get_chi2_empty _ m) by exact R. apply get_chi2_empty. intros (i & j & Hi & Hj & E). apply R. exists j, i. cbn in *. tauto.
Qed.
