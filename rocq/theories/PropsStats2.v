(** C14, continued: the value of the statistic when the non-empty part of the table is 2 x 2 (phik/statistics.py:36-57 calls
    chi2_contingency with its default continuity correction). *)
From Coq Require Import ZArith List Reals Lra Lia Bool.
From Verif Require Import Base RSum StatsModel SpecStats StatsProofs StatsProofs2 StatsProofs3.
Import ListNotations.
Open Scope R_scope.

Lemma enum_rearr : forall m I J, enum_rows m I -> enum_cols m J -> rearrangement m I J.
Proof.
  intros m I J [NI EI] [NJ EJ]. split; [exact NI|]. split; [exact NJ|]. split; [intros i H; apply EI in H; tauto|]. split; [intros j H; apply EJ in H; tauto|].
  intros i j Hi Hj E. rewrite EI, EJ. split; (split; [assumption|]); [exists j|exists i]; tauto.
Qed.

Lemma stat_2x2 : forall k l m i1 i2 j1 j2, nonneg_table m -> has_records m -> enum_rows m [i1; i2] -> enum_cols m [j1; j2] ->
  get_chi2 k m l = Ok (lsum (fun i => lsum (fun j => pd_term l (yates k (el m i j) (expected m i j)) (expected m i j)) [j1; j2]) [i1; i2]).
Proof.
  intros k l m i1 i2 j1 j2 HN HR [NI EI] [NJ EJ]. rewrite get_chi2_closed by assumption. f_equal.
  assert (PI : Permutation.Permutation (nz_rows m) [i1; i2]) by (apply Permutation.NoDup_Permutation; [apply nodup_nz_rows|exact NI|intros; rewrite in_nz_rows; symmetry; apply EI]).
  assert (PJ : Permutation.Permutation (nz_cols m) [j1; j2]) by (apply Permutation.NoDup_Permutation; [apply nodup_nz_cols|exact NJ|intros; rewrite in_nz_cols; symmetry; apply EJ]).
  rewrite (stat_perm k l m _ _ _ _ PI PJ). unfold stat. cbn [length]. reflexivity.
Qed.

Lemma yates_dev : forall (k : bool) o e, (yates k o e - e) * (yates k o e - e) =
  (if Req_EM_T o e then 0 else (let h := Rabs (o - e) - 1/2 in (if k then Rmax 0 h else h) * (if k then Rmax 0 h else h))).
Proof.
  intros k o e. unfold yates, rsign. destruct (Req_EM_T o e) as [->|N].
  - replace (e - e) with 0 by ring. rewrite Rabs_R0. destruct k.
    + rewrite Rmin_right by lra. destruct (Rlt_dec 0 0); [lra|]. ring_simplify. ring.
    + destruct (Rlt_dec 0 0); [lra|]. ring.
  - destruct (Rlt_dec 0 (e - o)) as [A|A].
    + rewrite (Rabs_pos_eq (e - o)) by lra. rewrite (Rabs_left (o - e)) by lra. destruct k; cbn zeta.
      * unfold Rmin, Rmax. destruct (Rle_dec _ _), (Rle_dec _ _); try lra; try nra.
      * nra.
    + destruct (Rlt_dec (e - o) 0) as [B|B]; [|exfalso; apply N; lra].
      rewrite (Rabs_left (e - o)) by lra. rewrite (Rabs_pos_eq (o - e)) by lra. destruct k; cbn zeta.
      * unfold Rmin, Rmax. destruct (Rle_dec _ _), (Rle_dec _ _); try lra; try nra.
      * nra.
Qed.

Section Two.
  Variables (m : mat) (i1 i2 j1 j2 : nat).
  Hypothesis HN : nonneg_table m.
  Hypothesis HR : has_records m.
  Hypothesis HI : enum_rows m [i1; i2].
  Hypothesis HJ : enum_cols m [j1; j2].
  Let a := el m i1 j1. Let b := el m i1 j2. Let c := el m i2 j1. Let d := el m i2 j2.
  Lemma two_facts : 0 <= a /\ 0 <= b /\ 0 <= c /\ 0 <= d /\ rowsum m i1 = a + b /\ rowsum m i2 = c + d /\ colsum m j1 = a + c /\ colsum m j2 = b + d /\
    matsum m = a + b + c + d /\ 0 < a + b /\ 0 < c + d /\ 0 < a + c /\ 0 < b + d.
  Proof.
    pose proof (enum_rearr m _ _ HI HJ) as RR.
    assert (R1 : (i1 < nr m)%nat /\ exists j, (j < nc m)%nat /\ el m i1 j <> 0) by (apply (proj2 HI); left; reflexivity).
    assert (R2 : (i2 < nr m)%nat /\ exists j, (j < nc m)%nat /\ el m i2 j <> 0) by (apply (proj2 HI); right; left; reflexivity).
    assert (C1 : (j1 < nc m)%nat /\ exists i, (i < nr m)%nat /\ el m i j1 <> 0) by (apply (proj2 HJ); left; reflexivity).
    assert (C2 : (j2 < nc m)%nat /\ exists i, (i < nr m)%nat /\ el m i j2 <> 0) by (apply (proj2 HJ); right; left; reflexivity).
    destruct R1 as (R1 & x1 & X1 & Y1), R2 as (R2 & x2 & X2 & Y2), C1 as (C1 & x3 & X3 & Y3), C2 as (C2 & x4 & X4 & Y4).
    pose proof (rearr_rowsum m _ _ RR i1 R1) as E1. pose proof (rearr_rowsum m _ _ RR i2 R2) as E2.
    pose proof (rearr_colsum m _ _ RR j1 C1) as E3. pose proof (rearr_colsum m _ _ RR j2 C2) as E4.
    pose proof (rearr_matsum m _ _ RR) as E5. cbn in E1, E2, E3, E4, E5. fold a b in E1. fold c d in E2. fold a c in E3. fold b d in E4.
    pose proof (rowsum_pos m i1 x1 HN R1 X1 Y1). pose proof (rowsum_pos m i2 x2 HN R2 X2 Y2).
    pose proof (colsum_pos m x3 j1 HN X3 C1 Y3). pose proof (colsum_pos m x4 j2 HN X4 C2 Y4).
    assert (0 <= a) by (apply HN; assumption). assert (0 <= b) by (apply HN; assumption). assert (0 <= c) by (apply HN; assumption). assert (0 <= d) by (apply HN; assumption).
    split; [assumption|]. split; [assumption|]. split; [assumption|]. split; [assumption|]. split; [lra|]. split; [lra|]. split; [lra|]. split; [lra|]. split; [lra|]. split; [lra|]. split; [lra|]. split; lra.
  Qed.
End Two.

(** C14: for a 2 x 2 table with cells a b / c d it is Yates' statistic N (max 0 (|ad - bc| - N/2))^2 / ((a+b)(c+d)(a+c)(b+d)) *)
Theorem C14_chi2_value_2x2 : forall m i1 i2 j1 j2, nonneg_table m -> has_records m -> enum_rows m [i1; i2] -> enum_cols m [j1; j2] ->
  let a := el m i1 j1 in let b := el m i1 j2 in let c := el m i2 j1 in let d := el m i2 j2 in let n := a + b + c + d in
  get_chi2 true m Pearson = Ok (n * (Rmax 0 (Rabs (a * d - b * c) - n / 2) * Rmax 0 (Rabs (a * d - b * c) - n / 2)) / ((a + b) * (c + d) * (a + c) * (b + d))).
Proof.
  intros m i1 i2 j1 j2 HN HR HI HJ a b c d n. rewrite (stat_2x2 true Pearson m i1 i2 j1 j2 HN HR HI HJ). f_equal.
  destruct (two_facts m i1 i2 j1 j2 HN HI HJ) as (A & B & C & D & R1 & R2 & C1 & C2 & M & P1 & P2 & P3 & P4). fold a in A, R1, C1, M, P1, P3. fold b in B, R1, C2, M, P1, P4. fold c in C, R2, C1, M, P2, P3. fold d in D, R2, C2, M, P2, P4.
  assert (NP : 0 < n) by (unfold n; lra). fold n in M.
  cbn [lsum fold_right]. unfold pd_term, expected. rewrite R1, R2, C1, C2, M. fold a b c d.
  set (q := Rabs (a * d - b * c) / n). 
  assert (V : forall o r t : R, 0 < r -> 0 < t -> Rabs (o - r * t / n) = q ->
    (yates true o (r * t / n) - r * t / n) * (yates true o (r * t / n) - r * t / n) / (r * t / n) = Rmax 0 (q - 1/2) * Rmax 0 (q - 1/2) * n / (r * t)).
  { intros o r t Hr Ht E. rewrite yates_dev. destruct (Req_EM_T o (r * t / n)) as [F|F].
    - rewrite <- E, F. replace (r * t / n - r * t / n) with 0 by ring. rewrite Rabs_R0, Rmax_left by lra. field. split; [lra|split; lra].
    - cbn zeta. rewrite E. field. split; [lra|split; lra]. }
  assert (Q : forall x, x = (a * d - b * c) / n \/ x = - ((a * d - b * c) / n) -> Rabs x = q).
  { intros x [-> | ->]; [|rewrite Rabs_Ropp]; unfold q, Rdiv; rewrite Rabs_mult, (Rabs_pos_eq (/ n)); try reflexivity; left; apply Rinv_0_lt_compat; exact NP. }
  rewrite (V a), (V b), (V c), (V d) by (try lra; apply Q; unfold n in *; first [left; field; lra|right; field; lra]).
  replace (Rmax 0 (Rabs (a * d - b * c) - n / 2)) with (n * Rmax 0 (q - 1/2)).
  - unfold n. field. repeat split; lra.
  - unfold q. rewrite <- RmaxRmult by lra. rewrite Rmult_0_r. f_equal. field. lra.
Qed.
Example C14_2x2_instance : let m := tab [[8; 2]; [1; 9]]%Z 2 in nonneg_table m /\ has_records m /\ enum_rows m [0; 1]%nat /\ enum_cols m [0; 1]%nat /\ get_chi2 true m Pearson = Ok (20 * 3600 / 9900).
Proof.
  cbv zeta. set (m := tab [[8; 2]; [1; 9]]%Z 2).
  assert (HN : nonneg_table m) by (intros [|[|i]] [|[|j]] Hi Hj; cbn in *; try lia; lra).
  assert (HR : has_records m) by (exists 0%nat, 0%nat; cbn; split; [lia|split; [lia|lra]]).
  assert (EI : enum_rows m [0; 1]%nat). { split; [repeat constructor; cbn; intuition lia|]. intros i. split; [intros [<-|[<-|[]]]; (split; [cbn; lia|exists 0%nat; split; [cbn; lia|cbn; lra]])|]. intros [H _]. cbn in H. destruct i as [|[|i]]; cbn; auto; lia. }
  assert (EJ : enum_cols m [0; 1]%nat). { split; [repeat constructor; cbn; intuition lia|]. intros i. split; [intros [<-|[<-|[]]]; (split; [cbn; lia|exists 0%nat; split; [cbn; lia|cbn; lra]])|]. intros [H _]. cbn in H. destruct i as [|[|i]]; cbn; auto; lia. }
  split; [exact HN|]. split; [exact HR|]. split; [exact EI|]. split; [exact EJ|].
  rewrite (C14_chi2_value_2x2 m 0 1 0 1 HN HR EI EJ). f_equal. cbn. rewrite Rabs_pos_eq by lra. rewrite Rmax_right by lra. field.
Qed.

(** C14: with the log-likelihood, every count first moves half a record (or, if closer, all the way) towards its expectation *)
Theorem C14_loglikelihood_2x2 : forall m i1 i2 j1 j2, nonneg_table m -> has_records m -> enum_rows m [i1; i2] -> enum_cols m [j1; j2] ->
  exists o' : nat -> nat -> R, get_chi2 true m LogLikelihood = Ok (2 * lsum (fun i => lsum (fun j =>
      if Req_EM_T (o' i j) 0 then 0 else o' i j * ln (o' i j / (rowsum m i * colsum m j / matsum m))) [j1; j2]) [i1; i2]) /\
    forall i j, let o := el m i j in let e := rowsum m i * colsum m j / matsum m in
      (Rabs (o - e) <= 1/2 -> o' i j = e) /\ (1/2 < o - e -> o' i j = o - 1/2) /\ (1/2 < e - o -> o' i j = o + 1/2).
Proof.
  intros m i1 i2 j1 j2 HN HR HI HJ. exists (fun i j => yates true (el m i j) (expected m i j)). split.
  - rewrite (stat_2x2 true LogLikelihood m i1 i2 j1 j2 HN HR HI HJ). f_equal. rewrite <- lsum_scal. apply lsum_ext. intros i _. rewrite <- lsum_scal. apply lsum_ext. intros j _. reflexivity.
  - intros i j o e. fold (expected m i j) in e. fold e o. unfold yates, rsign. split; [|split].
    + intros H. rewrite Rabs_minus_sym in H. rewrite Rmin_right by exact H. destruct (Rlt_dec 0 (e - o)); [rewrite Rabs_pos_eq by lra; lra|]. destruct (Rlt_dec (e - o) 0); [rewrite Rabs_left by lra; lra|]. lra.
    + intros H. rewrite Rabs_left by lra. rewrite Rmin_left by lra. destruct (Rlt_dec 0 (e - o)); [lra|]. destruct (Rlt_dec (e - o) 0); lra.
    + intros H. rewrite Rabs_pos_eq by lra. rewrite Rmin_left by lra. destruct (Rlt_dec 0 (e - o)); lra.
Qed.
Print Assumptions C14_chi2_value_2x2.
