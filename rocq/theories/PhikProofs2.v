From Coq Require Import ZArith List Reals Lra Lia Bool Sorting.Permutation Psatz.
From Verif Require Import Base RSum StatsModel SpecStats StatsProofs StatsProofs2 StatsProofs3 SpecSolver SpecBiv BivModel BivProofs BivProofs2 PropsBiv HistModel PhikModel SpecPhik PhikProofs.
Import ListNotations.
Open Scope R_scope.

(** * Two identical binary variables *)
Lemma yates_resid : forall k o e d, 1/2 <= d -> e - o = d \/ e - o = - d -> (yates k o e - e) * (yates k o e - e) = (d - 1/2) * (d - 1/2) /\ (o - e) * (o - e) = d * d.
Proof.
  intros k o e d Hd H. assert (Q : (if k then Rmin (1/2) (Rabs (e - o)) else 1/2) = 1/2).
  { destruct k; [|reflexivity]. apply Rmin_left. destruct H as [->| ->]; [rewrite Rabs_pos_eq; lra|rewrite Rabs_left; lra]. }
  unfold yates. rewrite Q. unfold rsign. destruct H as [H|H]; rewrite H.
  - destruct (Rlt_dec 0 d); [|lra]. split; [replace o with (e - d) by lra; ring|replace o with (e - d) by lra; ring].
  - destruct (Rlt_dec 0 (- d)); [lra|]. destruct (Rlt_dec (- d) 0); [|lra]. split; replace o with (e + d) by lra; ring.
Qed.

Lemma perfect2_chi2 : forall k m, nonneg_table m -> perfect_association m 2 -> counts m ->
  let w i := rowsum m i in matsum m = w 0%nat + w 1%nat /\ 1 <= w 0%nat /\ 1 <= w 1%nat /\
  stat k Pearson m (nz_rows m) (nz_cols m) = matsum m * (1 - matsum m / (2 * w 0%nat * w 1%nat)) ^ 2.
Proof.
  intros k m HN PA CT w. assert (Q := PA). destruct Q as (A & B & C & D). pose proof (perfect_pearson m 2 HN PA ltac:(lia)) as PP.
  assert (M : matsum m = w 0%nat + w 1%nat) by (unfold matsum, w; rewrite A; unfold lsum; simpl; ring).
  assert (W : forall i, (i < 2)%nat -> 1 <= w i).
  { intros i Hi. destruct (C i Hi) as (j & Hj & E & _). unfold w. rewrite (perfect_rowsum m 2 i j PA Hi Hj E). destruct (CT i j); [lia|lia|contradiction|assumption]. }
  pose proof (W 0%nat ltac:(lia)) as W0. pose proof (W 1%nat ltac:(lia)) as W1. split; [exact M|]. split; [exact W0|]. split; [exact W1|].
  set (d := w 0%nat * w 1%nat / matsum m).
  assert (MP : 0 < matsum m) by lra.
  assert (Hd : 1/2 <= d). { unfold d. apply Rmult_le_reg_r with (matsum m); [exact MP|]. unfold Rdiv at 2. rewrite Rmult_assoc, Rinv_l by lra. rewrite M. clear - W0 W1. nra. }
  assert (R00 : expected m 0 0 - el m 0 0 = d \/ expected m 0 0 - el m 0 0 = - d).
  { unfold expected. fold (w 0%nat). destruct (Req_dec (el m 0 0) 0) as [Z|Z].
    - left. destruct (D 0%nat ltac:(lia)) as (i & Hi & E & U). destruct i as [|[|i]]; [contradiction| |lia].
      rewrite (perfect_colsum m 2 1 0 PA) by (assumption || lia). unfold d, w. rewrite (perfect_rowsum m 2 1 0 PA) by (assumption || lia). rewrite Z. fold (w 0%nat). field. lra.
    - right. assert (E : el m 0 0 = w 0%nat) by (unfold w; rewrite (perfect_rowsum m 2 0 0 PA) by (assumption || lia); reflexivity).
      rewrite (perfect_colsum m 2 0 0 PA) by (assumption || lia). rewrite E. unfold d. rewrite M in *. field. lra. }
  pose proof (resid2 m HN (perfect_records m 2 PA ltac:(lia))) as RS. rewrite (perfect_nz_rows m 2 PA), (perfect_nz_cols m 2 PA) in *. specialize (RS eq_refl eq_refl). cbn [nth idx seq] in RS. destruct RS as (R1 & R2 & R3).
  assert (RA : forall i j, (i < 2)%nat -> (j < 2)%nat -> expected m i j - el m i j = d \/ expected m i j - el m i j = - d).
  { intros i j Hi Hj. destruct i as [|[|i]]; [| |lia]; (destruct j as [|[|j]]; [| |lia]); try exact R00; rewrite ?R1, ?R2, ?R3; destruct R00 as [->| ->]; lra. }
  unfold stat. cbn [idx seq length Nat.sub Nat.mul Nat.eqb].
  transitivity (lsum (fun i => lsum (fun j => (1 - / (2 * d)) ^ 2 * pd_term Pearson (el m i j) (expected m i j)) (idx 2)) (idx 2)).
  - apply lsum_ext. intros i Hi. apply in_idx in Hi. apply lsum_ext. intros j Hj. apply in_idx in Hj. unfold stat_term. cbn [Nat.eqb]. destruct (yates_resid k (el m i j) (expected m i j) d Hd (RA i j Hi Hj)) as [Y1 Y2].
    change (1 + 0 =? 1)%nat with true. cbn match. unfold pd_term, Rdiv. rewrite Y1, Y2. rewrite <- Rmult_assoc. f_equal. field. lra.
  - rewrite (lsum_ext _ _ (fun i => (1 - / (2 * d)) ^ 2 * lsum (fun j => pd_term Pearson (el m i j) (expected m i j)) (idx 2))) by (intros; apply lsum_scal). rewrite lsum_scal, PP. unfold d. simpl INR. field. lra.
Qed.
