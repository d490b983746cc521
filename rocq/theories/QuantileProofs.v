From Coq Require Import List Reals ZArith Lia Lra Permutation Sorting.Sorted.
Import ListNotations.
From Verif Require Import QuantileModel SpecQuantile.
Open Scope R_scope.

Lemma rinsert_perm : forall x l, Permutation (x :: l) (rinsert x l).
Proof.
  induction l as [|y l IH]; simpl; [auto|]. destruct (Rle_dec x y); [auto|].
  apply perm_trans with (y :: x :: l); [apply perm_swap|]. apply perm_skip, IH.
Qed.
Lemma rsort_perm : forall l, Permutation l (rsort l).
Proof.
  induction l as [|x l IH]; simpl; [auto|]. apply perm_trans with (x :: rsort l); [apply perm_skip, IH|apply rinsert_perm].
Qed.
Lemma rinsert_sorted : forall x l, StronglySorted Rle l -> StronglySorted Rle (rinsert x l).
Proof.
  induction 1 as [|y l H IH HF]; simpl; [repeat constructor|].
  destruct (Rle_dec x y) as [Hxy|Hxy].
  - constructor; [constructor; assumption|]. constructor; [exact Hxy|].
    eapply Forall_impl; [|exact HF]. intros z Hz. simpl in Hz. lra.
  - constructor; [exact IH|]. apply Forall_forall. intros z Hz.
    apply (Permutation_in z (Permutation_sym (rinsert_perm x l))) in Hz.
    destruct Hz as [<-|Hz]; [lra|]. rewrite Forall_forall in HF. apply HF. exact Hz.
Qed.
Lemma rsort_sorted : forall l, StronglySorted Rle (rsort l).
Proof. induction l as [|x l IH]; simpl; [constructor|apply rinsert_sorted, IH]. Qed.

Lemma sorted_nth : forall l i j, StronglySorted Rle l -> (i <= j < length l)%nat -> nth i l 0 <= nth j l 0.
Proof.
  intros l i j H. revert i j. induction H as [|x l H IH HF]; simpl; intros i j Hij; [lia|].
  destruct i as [|i], j as [|j]; try lia; [lra| |apply IH; lia].
  rewrite Forall_forall in HF. apply HF. apply nth_In. lia.
Qed.

Lemma count_le_perm : forall l l' x, Permutation l l' -> count_le l x = count_le l' x.
Proof.
  intros l l' x H. unfold count_le. induction H; simpl; try congruence.
  - destruct (Rle_dec x0 x); simpl; congruence.
  - destruct (Rle_dec x0 x), (Rle_dec y x); simpl; congruence.
Qed.
Lemma count_lt_perm : forall l l' x, Permutation l l' -> count_lt l x = count_lt l' x.
Proof.
  intros l l' x H. unfold count_lt. induction H; simpl; try congruence.
  - destruct (Rlt_dec x0 x); simpl; congruence.
  - destruct (Rlt_dec x0 x), (Rlt_dec y x); simpl; congruence.
Qed.
Lemma count_le_nth : forall l x j, (j < length l)%nat -> (forall i, (i <= j)%nat -> nth i l 0 <= x) -> (j + 1 <= count_le l x)%nat.
Proof.
  unfold count_le. induction l as [|a l IH]; simpl; intros x j Hj H; [lia|].
  destruct (Rle_dec a x) as [Ha|Ha].
  - simpl. destruct j as [|j]; [lia|]. specialize (IH x j ltac:(lia)). 
    assert (j + 1 <= length (filter (fun v => if Rle_dec v x then true else false) l))%nat; [|lia].
    apply IH. intros i Hi. apply (H (S i)). lia.
  - exfalso. apply Ha. apply (H 0%nat). lia.
Qed.
Lemma count_lt_nth : forall l x j, (forall i, (j <= i < length l)%nat -> x <= nth i l 0) -> (count_lt l x <= j)%nat.
Proof.
  unfold count_lt. induction l as [|a l IH]; simpl; intros x j H; [lia|].
  destruct j as [|j].
  - destruct (Rlt_dec a x) as [Ha|Ha]; [exfalso; specialize (H 0%nat ltac:(lia)); simpl in H; lra|].
    apply IH. intros i Hi. apply (H (S i)). lia.
  - assert (length (filter (fun v => if Rlt_dec v x then true else false) l) <= j)%nat.
    { apply IH. intros i Hi. apply (H (S i)). lia. }
    destruct (Rlt_dec a x); simpl; lia.
Qed.

Lemma Int_part_div : forall a b : Z, (0 < b)%Z -> Int_part (IZR a / IZR b) = (a / b)%Z.
Proof.
  intros a b Hb. assert (HB : 0 < IZR b) by (apply IZR_lt; exact Hb).
  unfold Int_part. assert (E : (a / b + 1)%Z = up (IZR a / IZR b)).
  { apply tech_up.
    - apply Rmult_lt_reg_r with (IZR b); [exact HB|]. unfold Rdiv. rewrite Rmult_assoc, Rinv_l, Rmult_1_r by lra.
      rewrite <- mult_IZR. apply IZR_lt. generalize (Z.div_mod a b) (Z.mod_pos_bound a b). nia.
    - apply Rmult_le_reg_r with (IZR b); [exact HB|]. unfold Rdiv. rewrite Rmult_plus_distr_r, Rmult_assoc, Rinv_l, Rmult_1_r by lra.
      rewrite Rmult_1_l, <- mult_IZR, <- plus_IZR. apply IZR_le. generalize (Z.div_mod a b) (Z.mod_pos_bound a b). nia. }
  rewrite <- E. lia.
Qed.

Section Q.
Variables (vals : list R) (nb : nat).
Hypothesis Hv : vals <> [].
Hypothesis Hb : (1 <= nb)%nat.
Let n1 := (length vals - 1)%nat.
Let a := rsort vals.
Let jj (k : nat) := (k * n1 / nb)%nat.
Let qk (k : nat) := np_quantile1 vals (INR k / INR nb).

Lemma q_len : length a = (n1 + 1)%nat.
Proof.
  unfold a, n1. rewrite <- (Permutation_length (rsort_perm vals)). destruct vals; [contradiction|simpl; lia].
Qed.

Lemma q_val : forall k, (k <= nb)%nat -> exists g, 0 <= g < 1 /\ (k = nb -> g = 0) /\ (k = 0%nat -> g = 0) /\ (jj k <= n1)%nat /\
  INR (jj k) + g = INR n1 * (INR k / INR nb) /\
  qk k = nth (jj k) a 0 + g * (nth (Nat.min (jj k + 1) n1) a 0 - nth (jj k) a 0).
Proof.
  intros k Hk. assert (HB : 0 < INR nb) by (apply lt_0_INR; lia).
  assert (Hj : (jj k <= n1)%nat).
  { unfold jj. replace n1 with (nb * n1 / nb)%nat at 2 by (rewrite Nat.mul_comm; apply Nat.div_mul; lia).
    apply Nat.div_le_mono; [lia|]. apply Nat.mul_le_mono_r. exact Hk. }
  assert (HI : Int_part (INR n1 * (INR k / INR nb)) = Z.of_nat (jj k)).
  { replace (INR n1 * (INR k / INR nb)) with (IZR (Z.of_nat (k * n1)) / IZR (Z.of_nat nb)).
    - rewrite Int_part_div by lia. unfold jj. rewrite Nat2Z.inj_div. reflexivity.
    - rewrite <- !INR_IZR_INZ, mult_INR. field. lra. }
  exists (INR n1 * (INR k / INR nb) - INR (jj k)).
  assert (HG : 0 <= INR n1 * (INR k / INR nb) - INR (jj k) < 1).
  { destruct (base_Int_part (INR n1 * (INR k / INR nb))) as [P1 P2]. rewrite HI, <- INR_IZR_INZ in P1, P2. lra. }
  repeat split; try lra; try exact Hj.
  - intros ->. unfold jj. rewrite Nat.mul_comm, Nat.div_mul by lia. field. lra.
  - intros ->. unfold jj. simpl. rewrite Nat.div_0_l by lia. simpl. unfold Rdiv. ring.
  - unfold qk, np_quantile1. fold n1 a. rewrite HI, Nat2Z.id. rewrite (Nat.min_l (jj k) n1) by lia. reflexivity.
Qed.

Lemma a_mono : forall i j, (i <= j <= n1)%nat -> nth i a 0 <= nth j a 0.
Proof. intros i j H. apply sorted_nth; [apply rsort_sorted|fold a; rewrite q_len; lia]. Qed.

Lemma q_between : forall k, (k <= nb)%nat -> nth (jj k) a 0 <= qk k <= nth (Nat.min (jj k + 1) n1) a 0.
Proof.
  intros k Hk. destruct (q_val k Hk) as (g & G & _ & _ & Hj & _ & ->).
  assert (H := a_mono (jj k) (Nat.min (jj k + 1) n1) ltac:(lia)). nra.
Qed.

Lemma q_mono : forall k l, (k <= l <= nb)%nat -> qk k <= qk l.
Proof.
  intros k l H. assert (Hkl : (jj k <= jj l)%nat) by (apply Nat.div_le_mono; [lia|apply Nat.mul_le_mono_r; lia]).
  destruct (Nat.eq_dec (jj k) (jj l)) as [E|E].
  - destruct (q_val k) as (g & G & _ & _ & Hj & Eg & ->); [lia|]. destruct (q_val l) as (g' & G' & _ & _ & Hj' & Eg' & ->); [lia|].
    rewrite <- E in *. assert (Hm := a_mono (jj k) (Nat.min (jj k + 1) n1) ltac:(lia)).
    assert (HB : 0 < INR nb) by (apply lt_0_INR; lia).
    assert (Hg : g <= g').
    { assert (INR n1 * (INR k / INR nb) <= INR n1 * (INR l / INR nb)); [|lra].
      apply Rmult_le_compat_l; [apply pos_INR|]. apply Rmult_le_compat_r; [left; apply Rinv_0_lt_compat; exact HB|apply le_INR; lia]. }
    nra.
  - destruct (q_val l) as (g' & _ & _ & _ & Hj' & _ & _); [lia|].
    apply Rle_trans with (nth (Nat.min (jj k + 1) n1) a 0); [apply q_between; lia|].
    apply Rle_trans with (nth (jj l) a 0); [apply a_mono; lia|apply q_between; lia].
Qed.

Lemma q_min : qk 0 = nth 0 a 0.
Proof. destruct (q_val 0) as (g & _ & _ & G0 & _ & _ & ->); [lia|]. rewrite G0 by reflexivity. unfold jj. simpl. rewrite Nat.div_0_l by lia. ring. Qed.
Lemma q_max : qk nb = nth n1 a 0.
Proof. destruct (q_val nb) as (g & _ & G0 & _ & _ & _ & ->); [lia|]. rewrite G0 by reflexivity. unfold jj. rewrite Nat.mul_comm, Nat.div_mul by lia. ring. Qed.

Lemma a_bounds : forall v, In v vals -> nth 0 a 0 <= v <= nth n1 a 0.
Proof.
  intros v H. apply (Permutation_in v (rsort_perm vals)) in H. fold a in H.
  apply In_nth with (d := 0) in H. destruct H as (i & Hi & <-). rewrite q_len in Hi.
  split; apply a_mono; lia.
Qed.
Lemma a_in : forall i, (i <= n1)%nat -> In (nth i a 0) vals.
Proof.
  intros i Hi. apply (Permutation_in _ (Permutation_sym (rsort_perm vals))). fold a. apply nth_In. rewrite q_len. lia.
Qed.

Variable off : R.
Hypothesis Hoff : 0 < off.
Let e := quantile_edges off vals nb.

Lemma e_nth : forall k, (k <= nb)%nat -> nth k e 0 = if Nat.eqb k 0 then qk 0 - off else qk k.
Proof.
  intros k Hk. unfold e, quantile_edges, quantile_points.
  replace (nb + 1)%nat with (S nb) by lia. cbn [seq map].
  destruct k as [|k]; cbn [nth Nat.eqb]; [reflexivity|].
  rewrite map_map. rewrite nth_indep with (d' := np_quantile1 vals (INR 0 / INR nb)) by (rewrite map_length, seq_length; lia).
  rewrite (map_nth (fun k => np_quantile1 vals (INR k / INR nb))). rewrite seq_nth by lia. reflexivity.
Qed.
Lemma e_len : length e = (nb + 1)%nat.
Proof.
  unfold e, quantile_edges, quantile_points. replace (nb + 1)%nat with (S nb) by lia. cbn [seq map length].
  rewrite !map_length, seq_length. reflexivity.
Qed.

Lemma quantile_edges_spec :
  length e = (nb + 1)%nat /\
  (forall i j, (i <= j <= nb)%nat -> nth i e 0 <= nth j e 0) /\
  (exists mn mx, is_min vals mn /\ is_max vals mx /\ nth 0 e 0 = mn - off /\ nth nb e 0 = mx) /\
  (forall v, In v vals -> exists i, (1 <= i <= nb)%nat /\ nth (i - 1) e 0 < v <= nth i e 0) /\
  (forall k, (1 <= k <= nb)%nat ->
     (k * (length vals - 1) / nb + 1 <= count_le vals (nth k e 0%R))%nat /\
     (count_lt vals (nth k e 0%R) <= k * (length vals - 1) / nb + 1)%nat).
Proof.
  split; [exact e_len|].
  assert (HM : forall i j, (i <= j <= nb)%nat -> nth i e 0 <= nth j e 0).
  { intros i j H. rewrite !e_nth by lia. assert (Hq := q_mono i j H).
    destruct (Nat.eqb_spec i 0) as [->|Hi]; destruct (Nat.eqb_spec j 0) as [->|Hj]; try lra. lia. }
  split; [exact HM|]. split; [|split].
  - exists (nth 0 a 0), (nth n1 a 0). repeat split; try (apply a_in; lia); try (intros v Hv'; apply a_bounds; exact Hv').
    + rewrite e_nth by lia. simpl. rewrite q_min. reflexivity.
    + rewrite e_nth by lia. destruct (Nat.eqb_spec nb 0); [lia|]. apply q_max.
  - intros v Hin. assert (B := a_bounds v Hin).
    assert (H0 : nth 0 e 0 < v) by (rewrite e_nth by lia; simpl; rewrite q_min; lra).
    assert (H1 : v <= nth nb e 0) by (rewrite e_nth by lia; destruct (Nat.eqb_spec nb 0); [lia|rewrite q_max; lra]).
    clear - H0 H1. revert H1. generalize nb as m. induction m as [|m IH]; intros H1; [lra|].
    destruct (Rle_dec v (nth m e 0)) as [H|H].
    + destruct (IH H) as (i & Hi & Hb'). exists i. split; [lia|exact Hb'].
    + exists (S m). split; [lia|]. replace (S m - 1)%nat with m by lia. lra.
  - intros k Hk. fold n1. fold (jj k). rewrite e_nth by lia. destruct (Nat.eqb_spec k 0); [lia|].
    destruct (q_val k) as (_ & _ & _ & _ & Hj & _ & _); [lia|].
    destruct (q_between k) as [Q1 Q2]; [lia|].
    rewrite (count_le_perm _ _ _ (rsort_perm vals)), (count_lt_perm _ _ _ (rsort_perm vals)). fold a. split.
    + apply count_le_nth; [rewrite q_len; lia|]. intros i Hi. apply Rle_trans with (2 := Q1). apply a_mono. lia.
    + apply count_lt_nth. intros i Hi. rewrite q_len in Hi. apply Rle_trans with (1 := Q2). apply a_mono. lia.
Qed.
End Q.
