(** One variable determines the other: phik is 1.  Positive definite matrices have inverses. *)
From Coq Require Import ZArith List Bool Reals Lra Lia.
Import ListNotations.
From Verif Require Import Base RSum StatsModel SpecStats StatsProofs StatsProofs2 StatsProofs3 SpecSolver BivModel SpecBiv BivProofs BivProofs2 PropsBiv PhikModel SpecPhik PhikProofs Num SpecSpark.
Open Scope R_scope.

Section Determined.
  Variables (m : mat) (g : nat -> nat).
  Hypothesis HN : nonneg_table m. Hypothesis DT : column_determines_row m g. Hypothesis R2 : (1 <= nr m)%nat.
  Lemma det_nz_rows : nz_rows m = idx (nr m).
  Proof.
    unfold nz_rows. destruct DT as (A & B & C).
    assert (H : forall l, (forall i, In i l -> (i < nr m)%nat) -> filter (fun i => negb (forallb (fun j => reqb (el m i j) 0) (idx (nc m)))) l = l).
    { induction l as [|i l IH]; intros H; [reflexivity|]. cbn [filter]. destruct (B i) as (j & Hj & E); [apply H; left; reflexivity|].
      destruct (forallb (fun j => reqb (el m i j) 0) (idx (nc m))) eqn:F.
      - exfalso. rewrite forallb_forall in F. specialize (F j). rewrite reqb_true in F. apply (C i j); [apply H; left; reflexivity|exact Hj|exact E|]. apply F, in_idx. exact Hj.
      - cbn [negb]. f_equal. apply IH. intros; apply H; right; assumption. }
    apply H. intros i Hi. apply in_idx. exact Hi.
  Qed.
  Lemma det_nz_cols : nz_cols m = idx (nc m).
  Proof.
    unfold nz_cols. destruct DT as (A & B & C).
    assert (H : forall l, (forall j, In j l -> (j < nc m)%nat) -> filter (fun j => negb (forallb (fun i => reqb (el m i j) 0) (idx (nr m)))) l = l).
    { induction l as [|j l IH]; intros H; [reflexivity|]. cbn [filter]. assert (Hj : (j < nc m)%nat) by (apply H; left; reflexivity).
      destruct (forallb (fun i => reqb (el m i j) 0) (idx (nr m))) eqn:F.
      - exfalso. rewrite forallb_forall in F. specialize (F (g j)). rewrite reqb_true in F. apply (C (g j) j); [apply A, Hj|exact Hj|reflexivity|]. apply F, in_idx, A, Hj.
      - cbn [negb]. f_equal. apply IH. intros; apply H; right; assumption. }
    apply H. intros i Hi. apply in_idx. exact Hi.
  Qed.
  Lemma det_records : has_records m.
  Proof. destruct DT as (A & B & C). destruct (B 0%nat ltac:(lia)) as (j & Hj & E). exists 0%nat, j. repeat split; [lia|exact Hj|]. apply C; [lia|exact Hj|exact E]. Qed.
  Lemma det_le : (nr m <= nc m)%nat.
  Proof.
    destruct DT as (A & B & C). rewrite <- (seq_length (nr m) 0), <- (seq_length (nc m) 0), <- (map_length g (seq 0 (nc m))). apply NoDup_incl_length; [apply seq_NoDup|].
    intros i Hi. apply in_seq in Hi. destruct (B i ltac:(lia)) as (j & Hj & <-). apply in_map, in_seq. lia.
  Qed.
  Lemma det_colsum : forall i j, (i < nr m)%nat -> (j < nc m)%nat -> g j = i -> colsum m j = el m i j.
  Proof.
    destruct DT as (A & B & C). intros i j Hi Hj E. unfold colsum. rewrite (lsum_support _ Nat.eq_dec _ _ [i]); [unfold lsum; simpl; lra|apply seq_NoDup|repeat constructor; intros []|].
    intros q Hq. rewrite in_seq. simpl. split; [intros H; left|intros [<-|[]]; lia]. assert (g j = q) by (apply C; [lia|exact Hj|exact Hq]). congruence.
  Qed.
  Lemma det_pearson : lsum (fun i => lsum (fun j => pd_term Pearson (el m i j) (expected m i j)) (idx (nc m))) (idx (nr m)) = matsum m * (INR (nr m) - 1).
  Proof.
    pose proof det_records as HR. pose proof (pearson_sum m HN HR) as H. rewrite det_nz_rows, det_nz_cols in H. rewrite H.
    assert (E : lsum (fun i => lsum (fun j => el m i j * el m i j / (rowsum m i * colsum m j)) (idx (nc m))) (idx (nr m)) = INR (nr m)); [|rewrite E; ring].
    rewrite (lsum_ext _ _ (fun _ => 1)); [rewrite lsum_const, idx_length; lra|]. intros i Hi.
    assert (P : 0 < rowsum m i) by (apply nz_row_pos; [exact HN|rewrite det_nz_rows; exact Hi]). apply in_idx in Hi.
    rewrite (lsum_ext _ _ (fun j => / rowsum m i * el m i j)).
    - rewrite lsum_scal. change (/ rowsum m i * rowsum m i = 1). field. lra.
    - intros j Hj. apply in_idx in Hj. destruct (Req_dec (el m i j) 0) as [E|E]; [rewrite E; unfold Rdiv; ring|]. rewrite (det_colsum i j); [field; split; [lra|exact E]|exact Hi|exact Hj|]. apply DT; assumption.
  Qed.
  Lemma det_total : counts m -> INR (nc m) <= matsum m.
  Proof.
    intros CT. unfold matsum, rowsum. rewrite lsum_swap. replace (INR (nc m)) with (lsum (fun _ : nat => 1) (seq 0 (nc m))) by (rewrite lsum_const, seq_length; lra).
    apply lsum_le. intros j Hj. apply in_seq in Hj. destruct DT as (A & B & C). assert (Hj' : (j < nc m)%nat) by lia. change (1 <= colsum m j). rewrite (det_colsum (g j) j) by auto.
    destruct (CT (g j) j); [auto|exact Hj'| |assumption]. exfalso. apply (C (g j) j); auto.
  Qed.
End Determined.

Theorem hist2d_determined : forall L m g b, lib_ok L -> nonneg_table m -> counts m -> column_determines_row m g -> (2 <= nr m)%nat -> (3 <= nc m)%nat -> phik_from_hist2d L m b = Ok 1.
Proof.
  intros L m g b LO HN CT DT K1 K2. assert (K0 : (1 <= nr m)%nat) by lia. pose proof (det_records m g DT K0) as HR. pose proof (det_le m g DT K0) as LE.
  assert (PS : proper_shape m) by (split; lia). rewrite hist2d_closed by assumption. cbn zeta.
  assert (MN : Z.min (Z.of_nat (nr m) - 1) (Z.of_nat (nc m) - 1) = (Z.of_nat (nr m) - 1)%Z) by lia.
  assert (E : stat (l_clamp L) Pearson m (nz_rows m) (nz_cols m) = chi2_max m).
  { unfold stat. rewrite (det_nz_rows m g DT), (det_nz_cols m g DT), !idx_length. destruct (Nat.eqb_spec ((nr m - 1) * (nc m - 1)) 0) as [Z|_]; [nia|].
    unfold stat_term. destruct (Nat.eqb_spec ((nr m - 1) * (nc m - 1)) 1) as [Z|_]; [nia|]. rewrite (det_pearson m g) by assumption. unfold chi2_max. rewrite MN, INR_IZR_INZ, <- minus_IZR. reflexivity. }
  rewrite E. unfold clip. rewrite (proj2 (rltb_false _ _)) by lra. cbn [andb].
  assert (P : pedestal_of m b < chi2_max m).
  { unfold pedestal_of. destruct b; [|apply chi2_max_pos; assumption]. pose proof (simple_ndof_bounds m HN HR) as [_ U]. apply Rle_lt_trans with (IZR (theoretical_ndof m)); [apply IZR_le, U|].
    rewrite theoretical_ndof_form by assumption. unfold chi2_max. rewrite MN, mult_IZR, (Rmult_comm (matsum m)).
    pose proof (det_total m g DT K0 CT) as T. rewrite INR_IZR_INZ in T. assert (0 < IZR (Z.of_nat (nr m) - 1)) by (apply IZR_lt; lia). apply Rmult_lt_compat_l; [assumption|]. rewrite minus_IZR. lra. }
  rewrite (proj2 (rleb_false _ _)) by lra. rewrite (proj2 (rleb_true _ _)) by lra. reflexivity.
Qed.

(** * Linear systems with a positive definite matrix have solutions *)
Lemma lsum_S : forall n (f : nat -> R), lsum f (seq 0 (S n)) = f 0%nat + lsum (fun k => f (S k)) (seq 0 n).
Proof. intros. cbn [seq]. rewrite lsum_cons. f_equal. rewrite <- seq_shift, lsum_map. reflexivity. Qed.
Lemma quad_S : forall n V x, symmetric (S n) V -> quad (S n) V x = V 0%nat 0%nat * x 0%nat * x 0%nat + 2 * x 0%nat * lsum (fun k => V 0%nat (S k) * x (S k)) (seq 0 n) + quad n (fun i j => V (S i) (S j)) (fun k => x (S k)).
Proof.
  intros n V x SY. unfold quad. rewrite lsum_S, lsum_S.
  rewrite (lsum_ext _ (fun k => lsum (fun j => x (S k) * V (S k) j * x j) (seq 0 (S n))) (fun k => x 0%nat * (V 0%nat (S k) * x (S k)) + lsum (fun j => x (S k) * V (S k) (S j) * x (S j)) (seq 0 n))).
  - rewrite lsum_plus, lsum_scal. rewrite (lsum_ext _ (fun k => x 0%nat * V 0%nat (S k) * x (S k)) (fun k => x 0%nat * (V 0%nat (S k) * x (S k)))) by (intros; ring). rewrite lsum_scal. ring.
  - intros k Hk. apply in_seq in Hk. rewrite lsum_S. rewrite (SY 0%nat (S k)) by lia. ring.
Qed.
Lemma pd_solve : forall n V, symmetric n V -> positive_definite n V -> forall y, exists x, forall i, (i < n)%nat -> lsum (fun k => V i k * x k) (seq 0 n) = y i.
Proof.
  induction n as [|n IH]; intros V SY PD y; [exists (fun _ => 0); intros; lia|].
  set (a := V 0%nat 0%nat). set (b := fun k => V 0%nat (S k)). set (S' := fun i k => V (S i) (S k) - b i * b k / a).
  assert (A : 0 < a).
  { assert (P : 0 < quad (S n) V (fun k => if Nat.eqb k 0 then 1 else 0)) by (apply PD; exists 0%nat; split; [lia|]; simpl; lra). rewrite quad_S in P by exact SY. cbn [Nat.eqb] in P.
    unfold quad in P. rewrite (lsum_0 _ (fun k => V 0%nat (S k) * 0)) in P by (intros; ring). rewrite (lsum_0 _ (fun i => lsum _ _)) in P by (intros; apply lsum_0; intros; ring). unfold a. lra. }
  assert (BB : forall x, lsum (fun i => lsum (fun j => x i * (b i * b j / a) * x j) (seq 0 n)) (seq 0 n) = lsum (fun k => b k * x k) (seq 0 n) * lsum (fun k => b k * x k) (seq 0 n) / a).
  { intros x. rewrite (lsum_ext _ _ (fun i => (b i * x i) * (lsum (fun k => b k * x k) (seq 0 n) / a))).
    - rewrite lsum_scal_r. field. lra.
    - intros i _. rewrite (lsum_ext _ _ (fun j => (x i * b i / a) * (b j * x j))) by (intros; field; lra). rewrite lsum_scal. field. lra. }
  assert (QS : forall x, quad n S' x = quad n (fun i j => V (S i) (S j)) x - lsum (fun k => b k * x k) (seq 0 n) * lsum (fun k => b k * x k) (seq 0 n) / a).
  { intros x. rewrite <- BB. unfold quad. rewrite <- lsum_minus. apply lsum_ext. intros i _. rewrite <- lsum_minus. apply lsum_ext. intros j _. unfold S'. ring. }
  assert (SYS : symmetric n S') by (intros i j Hi Hj; unfold S'; rewrite (SY (S i) (S j)) by lia; field; lra).
  assert (PDS : positive_definite n S').
  { intros x (i & Hi & Ne). set (B := lsum (fun k => b k * x k) (seq 0 n)).
    assert (P : 0 < quad (S n) V (fun k => match k with 0%nat => - B / a | S k => x k end)) by (apply PD; exists (S i); split; [lia|exact Ne]).
    rewrite quad_S in P by exact SY. fold a in P. fold B in P. cbn beta iota in P. change (lsum (fun k => V 0%nat (S k) * x k) (seq 0 n)) with B in P. rewrite QS. fold B.
    change (quad n (fun i j => V (S i) (S j)) (fun k => x k)) with (quad n (fun i j => V (S i) (S j)) x) in P. assert (E : a * (- B / a) * (- B / a) + 2 * (- B / a) * B = - (B * B / a)) by (field; lra). lra. }
  destruct (IH S' SYS PDS (fun i => y (S i) - b i * y 0%nat / a)) as (x & Hx). set (B := lsum (fun k => b k * x k) (seq 0 n)).
  exists (fun k => match k with 0%nat => (y 0%nat - B) / a | S k => x k end). intros i Hi. rewrite lsum_S. destruct i as [|i].
  - fold a. change (lsum (fun k => V 0%nat (S k) * x k) (seq 0 n)) with B. field. lra.
  - specialize (Hx i ltac:(lia)). unfold S' in Hx. rewrite (lsum_ext _ _ (fun k => V (S i) (S k) * x k - (b i / a) * (b k * x k))) in Hx by (intros; field; lra). rewrite lsum_minus, lsum_scal in Hx. fold B in Hx.
    rewrite (SY (S i) 0%nat) by lia. change (V 0%nat (S i)) with (b i). replace (lsum (fun k => V (S i) (S k) * x k) (seq 0 n)) with (y (S i) - b i * y 0%nat / a + b i / a * B) by lra. field. lra.
Qed.
Lemma finite_choice : forall A (P : nat -> A -> Prop) (d : A) n, (forall j, (j < n)%nat -> exists x, P j x) -> exists w : nat -> A, forall j, (j < n)%nat -> P j (w j).
Proof.
  intros A P d n. induction n as [|n IH]; intros H; [exists (fun _ => d); intros; lia|].
  destruct IH as (w & Hw); [intros; apply H; lia|]. destruct (H n ltac:(lia)) as (x & Hx). exists (fun j => if Nat.eqb j n then x else w j). intros j Hj. destruct (Nat.eqb_spec j n) as [->|N]; [exact Hx|]. apply Hw. lia.
Qed.
Theorem pd_inverse : forall n V, symmetric n V -> positive_definite n V -> exists W, right_inverse n V W.
Proof.
  intros n V SY PD. destruct (finite_choice (nat -> R) (fun j x => forall i, (i < n)%nat -> lsum (fun k => V i k * x k) (seq 0 n) = if Nat.eqb i j then 1 else 0) (fun _ => 0) n) as (w & Hw).
  - intros j Hj. apply (pd_solve n V SY PD (fun i => if Nat.eqb i j then 1 else 0)).
  - exists (fun k j => w j k). intros i j Hi Hj. exact (Hw j Hj i Hi).
Qed.
