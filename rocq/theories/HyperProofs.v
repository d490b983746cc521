(** Binomial coefficients and the hypergeometric probabilities. *)
From Coq Require Import ZArith List Reals Lia Lra Arith Permutation.
Import ListNotations.
From Verif Require Import SpecRcont SpecTableDist RSum.
Open Scope R_scope.

Fixpoint bin (n k : nat) : nat :=
  match n, k with
  | _, O => 1
  | O, S _ => 0
  | S n', S k' => bin n' k' + bin n' k
  end%nat.

Lemma bin_0 : forall n, bin n 0 = 1%nat.
Proof. destruct n; reflexivity. Qed.
Lemma bin_big : forall n k, (n < k)%nat -> bin n k = 0%nat.
Proof. induction n as [|n IH]; intros [|k] H; try lia; simpl; [reflexivity|]. rewrite !IH by lia. reflexivity. Qed.
Lemma bin_nn : forall n, bin n n = 1%nat.
Proof. induction n as [|n IH]; simpl; [reflexivity|]. rewrite IH, bin_big by lia. reflexivity. Qed.
Lemma bin_fact : forall n k, (k <= n)%nat -> (bin n k * (fact k * fact (n - k)) = fact n)%nat.
Proof.
  induction n as [|n IH]; intros k H.
  { assert (k = 0)%nat by lia. subst. reflexivity. }
  destruct k as [|k].
  { simpl. lia. }
  destruct (Nat.eq_dec k n) as [->|Hne].
  { rewrite bin_nn, Nat.sub_diag. cbn [fact]. lia. }
  cbn [bin]. pose proof (IH k ltac:(lia)) as H1. pose proof (IH (S k) ltac:(lia)) as H2.
  replace (S n - S k)%nat with (n - k)%nat by lia.
  replace (fact (n - k)) with ((n - k) * fact (n - S k))%nat in *
    by (replace (n - k)%nat with (S (n - S k)) by lia; reflexivity).
  change (fact (S n)) with (S n * fact n)%nat. change (fact (S k)) with (S k * fact k)%nat in *.
  set (B1 := bin n k) in *. set (B2 := bin n (S k)) in *. set (Fk := fact k) in *. set (Fr := fact (n - S k)) in *. set (Fn := fact n) in *.
  assert (S n = S k + (n - k))%nat as -> by lia.
  set (w := (n - k)%nat) in *. nia.
Qed.

(** Vandermonde *)
Fixpoint nsum (f : nat -> nat) (n : nat) : nat := match n with O => f O | S n' => nsum f n' + f n end%nat.
Lemma nsum_ext : forall f g n, (forall k, (k <= n)%nat -> f k = g k) -> nsum f n = nsum g n.
Proof. induction n as [|n IH]; intros H; simpl; [apply H; lia|]. rewrite IH, H by (intros; try apply H; lia). reflexivity. Qed.
Lemma nsum_add : forall f g n, nsum (fun k => f k + g k)%nat n = (nsum f n + nsum g n)%nat.
Proof. induction n as [|n IH]; simpl; [reflexivity|]. rewrite IH. lia. Qed.
Lemma nsum_shift : forall f n, nsum f (S n) = (f O + nsum (fun k => f (S k)) n)%nat.
Proof. induction n as [|n IH]; [reflexivity|]. cbn [nsum] in *. lia. Qed.

Lemma vandermonde : forall a b d, nsum (fun k => bin a k * bin b (d - k))%nat d = bin (a + b) d.
Proof.
  induction a as [|a IH]; intros b d.
  { destruct d as [|d]; [simpl; rewrite bin_0; reflexivity|].
    rewrite nsum_shift. cbn [plus]. rewrite (nsum_ext _ (fun _ => 0)%nat) by (intros; reflexivity).
    rewrite Nat.sub_0_r, bin_0. replace (nsum (fun _ => 0%nat) d) with 0%nat; [lia|]. clear. induction d; simpl; lia. }
  destruct d as [|d]; [simpl; rewrite bin_0; reflexivity|].
  rewrite nsum_shift. rewrite (nsum_ext _ (fun k => bin a k * bin b (d - k) + bin a (S k) * bin b (d - k))%nat).
  2:{ intros k Hk. cbn [bin]. replace (S d - S k)%nat with (d - k)%nat by lia. lia. }
  rewrite nsum_add, IH. cbn [plus bin]. rewrite <- (IH b (S d)). rewrite nsum_shift.
  rewrite !bin_0. replace (nsum (fun k => (bin a (S k) * bin b (S d - S k))%nat) d) with (nsum (fun k => (bin a (S k) * bin b (d - k))%nat) d).
  2:{ apply nsum_ext. intros k Hk. replace (S d - S k)%nat with (d - k)%nat by lia. reflexivity. }
  lia.
Qed.

Lemma zfact_pos : forall z, 0 < zfact z.
Proof. intros z. unfold zfact. apply lt_0_INR. apply lt_O_fact. Qed.

Lemma zfact_succ : forall z, (0 <= z)%Z -> zfact (z + 1) = (IZR z + 1) * zfact z.
Proof.
  intros z H. unfold zfact. replace (Z.to_nat (z + 1)) with (S (Z.to_nat z)) by lia.
  cbn [fact]. change (fact (Z.to_nat z) + Z.to_nat z * fact (Z.to_nat z))%nat with (S (Z.to_nat z) * fact (Z.to_nat z))%nat.
  rewrite mult_INR, S_INR, INR_IZR_INZ, Z2Nat.id by lia. reflexivity.
Qed.

(** binomial coefficient as a real number *)
Definition zbin (n k : Z) : R := zfact n / (zfact k * zfact (n - k)).

Lemma zbin_pos : forall n k, 0 < zbin n k.
Proof. intros n k. unfold zbin. apply Rdiv_lt_0_compat; [apply zfact_pos|]. apply Rmult_lt_0_compat; apply zfact_pos. Qed.

Lemma zbin_bin : forall n k, (0 <= k <= n)%Z -> zbin n k = INR (bin (Z.to_nat n) (Z.to_nat k)).
Proof.
  intros n k H. unfold zbin, zfact. rewrite <- (bin_fact (Z.to_nat n) (Z.to_nat k)) by lia.
  rewrite Z2Nat.inj_sub by lia. rewrite !mult_INR. field.
  split; apply not_0_INR; apply fact_neq_0.
Qed.

(** probability that [a] draws without replacement from [e] items, [d] of which are marked, give [n] marked ones;
    in the form the program computes it *)
Definition hyper (a d e n : Z) : R :=
  zfact a * zfact (e - a) * zfact (e - d) * zfact d
  / (zfact e * zfact n * zfact (d - n) * zfact (a - n) * zfact (e - a - d + n)).

Definition hlo (a d e : Z) : Z := Z.max 0 (a + d - e).
Definition hhi (a d : Z) : Z := Z.min a d.

Lemma hyper_pos : forall a d e n, 0 < hyper a d e n.
Proof.
  intros. unfold hyper. apply Rdiv_lt_0_compat; repeat apply Rmult_lt_0_compat; apply zfact_pos.
Qed.

Lemma hyper_bin : forall a d e n, hyper a d e n = zbin d n * zbin (e - d) (a - n) / zbin e a.
Proof.
  intros a d e n. unfold hyper, zbin. replace (e - d - (a - n))%Z with (e - a - d + n)%Z by lia.
  pose proof (zfact_pos a). pose proof (zfact_pos (e - a)). pose proof (zfact_pos (e - d)). pose proof (zfact_pos d).
  pose proof (zfact_pos e). pose proof (zfact_pos n). pose proof (zfact_pos (d - n)). pose proof (zfact_pos (a - n)).
  pose proof (zfact_pos (e - a - d + n)). field. repeat split; lra.
Qed.

Lemma hyper_up : forall a d e n, (hlo a d e <= n < hhi a d)%Z ->
  hyper a d e (n + 1) = hyper a d e n * IZR ((d - n) * (a - n)) / IZR ((n + 1) * (e - a - d + (n + 1))).
Proof.
  intros a d e n H. unfold hlo, hhi in H. unfold hyper.
  rewrite (zfact_succ n) by lia.
  replace (e - a - d + (n + 1))%Z with ((e - a - d + n) + 1)%Z by lia. rewrite (zfact_succ (e - a - d + n)) by lia.
  replace (d - n)%Z with ((d - (n + 1)) + 1)%Z by lia. rewrite (zfact_succ (d - (n + 1))) by lia.
  replace (a - n)%Z with ((a - (n + 1)) + 1)%Z by lia. rewrite (zfact_succ (a - (n + 1))) by lia.
  rewrite !mult_IZR. rewrite (plus_IZR n 1), (plus_IZR (e - a - d + n) 1), (plus_IZR (d - (n + 1)) 1), (plus_IZR (a - (n + 1)) 1).
  assert (0 <= IZR n) by (apply IZR_le; lia). assert (0 <= IZR (e - a - d + n)) by (apply IZR_le; lia).
  assert (0 <= IZR (d - (n + 1))) by (apply IZR_le; lia). assert (0 <= IZR (a - (n + 1))) by (apply IZR_le; lia).
  pose proof (zfact_pos e). pose proof (zfact_pos n). pose proof (zfact_pos (d - (n + 1))). pose proof (zfact_pos (a - (n + 1))).
  pose proof (zfact_pos (e - a - d + n)). field. repeat split; lra.
Qed.

Lemma hyper_down : forall a d e n, (hlo a d e < n <= hhi a d)%Z ->
  hyper a d e (n - 1) = hyper a d e n * IZR (n * (e - a - d + n)) / IZR ((d - (n - 1)) * (a - (n - 1))).
Proof.
  intros a d e n H. rewrite <- (Z.sub_add 1 n) at 2. rewrite hyper_up by (unfold hlo, hhi in *; lia).
  replace (n - 1 + 1)%Z with n by lia.
  unfold hlo, hhi in H.
  assert (IZR ((d - (n - 1)) * (a - (n - 1))) <> 0) by (apply not_0_IZR; nia).
  assert (IZR (n * (e - a - d + n)) <> 0) by (apply not_0_IZR; nia).
  field. split; assumption.
Qed.

Definition zrange (lo hi : Z) : list Z := map (fun k => lo + Z.of_nat k)%Z (seq 0 (Z.to_nat (hi - lo + 1))).

Lemma in_zrange : forall lo hi x, In x (zrange lo hi) <-> (lo <= x <= hi)%Z.
Proof.
  intros lo hi x. unfold zrange. rewrite in_map_iff. split.
  - intros (k & <- & Hk). apply in_seq in Hk. lia.
  - intros H. exists (Z.to_nat (x - lo)). split; [lia|]. apply in_seq. lia.
Qed.

Lemma nodup_zrange : forall lo hi, NoDup (zrange lo hi).
Proof.
  intros lo hi. unfold zrange. apply FinFun.Injective_map_NoDup; [intros x y; lia|apply seq_NoDup].
Qed.

(** the probabilities add up to one *)
Lemma hyper_total : forall a d e, (0 <= a <= e)%Z -> (0 <= d <= e)%Z ->
  lsum (hyper a d e) (zrange (hlo a d e) (hhi a d)) = 1.
Proof.
  intros a d e Ha Hd.
  set (w := fun n : nat => INR (bin (Z.to_nat d) n * bin (Z.to_nat (e - d)) (Z.to_nat a - n))).
  assert (H : lsum w (seq 0 (S (Z.to_nat a))) = zbin e a).
  { rewrite zbin_bin by lia. replace (Z.to_nat e) with (Z.to_nat d + Z.to_nat (e - d))%nat by lia. rewrite <- vandermonde.
    unfold w. generalize (Z.to_nat a) at 2 4. intros n. induction n as [|n IH]; [simpl; lra|].
    rewrite seq_S, lsum_app, IH. cbn [nsum plus]. rewrite plus_INR, lsum_cons, lsum_nil. lra. }
  assert (Hle : (hlo a d e <= hhi a d <= a)%Z) by (unfold hlo, hhi; lia). assert (H0 : (0 <= hlo a d e)%Z) by (unfold hlo; lia).
  assert (Hsplit : lsum w (seq 0 (S (Z.to_nat a))) = lsum (fun z => w (Z.to_nat z)) (zrange (hlo a d e) (hhi a d))).
  { assert (Hf : forall n, (n < Z.to_nat (hlo a d e))%nat \/ (Z.to_nat (hhi a d) < n <= Z.to_nat a)%nat -> w n = 0).
    { intros n Hn. unfold w. assert (Hz : (bin (Z.to_nat d) n * bin (Z.to_nat (e - d)) (Z.to_nat a - n) = 0)%nat).
      { unfold hlo, hhi in Hn. destruct (Nat.lt_ge_cases (Z.to_nat d) n) as [Hd'|Hd']; [rewrite bin_big by lia; reflexivity|].
        rewrite (bin_big (Z.to_nat (e - d))) by lia. lia. }
      rewrite Hz. reflexivity. }
    unfold zrange. rewrite lsum_map.
    replace (S (Z.to_nat a)) with (Z.to_nat (hlo a d e) + (Z.to_nat (hhi a d - hlo a d e + 1) + (Z.to_nat a - Z.to_nat (hhi a d))))%nat by lia.
    rewrite seq_app, seq_app, !lsum_app.
    rewrite (lsum_0 _ w (seq 0 _)) by (intros n Hn; apply in_seq in Hn; apply Hf; lia).
    rewrite (lsum_0 _ w (seq (0 + _ + _) _)) by (intros n Hn; apply in_seq in Hn; apply Hf; lia).
    rewrite Rplus_0_l, Rplus_0_r.
    cbn [plus]. generalize (Z.to_nat (hhi a d - hlo a d e + 1)). intros len. clear - H0.
    assert (Hg : forall st, lsum w (seq (Z.to_nat (hlo a d e) + st) len) = lsum (fun k => w (Z.to_nat (hlo a d e + Z.of_nat k))) (seq st len)).
    { induction len as [|len IH]; intros st; [reflexivity|]. cbn [seq]. rewrite !lsum_cons. f_equal; [f_equal; lia|]. rewrite <- IH. f_equal. f_equal. lia. }
    rewrite <- (Nat.add_0_r (Z.to_nat (hlo a d e))) at 1. apply Hg. }
  pose proof (zbin_pos e a) as Hp.
  rewrite (lsum_ext _ _ (fun z => / zbin e a * w (Z.to_nat z))).
  - rewrite lsum_scal, <- Hsplit, H. field. lra.
  - intros z Hz. apply in_zrange in Hz. unfold hlo, hhi in Hz. unfold w.
    rewrite hyper_bin, (zbin_bin d), (zbin_bin (e - d)) by lia.
    rewrite mult_INR. replace (Z.to_nat (a - z)) with (Z.to_nat a - Z.to_nat z)%nat by lia. field. lra.
Qed.
