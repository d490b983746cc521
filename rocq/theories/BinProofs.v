(** Proofs about bin_array and bin_data. *)
From Coq Require Import String ZArith List Bool Lia Sorting.Sorted.
Import ListNotations.
From Flocq Require Import BinarySingleNaN.
From Verif Require Import F64 FOrder Base Cells BinModel SpecBin.
Open Scope Z_scope.
Open Scope list_scope.

(* ---- searchsorted ---- *)
Lemma bisect_spec : forall fuel e v lo hi,
  (hi - lo < fuel)%nat -> (lo <= hi <= length e)%nat ->
  (forall i j, (i <= j < length e)%nat -> npless (nth j e fnan) v = true -> npless (nth i e fnan) v = true) ->
  (forall i, (i < lo)%nat -> npless (nth i e fnan) v = true) ->
  (forall i, (hi <= i < length e)%nat -> npless (nth i e fnan) v = false) ->
  let r := bisect fuel e v lo hi in
  (lo <= r <= hi)%nat /\ (forall i, (i < r)%nat -> npless (nth i e fnan) v = true) /\
  (forall i, (r <= i < length e)%nat -> npless (nth i e fnan) v = false).
Proof.
  induction fuel as [|fuel IH]; intros e v lo hi Hf Hb Hmono Hlo Hhi; [lia|].
  cbn [bisect]. destruct (Nat.ltb_spec lo hi) as [Hlt|Hge].
  - set (mid := (lo + Nat.div2 (hi - lo))%nat).
    assert (Hd : (Nat.div2 (hi - lo) < hi - lo)%nat) by (apply Nat.lt_div2; lia).
    destruct (npless (nth mid e fnan) v) eqn:E.
    + destruct (IH e v (S mid) hi) as (R1 & R2 & R3); auto; try lia.
      * intros i Hi. apply (Hmono i mid); [lia|exact E].
      * cbv zeta. split; [lia|auto].
    + destruct (IH e v lo mid) as (R1 & R2 & R3); auto; try lia.
      * intros i Hi. destruct (npless (nth i e fnan) v) eqn:E2; [|reflexivity].
        rewrite (Hmono mid i) in E; [discriminate|lia|exact E2].
      * cbv zeta. split; [lia|auto].
  - replace hi with lo in * by lia. cbv zeta. split; [lia|]. split; [exact Hlo|exact Hhi].
Qed.

Lemma ascending_nn : forall e i, ascending e -> (i < length e)%nat -> is_nan (nth i e fnan) = false.
Proof. intros e i H Hi. apply (fle_nan (nth i e fnan) (nth i e fnan)). apply H. lia. Qed.

Lemma npless_mono : forall e v, ascending e ->
  forall i j, (i <= j < length e)%nat -> npless (nth j e fnan) v = true -> npless (nth i e fnan) v = true.
Proof.
  intros e v Ha i j Hij H. unfold npless in *. unfold fisnan in *.
  rewrite (ascending_nn e i), (ascending_nn e j) in * by (auto; lia). cbn [negb] in *. rewrite andb_true_r in *.
  apply orb_true_iff in H. apply orb_true_iff. destruct H as [H|H]; [left|right; exact H].
  eapply fle_lt_trans; [|exact H]. apply Ha. lia.
Qed.

Lemma searchsorted_spec : forall e v, ascending e ->
  let r := searchsorted e v in
  (r <= length e)%nat /\ (forall i, (i < r)%nat -> npless (nth i e fnan) v = true) /\
  (forall i, (r <= i < length e)%nat -> npless (nth i e fnan) v = false).
Proof.
  intros e v Ha. unfold searchsorted.
  destruct (bisect_spec (S (length e)) e v 0 (length e)) as (R1 & R2 & R3); try lia.
  - apply npless_mono. exact Ha.
  - cbv zeta. split; [lia|auto].
Qed.

Lemma searchsorted_nan : forall e v, ascending e -> fisnan v = true -> searchsorted e v = length e.
Proof.
  intros e v Ha Hv. destruct (searchsorted_spec e v Ha) as (R1 & R2 & R3).
  destruct (Nat.eq_dec (searchsorted e v) (length e)) as [E|E]; [exact E|].
  specialize (R3 (searchsorted e v) ltac:(lia)). unfold npless in R3. rewrite Hv in R3.
  unfold fisnan in R3. rewrite (ascending_nn e) in R3 by (auto; lia). rewrite orb_true_r in R3. discriminate.
Qed.

(** outcome for a single value *)
Definition bin1 (e : list f64) (v : f64) : cell :=
  if fisnan v then CNaN
  else if Nat.eqb (searchsorted e v) 0 then CStr UFs
  else if Nat.eqb (searchsorted e v) (length e) then CStr OFs
  else CInt (Z.of_nat (searchsorted e v)).

Lemma ceqb_false : forall a b, a <> b -> ceqb a b = false.
Proof. intros a b H. destruct (ceqb a b) eqn:E; [apply ceqb_eq in E; contradiction|reflexivity]. Qed.

Lemma bin_array_fst : forall arr e, fst (bin_array arr e) = map (bin1 e) arr.
Proof.
  intros arr e. unfold bin_array. cbn [fst]. induction arr as [|v arr IH]; [reflexivity|].
  cbn [map combine]. rewrite IH. f_equal. unfold bin1. cbn [fst snd].
  destruct (fisnan v).
  - rewrite !ceqb_false by discriminate. reflexivity.
  - destruct (Nat.eqb_spec (searchsorted e v) 0) as [->|Hne].
    + change (Z.of_nat 0) with 0%Z. rewrite ceqb_refl. rewrite ceqb_false by discriminate. reflexivity.
    + rewrite (ceqb_false (CInt (Z.of_nat (searchsorted e v))) (CInt 0)) by (intros H; inversion H; lia).
      destruct (Nat.eqb_spec (searchsorted e v) (length e)) as [->|Hne2].
      * rewrite ceqb_refl. reflexivity.
      * rewrite ceqb_false by (intros H; inversion H; lia). reflexivity.
Qed.

Lemma npless_num : forall a v, is_nan v = false -> npless a v = flt a v.
Proof. intros a v H. unfold npless, fisnan. rewrite H. cbn. apply orb_false_r. Qed.

Lemma bin1_spec : forall e v, (1 <= length e)%nat -> ascending e -> bin_of e v (bin1 e v).
Proof.
  intros e v Hl Ha. unfold bin1. destruct (fisnan v) eqn:Hn; [constructor; exact Hn|].
  destruct (searchsorted_spec e v Ha) as (R1 & R2 & R3).
  assert (Hle : forall i, (i < length e)%nat -> npless (nth i e fnan) v = false -> fle v (nth i e fnan) = true).
  { intros i Hi H. rewrite npless_num in H by exact Hn.
    rewrite flt_negb_fle in H by (try exact Hn; apply ascending_nn; auto).
    apply negb_false_iff in H. exact H. }
  assert (Hlt : forall i, npless (nth i e fnan) v = true -> flt (nth i e fnan) v = true).
  { intros i H. rewrite npless_num in H by exact Hn. exact H. }
  destruct (Nat.eqb_spec (searchsorted e v) 0) as [E|E].
  - apply bin_under. apply Hle; [lia|]. apply R3. lia.
  - destruct (Nat.eqb_spec (searchsorted e v) (length e)) as [E2|E2].
    + apply bin_over. apply Hlt, R2. lia.
    + apply bin_inside; [lia|apply Hlt, R2; lia|apply Hle; [lia|apply R3; lia]].
Qed.

Lemma bin_of_unique : forall e v c d, ascending e -> bin_of e v c -> bin_of e v d -> c = d.
Proof.
  intros e v c d Ha Hc Hd.
  assert (HF : forall a b, flt a b = true -> fle b a = true -> False).
  { intros a b H1 H2. destruct (flt_nan _ _ H1). rewrite flt_negb_fle, H2 in H1 by assumption. discriminate. }
  assert (HNl : forall x, fisnan v = true -> fle v x = true -> False) by (intros x Hv H; apply fle_nan in H; destruct H; unfold fisnan in Hv; congruence).
  assert (HNr : forall x, fisnan v = true -> flt x v = true -> False) by (intros x Hv H; apply flt_nan in H; destruct H; unfold fisnan in Hv; congruence).
  assert (HM : forall i j, (i <= j < length e)%nat -> fle (nth i e fnan) (nth j e fnan) = true) by exact Ha.
  destruct Hc as [H1|H1|H1|i Hi H1 H1'], Hd as [H2|H2|H2|j Hj H2 H2']; try reflexivity;
    try (exfalso; first [exact (HNl _ H1 H2) | exact (HNr _ H1 H2) | exact (HNl _ H2 H1) | exact (HNr _ H2 H1)]).
  - exfalso. destruct (length e) as [|n] eqn:El; [destruct e; [|discriminate]; apply fle_nan in H1; destruct H1 as [_ H1]; discriminate H1|].
    apply (HF _ _ H2). eapply fle_trans; [exact H1|]. apply HM. lia.
  - exfalso. apply (HF _ _ H2). eapply fle_trans; [exact H1|]. apply HM. lia.
  - exfalso. destruct (length e) as [|n] eqn:El; [destruct e; [|discriminate]; apply fle_nan in H2; destruct H2 as [_ H2]; discriminate H2|].
    apply (HF _ _ H1). eapply fle_trans; [exact H2|]. apply HM. lia.
  - exfalso. apply (HF _ _ H1). eapply fle_trans; [exact H2'|]. apply HM. lia.
  - exfalso. apply (HF _ _ H1). eapply fle_trans; [exact H2|]. apply HM. lia.
  - exfalso. apply (HF _ _ H2). eapply fle_trans; [exact H1'|]. apply HM. lia.
  - f_equal. f_equal. destruct (Nat.lt_trichotomy i j) as [L|[L|L]]; [|exact L|]; exfalso.
    + apply (HF _ _ H2). eapply fle_trans; [exact H1'|]. apply HM. lia.
    + apply (HF _ _ H1). eapply fle_trans; [exact H2'|]. apply HM. lia.
Qed.

(** C01 *)
Lemma bin_array_spec : forall arr e, (1 <= length e)%nat -> ascending e ->
  Forall2 (bin_of e) arr (fst (bin_array arr e)).
Proof.
  intros arr e Hl Ha. rewrite bin_array_fst. induction arr as [|v arr IH]; constructor; [|exact IH].
  apply bin1_spec; assumption.
Qed.

(** C02 *)
Lemma bin_array_labels : forall arr e, (1 <= length e)%nat -> ascending e ->
  exists is, snd (bin_array arr e) = map (fun i => (nth (i - 1) e fnan, nth i e fnan)) is /\
    StronglySorted lt is /\
    forall i, In i is <-> (1 <= i < length e)%nat /\ In (CInt (Z.of_nat i)) (fst (bin_array arr e)).
Proof.
  intros arr e Hl Ha. eexists. split; [reflexivity|]. split.
  - assert (HS : forall n a, StronglySorted lt (seq a n)).
    { induction n as [|n IH]; intros a; simpl; constructor; [apply IH|]. apply Forall_forall. intros x Hx. apply in_seq in Hx. lia. }
    assert (HF : forall f l, StronglySorted lt l -> StronglySorted lt (filter f l)).
    { intros f l H. induction H as [|x l H IH HF]; simpl; [constructor|]. destruct (f x); [|exact IH].
      constructor; [exact IH|]. rewrite Forall_forall in *. intros y Hy. apply filter_In in Hy. apply HF. tauto. }
    apply HF, HS.
  - intros i. rewrite filter_In, in_seq, existsb_exists.
    rewrite bin_array_fst. split.
    + intros (Hi & x & Hx & E). apply Nat.eqb_eq in E. subst x. split; [lia|].
      apply in_map_iff in Hx. destruct Hx as (v & E & Hv). apply in_map_iff. exists v. split; [|exact Hv].
      unfold bin1. destruct (fisnan v) eqn:Hn.
      * rewrite searchsorted_nan in E by assumption. lia.
      * rewrite E. destruct (Nat.eqb_spec i 0); [lia|]. destruct (Nat.eqb_spec i (length e)); [lia|reflexivity].
    + intros (Hi & Hin). split; [lia|]. exists i. split; [|apply Nat.eqb_refl].
      apply in_map_iff in Hin. destruct Hin as (v & E & Hv). apply in_map_iff. exists v. split; [|exact Hv].
      unfold bin1 in E. destruct (fisnan v); [discriminate|].
      destruct (Nat.eqb (searchsorted e v) 0); [discriminate|].
      destruct (Nat.eqb (searchsorted e v) (length e)); [discriminate|]. inversion E. lia.
Qed.
