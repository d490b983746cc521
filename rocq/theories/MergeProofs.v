(** Merging rows and columns of a table never increases the chi2. *)
From Coq Require Import List Reals Arith Lia Lra Bool ZArith Permutation.
Import ListNotations.
From Verif Require Import Base Cells RSum StatsModel SpecStats StatsProofs StatsProofs2 StatsProofs3 PhikMatProofs SpecMerge.
Open Scope R_scope.

Lemma ln_ge : forall x, 0 < x -> 1 - / x <= ln x.
Proof. intros x H. destruct (Req_dec x 1) as [-> |N]; [rewrite ln_1; lra|left; apply ln_gt; assumption]. Qed.
Definition dom (o e : R) : Prop := 0 <= o /\ 0 <= e /\ (o <> 0 -> 0 < e).
Lemma pd_0 : forall l e, (l = Pearson -> e = 0) -> pd_term l 0 e = 0.
Proof. intros [|] e H; unfold pd_term; [rewrite (H eq_refl); unfold Rdiv; ring|]. unfold xlogy. destruct (Req_EM_T 0 0); lra. Qed.
Lemma dom0 : forall e, 0 <= e -> dom 0 e. Proof. intros e H. split; [lra|]. split; [exact H|]. intros F; lra. Qed.
Lemma dom_plus : forall o1 e1 o2 e2, dom o1 e1 -> dom o2 e2 -> dom (o1 + o2) (e1 + e2).
Proof. intros o1 e1 o2 e2 (A & B & C) (A' & B' & C'). split; [lra|]. split; [lra|]. intros N. destruct (Req_dec o1 0); [pose proof (C' ltac:(lra)); lra|pose proof (C ltac:(assumption)); lra]. Qed.
(** o ln(o/e) >= o ln(z) + o - e z for every z > 0 *)
Lemma xlogy_tangent : forall o e z, dom o e -> 0 < z -> o * ln z + o - e * z <= xlogy o (o / e).
Proof.
  intros o e z (A & B & C) Z. unfold xlogy. destruct (Req_EM_T o 0) as [-> |N]; [nra|]. specialize (C N). assert (0 < o) by lra.
  assert (P : 0 < o / e) by (apply Rdiv_lt_0_compat; lra). assert (Q : 0 < o / e / z) by (apply Rdiv_lt_0_compat; lra).
  replace (ln (o / e)) with (ln z + ln (o / e / z)) by (rewrite <- ln_mult by lra; f_equal; field; lra).
  pose proof (ln_ge _ Q) as L. replace (/ (o / e / z)) with (e * z / o) in L by (field; lra). assert (o * (e * z / o) = e * z) by (field; lra). nra.
Qed.
Lemma pd_merge2 : forall l o1 e1 o2 e2, dom o1 e1 -> dom o2 e2 -> pd_term l (o1 + o2) (e1 + e2) <= pd_term l o1 e1 + pd_term l o2 e2.
Proof.
  intros [|] o1 e1 o2 e2 D1 D2; unfold pd_term.
  - destruct D1 as (A & B & C), D2 as (A' & B' & C'). destruct (Req_dec e1 0) as [-> |N1].
    { assert (o1 = 0) by (destruct (Req_dec o1 0) as [Q|Q]; [exact Q|specialize (C Q); lra]). subst. rewrite !Rplus_0_l. unfold Rdiv. rewrite Rminus_0_r, !Rmult_0_l. lra. }
    destruct (Req_dec e2 0) as [-> |N2].
    { assert (o2 = 0) by (destruct (Req_dec o2 0) as [Q|Q]; [exact Q|specialize (C' Q); lra]). subst. rewrite !Rplus_0_r. unfold Rdiv. rewrite Rminus_0_r, !Rmult_0_l. lra. }
    set (x := o1 - e1). set (y := o2 - e2). replace (o1 + o2 - (e1 + e2)) with (x + y) by (unfold x, y; ring).
    assert (P1 : 0 < e1) by lra. assert (P2 : 0 < e2) by lra.
    replace (x * x / e1 + y * y / e2) with ((x + y) * (x + y) / (e1 + e2) + (x * e2 - y * e1) * (x * e2 - y * e1) / (e1 * e2 * (e1 + e2))) by (field; lra).
    assert (0 <= (x * e2 - y * e1) * (x * e2 - y * e1) / (e1 * e2 * (e1 + e2))); [|lra].
    apply Rmult_le_pos; [apply Rle_0_sqr|]. left. apply Rinv_0_lt_compat. repeat apply Rmult_lt_0_compat; lra.
  - assert (D := dom_plus _ _ _ _ D1 D2). destruct (Req_dec (o1 + o2) 0) as [Z|N].
    { assert (o1 = 0) by (destruct D1, D2; lra). assert (o2 = 0) by (destruct D1, D2; lra). subst. unfold xlogy. rewrite Rplus_0_l. destruct (Req_EM_T 0 0); lra. }
    assert (E : 0 < e1 + e2) by (apply D; exact N). assert (O : 0 < o1 + o2) by (destruct D as (D & _); lra).
    assert (Z : 0 < (o1 + o2) / (e1 + e2)) by (apply Rdiv_lt_0_compat; lra).
    pose proof (xlogy_tangent o1 e1 _ D1 Z). pose proof (xlogy_tangent o2 e2 _ D2 Z). unfold xlogy at 1. destruct (Req_EM_T (o1 + o2) 0); [lra|].
    set (z := (o1 + o2) / (e1 + e2)) in *. assert ((e1 + e2) * z = o1 + o2) by (unfold z; field; lra). nra.
Qed.
Lemma pd_merge : forall A l (o e : A -> R) (I : list A), (forall i, In i I -> dom (o i) (e i)) -> dom (lsum o I) (lsum e I) /\ pd_term l (lsum o I) (lsum e I) <= lsum (fun i => pd_term l (o i) (e i)) I.
Proof.
  intros A l o e I. induction I as [|i I IH]; intros D; cbn [lsum fold_right].
  - split; [apply dom0; lra|]. rewrite pd_0 by reflexivity. lra.
  - fold (lsum o I) (lsum e I) (lsum (fun i => pd_term l (o i) (e i)) I). destruct (IH (fun j H => D j (or_intror H))) as [D' L]. pose proof (D i (or_introl eq_refl)) as Di.
    split; [apply dom_plus; assumption|]. pose proof (pd_merge2 l _ _ _ _ Di D'). lra.
Qed.

(** the sum over all cells *)
Definition full (l : lambda) (m : mat) : R := lsum (fun i => lsum (fun j => pd_term l (el m i j) (expected m i j)) (seq 0 (nc m))) (seq 0 (nr m)).
Lemma cell_dom : forall m i j, nonneg_table m -> 0 < matsum m -> (i < nr m)%nat -> (j < nc m)%nat -> dom (el m i j) (expected m i j).
Proof.
  intros m i j HN MP Hi Hj. split; [apply HN; assumption|]. split; [apply expected_nonneg; assumption|]. intros N. unfold expected.
  apply Rdiv_lt_0_compat; [|exact MP]. apply Rmult_lt_0_compat; [eapply rowsum_pos; eassumption|eapply colsum_pos; eassumption].
Qed.
Lemma empty_cell : forall l m i j, nonneg_table m -> 0 < matsum m -> (i < nr m)%nat -> (j < nc m)%nat -> ~ In i (nz_rows m) \/ ~ In j (nz_cols m) -> pd_term l (el m i j) (expected m i j) = 0.
Proof.
  intros l m i j HN MP Hi Hj H. assert (Z : el m i j = 0).
  { destruct (Req_dec (el m i j) 0) as [Q|Q]; [exact Q|]. exfalso. destruct H as [H|H]; apply H; [apply in_nz_rows|apply in_nz_cols]; split; eauto. }
  rewrite Z. apply pd_0. intros _. unfold expected. destruct H as [H|H].
  - replace (rowsum m i) with 0; [unfold Rdiv; ring|]. symmetry. apply lsum_0. intros j' Hj'. apply in_seq in Hj'. destruct (Req_dec (el m i j') 0) as [Q|Q]; [exact Q|]. exfalso. apply H, in_nz_rows. split; [exact Hi|]. exists j'. split; [lia|exact Q].
  - replace (colsum m j) with 0; [unfold Rdiv; ring|]. symmetry. apply lsum_0. intros i' Hi'. apply in_seq in Hi'. destruct (Req_dec (el m i' j) 0) as [Q|Q]; [exact Q|]. exfalso. apply H, in_nz_cols. split; [exact Hj|]. exists i'. split; [lia|exact Q].
Qed.
Lemma lsum_filter : forall A (f : A -> R) (p : A -> bool) l, (forall a, In a l -> p a = false -> f a = 0) -> lsum f (filter p l) = lsum f l.
Proof.
  intros A f p l. induction l as [|a l IH]; intros H; [reflexivity|]. cbn [filter]. destruct (p a) eqn:E; cbn [lsum fold_right]; fold (lsum f l).
  - fold (lsum f (filter p l)). rewrite IH; [reflexivity|]. intros b Hb. apply H. right. exact Hb.
  - rewrite (H a (or_introl eq_refl) E), Rplus_0_l. apply IH. intros b Hb. apply H. right. exact Hb.
Qed.
Lemma full_nz : forall l m, nonneg_table m -> 0 < matsum m -> lsum (fun i => lsum (fun j => pd_term l (el m i j) (expected m i j)) (nz_cols m)) (nz_rows m) = full l m.
Proof.
  intros l m HN MP. unfold full. transitivity (lsum (fun i => lsum (fun j => pd_term l (el m i j) (expected m i j)) (seq 0 (nc m))) (nz_rows m)).
  - apply lsum_ext. intros i Hi. apply in_nz_rows in Hi. unfold nz_cols. apply lsum_filter. intros j Hj E. apply in_idx in Hj. apply empty_cell; try assumption; [tauto|]. right. unfold nz_cols. intros F. apply filter_In in F. destruct F as [_ F]. congruence.
  - unfold nz_rows. apply lsum_filter. intros i Hi E. apply in_idx in Hi. apply lsum_0. intros j Hj. apply in_seq in Hj. apply empty_cell; try assumption; [lia|]. left. unfold nz_rows. intros F. apply filter_In in F. destruct F as [_ F]. congruence.
Qed.
Lemma lsum_pick : forall A (f : nat -> A -> nat) (v : A -> R) r (I : list A), (forall i, In i I -> (f r i < r)%nat) -> lsum (fun i' => lsum (fun i => if Nat.eqb (f r i) i' then v i else 0) I) (seq 0 r) = lsum v I.
Proof.
  intros A f v r I H. rewrite lsum_swap. apply lsum_ext. intros i Hi. specialize (H i Hi). revert H. generalize (f r i) as k. clear. intros k H.
  assert (G : forall n s, lsum (fun i' => if Nat.eqb k i' then v i else 0) (seq s n) = if (s <=? k)%nat && (k <? s + n)%nat then v i else 0).
  { induction n as [|n IH]; intros s; cbn [seq lsum fold_right].
    - destruct (Nat.leb_spec s k), (Nat.ltb_spec k (s + 0)); cbn [andb]; try reflexivity; lia.
    - fold (lsum (fun i' => if Nat.eqb k i' then v i else 0) (seq (S s) n)). rewrite IH. destruct (Nat.eqb_spec k s), (Nat.leb_spec s k), (Nat.leb_spec (S s) k), (Nat.ltb_spec k (s + S n)), (Nat.ltb_spec k (S s + n)); cbn [andb]; try lia; lra. }
  rewrite G. destruct (Nat.leb_spec 0 k), (Nat.ltb_spec k (0 + r)); cbn [andb]; try reflexivity; lia.
Qed.

(** * merging rows *)
Definition mrows (f : nat -> nat) (r : nat) (m : mat) : mat :=
  mkMat r (nc m) (fun i' j => lsum (fun i => if Nat.eqb (f i) i' then el m i j else 0) (seq 0 (nr m))).
Section Rows.
  Variables (f : nat -> nat) (r : nat) (m : mat).
  Hypothesis HF : forall i, (i < nr m)%nat -> (f i < r)%nat.
  Let m' := mrows f r m.
  Lemma if_lsum : forall A (b : bool) (g : A -> R) l, (if b then lsum g l else 0) = lsum (fun a => if b then g a else 0) l.
  Proof. intros A [] g l; [reflexivity|]. symmetry. apply lsum_0. reflexivity. Qed.
  Lemma mr_rowsum : forall i', rowsum m' i' = lsum (fun i => if Nat.eqb (f i) i' then rowsum m i else 0) (seq 0 (nr m)).
  Proof. intros i'. unfold rowsum, m', mrows. cbn [nc el]. rewrite lsum_swap. apply lsum_ext. intros i _. symmetry. apply if_lsum. Qed.
  Lemma mr_colsum : forall j, colsum m' j = colsum m j.
  Proof. intros j. unfold colsum, m', mrows. cbn [nr el]. apply (lsum_pick nat (fun _ => f) (fun i => el m i j) r). intros i Hi. apply in_seq in Hi. apply HF. lia. Qed.
  Lemma mr_matsum : matsum m' = matsum m.
  Proof.
    unfold matsum. transitivity (lsum (fun i' => lsum (fun i => if Nat.eqb (f i) i' then rowsum m i else 0) (seq 0 (nr m))) (seq 0 r)); [apply lsum_ext; intros i' _; apply mr_rowsum|].
    apply (lsum_pick nat (fun _ => f) (fun i => rowsum m i) r). intros i Hi. apply in_seq in Hi. apply HF. lia.
  Qed.
  Lemma mr_expected : forall i' j, expected m' i' j = lsum (fun i => if Nat.eqb (f i) i' then expected m i j else 0) (seq 0 (nr m)).
  Proof.
    intros i' j. unfold expected. rewrite mr_rowsum, mr_colsum, mr_matsum. unfold Rdiv. rewrite Rmult_assoc, <- lsum_scal_r. apply lsum_ext. intros i _. destruct (Nat.eqb (f i) i'); ring.
  Qed.
  Hypothesis HN : nonneg_table m.
  Lemma mr_nonneg : nonneg_table m'.
  Proof. intros i j Hi Hj. unfold m', mrows. cbn [el nc] in *. apply lsum_nonneg. intros k Hk. apply in_seq in Hk. destruct (Nat.eqb (f k) i); [apply HN; [lia|exact Hj]|lra]. Qed.
  Hypothesis HR : has_records m.
  Let MP : 0 < matsum m. Proof. apply matsum_pos; assumption. Qed.
  Lemma mr_records : has_records m'.
  Proof. apply matsum_pos_records. rewrite mr_matsum. exact MP. Qed.
  Lemma mr_full : forall l, full l m' <= full l m.
  Proof.
    intros l. unfold full. change (nr m') with r. change (nc m') with (nc m).
    apply Rle_trans with (lsum (fun i' => lsum (fun j => lsum (fun i => if Nat.eqb (f i) i' then pd_term l (el m i j) (expected m i j) else 0) (seq 0 (nr m))) (seq 0 (nc m))) (seq 0 r)).
    - apply lsum_le. intros i' Hi'. apply lsum_le. intros j Hj. apply in_seq in Hj. rewrite mr_expected. unfold m' at 1, mrows. cbn [el].
      destruct (pd_merge nat l (fun i => if Nat.eqb (f i) i' then el m i j else 0) (fun i => if Nat.eqb (f i) i' then expected m i j else 0) (seq 0 (nr m))) as [_ L].
      { intros i Hi. apply in_seq in Hi. destruct (Nat.eqb (f i) i'); [apply cell_dom; try assumption; lia|apply dom0; lra]. }
      eapply Rle_trans; [exact L|]. right. apply lsum_ext. intros i _. destruct (Nat.eqb (f i) i'); [reflexivity|apply pd_0; reflexivity].
    - right. transitivity (lsum (fun j => lsum (fun i' => lsum (fun i => if Nat.eqb (f i) i' then pd_term l (el m i j) (expected m i j) else 0) (seq 0 (nr m))) (seq 0 r)) (seq 0 (nc m))); [apply lsum_swap|].
      rewrite (lsum_swap nat nat (fun i j => pd_term l (el m i j) (expected m i j))). apply lsum_ext. intros j _. apply (lsum_pick nat (fun _ => f) (fun i => pd_term l (el m i j) (expected m i j)) r). intros i Hi. apply in_seq in Hi. apply HF. lia.
  Qed.
  Lemma mr_nz : forall i', In i' (nz_rows m') -> exists i, In i (nz_rows m) /\ f i = i'.
  Proof.
    intros i' H. apply in_nz_rows in H. destruct H as (Hi' & j & Hj & N). change (nc m') with (nc m) in Hj. unfold m', mrows in N. cbn [el] in N.
    destruct (existsb (fun i => Nat.eqb (f i) i' && negb (reqb (el m i j) 0)) (seq 0 (nr m))) eqn:E.
    - apply existsb_exists in E. destruct E as (i & Hi & E). apply andb_true_iff in E. destruct E as [E1 E2]. apply Nat.eqb_eq in E1. apply negb_true_iff, reqb_false in E2. apply in_seq in Hi. exists i. split; [|exact E1]. apply in_nz_rows. split; [lia|]. eauto.
    - exfalso. apply N. apply lsum_0. intros i Hi. destruct (Nat.eqb (f i) i') eqn:E1; [|reflexivity]. destruct (Req_dec (el m i j) 0) as [Q|Q]; [exact Q|]. exfalso.
      assert (existsb (fun i => Nat.eqb (f i) i' && negb (reqb (el m i j) 0)) (seq 0 (nr m)) = true); [|congruence]. apply existsb_exists. exists i. split; [exact Hi|]. rewrite E1. cbn. apply negb_true_iff, reqb_false, Q.
  Qed.
  Lemma mr_nz_in : forall i, In i (nz_rows m) -> In (f i) (nz_rows m').
  Proof.
    intros i H. apply in_nz_rows in H. destruct H as (Hi & j & Hj & N). apply in_nz_rows. split; [apply HF; exact Hi|]. exists j. split; [exact Hj|]. unfold m', mrows. cbn [el].
    apply Rgt_not_eq, (lsum_pos _ _ _ i); [|apply in_seq; lia|rewrite Nat.eqb_refl; specialize (HN i j Hi Hj); lra].
    intros k Hk. apply in_seq in Hk. destruct (Nat.eqb (f k) (f i)); [apply HN; [lia|exact Hj]|lra].
  Qed.
  Lemma mr_nzc : forall j, In j (nz_cols m') <-> In j (nz_cols m).
  Proof.
    intros j. split; intros H.
    - apply in_nz_cols in H. destruct H as (Hj & i' & Hi' & N). change (nc m') with (nc m) in Hj. apply in_nz_cols. split; [exact Hj|]. destruct (Req_dec (colsum m' j) 0) as [Q|Q].
      + exfalso. apply N. apply (lsum_zero_elem _ (fun i => el m' i j) (seq 0 (nr m'))); [|exact Q|apply in_seq; lia]. intros i Hi. apply in_seq in Hi. apply mr_nonneg; [lia|exact Hj].
      + rewrite mr_colsum in Q. destruct (existsb (fun i => negb (reqb (el m i j) 0)) (seq 0 (nr m))) eqn:E.
        * apply existsb_exists in E. destruct E as (i & Hi & E). apply in_seq in Hi. apply negb_true_iff, reqb_false in E. exists i. split; [lia|exact E].
        * exfalso. apply Q, lsum_0. intros i Hi. destruct (Req_dec (el m i j) 0) as [Q'|Q']; [exact Q'|]. exfalso. assert (existsb (fun i => negb (reqb (el m i j) 0)) (seq 0 (nr m)) = true); [|congruence]. apply existsb_exists. exists i. split; [exact Hi|]. apply negb_true_iff, reqb_false, Q'.
    - assert (H0 := H). apply in_nz_cols in H. destruct H as (Hj & i & Hi & N). apply in_nz_cols. split; [exact Hj|].
      assert (In i (nz_rows m)) by (apply in_nz_rows; eauto). exists (f i). split; [apply HF; exact Hi|]. unfold m', mrows. cbn [el].
      apply Rgt_not_eq, (lsum_pos _ _ _ i); [|apply in_seq; lia|rewrite Nat.eqb_refl; specialize (HN i j Hi Hj); lra].
      intros k Hk. apply in_seq in Hk. destruct (Nat.eqb (f k) (f i)); [apply HN; [lia|exact Hj]|lra].
  Qed.
  (** no two non-empty rows are merged *)
  Hypothesis INJ : forall a b, In a (nz_rows m) -> In b (nz_rows m) -> f a = f b -> a = b.
  Lemma mr_inj : forall clamp l, get_chi2 clamp m' l = get_chi2 clamp m l.
  Proof.
    intros clamp l. set (I := nz_rows m). set (J := nz_cols m).
    assert (ME : mat_eq (submat m' (map f I) J) (submat m I J)).
    { split; [cbn; apply map_length|]. split; [reflexivity|]. intros p q Hp Hq. cbn [submat nr nc el] in *. rewrite map_length in Hp.
      rewrite (nth_indep _ 0%nat (f 0%nat)) by (rewrite map_length; exact Hp). rewrite map_nth. set (i := nth p I 0%nat). set (j := nth q J 0%nat).
      assert (Hi : In i I) by (apply nth_In; exact Hp). assert (Hj : In j J) by (apply nth_In; exact Hq). unfold m', mrows. cbn [el].
      assert (E : forall k, In k (seq 0 (nr m)) -> (if Nat.eqb (f k) (f i) then el m k j else 0) = (if Nat.eqb k i then el m k j else 0)).
      { intros k Hk. destruct (Nat.eqb_spec k i) as [-> |N]; [rewrite Nat.eqb_refl; reflexivity|]. destruct (Nat.eqb_spec (f k) (f i)) as [Q|Q]; [|reflexivity].
        destruct (Req_dec (el m k j) 0) as [Z|Z]; [exact Z|]. exfalso. apply N. apply INJ; [apply in_nz_rows; apply in_seq in Hk; apply in_nz_cols in Hj; split; [lia|]; exists j; tauto|exact Hi|exact Q]. }
      rewrite (lsum_ext _ _ _ _ E). clear E. apply in_nz_rows in Hi. destruct Hi as [Hi _].
      assert (G : forall n s, lsum (fun k => if Nat.eqb k i then el m k j else 0) (seq s n) = if (s <=? i)%nat && (i <? s + n)%nat then el m i j else 0).
      { clear. induction n as [|n IH]; intros s; cbn [seq lsum fold_right].
        - destruct (Nat.leb_spec s i), (Nat.ltb_spec i (s + 0)); cbn [andb]; try reflexivity; lia.
        - fold (lsum (fun k => if Nat.eqb k i then el m k j else 0) (seq (S s) n)). rewrite IH. destruct (Nat.eqb_spec s i) as [Q|Q], (Nat.leb_spec s i), (Nat.leb_spec (S s) i), (Nat.ltb_spec i (s + S n)), (Nat.ltb_spec i (S s + n)); cbn [andb]; try lia; try (rewrite Q; lra); lra. }
      rewrite G. destruct (Nat.leb_spec 0 i), (Nat.ltb_spec i (0 + nr m)); cbn [andb]; try reflexivity; lia. }
    assert (R1 : rearrangement m' (map f I) J).
    { split; [apply nodup_map_in; [exact INJ|apply nodup_nz_rows]|]. split; [apply nodup_nz_cols|]. split; [|split].
      - intros i H. apply in_map_iff in H. destruct H as (k & <- & Hk). apply in_nz_rows in Hk. apply HF. tauto.
      - intros j H. apply in_nz_cols in H. tauto.
      - intros i j Hi Hj N. split; [|apply mr_nzc, in_nz_cols; eauto]. destruct (mr_nz i) as (k & Hk & E); [apply in_nz_rows; eauto|]. apply in_map_iff. exists k. auto. }
    rewrite <- (get_chi2_rearr clamp m' l _ _ R1), <- (get_chi2_rearr clamp m l _ _ (core_rearr m)). fold I J.
    apply get_chi2_eq, ME.
  Qed.
End Rows.

(** * Yates' correction only lowers the sum *)
Lemma full_nonneg : forall l m, nonneg_table m -> has_records m -> 0 <= full l m.
Proof.
  intros [|] m HN HR; pose proof (matsum_pos m HN HR) as MP; unfold full.
  - apply lsum_nonneg. intros i Hi. apply in_seq in Hi. apply lsum_nonneg. intros j Hj. apply in_seq in Hj. unfold pd_term. destruct (cell_dom m i j HN MP ltac:(lia) ltac:(lia)) as (A & B & C).
    destruct (Req_dec (expected m i j) 0) as [Z|Z]; [assert (el m i j = 0) as -> by (destruct (Req_dec (el m i j) 0) as [Q|Q]; [exact Q|specialize (C Q); lra]); rewrite Z; unfold Rdiv; rewrite Rminus_0_r, !Rmult_0_l; lra|].
    apply Rmult_le_pos; [apply Rle_0_sqr|left; apply Rinv_0_lt_compat; lra].
  - apply Rle_trans with (2 * (matsum m - matsum (get_dependent_frequency_estimates m))); [rewrite gdfe_matsum by lra; lra|].
    unfold matsum, rowsum. cbn [nr nc el get_dependent_frequency_estimates]. rewrite <- lsum_minus, <- lsum_scal. apply lsum_le. intros i Hi. apply in_seq in Hi. rewrite <- lsum_minus, <- lsum_scal. apply lsum_le. intros j Hj. apply in_seq in Hj.
    unfold pd_term. pose proof (xlogy_tangent _ _ 1 (cell_dom m i j HN MP ltac:(lia) ltac:(lia)) Rlt_0_1) as T. rewrite ln_1 in T. lra.
Qed.
Lemma pd_scale : forall a o e, 0 < a -> dom o e -> pd_term LogLikelihood (a * o) (a * e) = a * pd_term LogLikelihood o e.
Proof.
  intros a o e A (B & C & D). unfold pd_term, xlogy. destruct (Req_EM_T o 0) as [-> |N].
  - destruct (Req_EM_T (a * 0) 0); lra.
  - destruct (Req_EM_T (a * o) 0) as [Q|Q]; [apply Rmult_integral in Q; lra|]. specialize (D N). replace (a * o / (a * e)) with (o / e) by (field; lra). ring.
Qed.
Lemma pd_pull : forall t o e, 0 <= t <= 1 -> dom o e -> 0 < e -> pd_term LogLikelihood (o + t * (e - o)) e <= (1 - t) * pd_term LogLikelihood o e.
Proof.
  intros t o e T D E. destruct (Req_dec t 1) as [-> |N1]; [replace (o + 1 * (e - o)) with e by ring; rewrite pd_term_same by exact E; lra|].
  destruct (Req_dec t 0) as [-> |N0]; [replace (o + 0 * (e - o)) with o by ring; lra|].
  pose proof (pd_merge2 LogLikelihood ((1 - t) * o) ((1 - t) * e) (t * e) (t * e)) as M. rewrite (pd_scale (1 - t) o e) in M by (try assumption; lra). rewrite pd_term_same in M by nra.
  replace (o + t * (e - o)) with ((1 - t) * o + t * e) by ring. replace ((1 - t) * e + t * e) with e in M by ring. rewrite Rplus_0_r in M. apply M; destruct D as (A & B & C).
  - split; [apply Rmult_le_pos; lra|]. split; [apply Rmult_le_pos; lra|]. intros _. apply Rmult_lt_0_compat; lra.
  - split; [apply Rmult_le_pos; lra|]. split; [apply Rmult_le_pos; lra|]. intros _. apply Rmult_lt_0_compat; lra.
Qed.
Lemma yates_form : forall o e, yates true o e = o + (if Req_EM_T (e - o) 0 then 0 else Rmin (1 / 2) (Rabs (e - o)) / Rabs (e - o)) * (e - o).
Proof.
  intros o e. unfold yates, rsign. destruct (Req_EM_T (e - o) 0) as [Z|N].
  - rewrite Z. destruct (Rlt_dec 0 0); [lra|]. destruct (Rlt_dec 0 0); [lra|]. ring.
  - pose proof (Rabs_pos_lt _ N). destruct (Rlt_dec 0 (e - o)) as [L|L].
    + rewrite (Rabs_pos_eq (e - o)) in * by lra. field. lra.
    + destruct (Rlt_dec (e - o) 0) as [L'|L']; [|lra]. rewrite (Rabs_left (e - o)) in * by lra. field. lra.
Qed.
Lemma two_sum : forall A (f : A -> R) l, length l = 2%nat -> exists a b, l = [a; b] /\ lsum f l = f a + f b.
Proof. intros A f [|a [|b [|]]] H; try discriminate H. exists a, b. split; [reflexivity|]. cbn. ring. Qed.
Lemma nz_rowsum : forall m i, (i < nr m)%nat -> lsum (fun j => el m i j) (nz_cols m) = rowsum m i.
Proof.
  intros m i Hi. unfold rowsum, nz_cols. apply lsum_filter. intros j Hj E. apply in_idx in Hj. destruct (Req_dec (el m i j) 0) as [Q|Q]; [exact Q|]. exfalso. apply negb_false_iff in E. rewrite forallb_forall in E. specialize (E i ltac:(apply in_idx; exact Hi)). apply reqb_true in E. contradiction.
Qed.
Lemma nz_colsum : forall m j, (j < nc m)%nat -> lsum (fun i => el m i j) (nz_rows m) = colsum m j.
Proof. intros m j Hj. rewrite nz_rows_transp. change (colsum m j) with (rowsum (transp m) j). apply (nz_rowsum (transp m) j). exact Hj. Qed.
Lemma nz_expsum_r : forall m i, 0 < matsum m -> (i < nr m)%nat -> lsum (fun j => expected m i j) (nz_cols m) = rowsum m i.
Proof.
  intros m i MP Hi. rewrite <- (gdfe_rowsum m i) by lra. unfold rowsum at 1. cbn [nc el get_dependent_frequency_estimates]. unfold nz_cols. apply lsum_filter. intros j Hj E. unfold expected.
  replace (colsum m j) with 0; [unfold Rdiv; ring|]. symmetry. apply lsum_0. intros k Hk. apply in_seq in Hk. apply negb_false_iff in E. rewrite forallb_forall in E. specialize (E k ltac:(apply in_idx; lia)). apply reqb_true in E. exact E.
Qed.
Lemma expected_transp : forall m i j, expected (transp m) j i = expected m i j.
Proof. intros m i j. unfold expected. change (rowsum (transp m) j) with (colsum m j). change (colsum (transp m) i) with (rowsum m i). assert (matsum (transp m) = matsum m) as ->; [|unfold Rdiv; ring]. unfold matsum, rowsum, transp. cbn [nr nc el]. apply lsum_swap. Qed.
Lemma nz_expsum_c : forall m j, 0 < matsum m -> (j < nc m)%nat -> lsum (fun i => expected m i j) (nz_rows m) = colsum m j.
Proof.
  intros m j MP Hj. rewrite nz_rows_transp. change (colsum m j) with (rowsum (transp m) j). rewrite <- (nz_expsum_r (transp m) j); [|unfold matsum, rowsum, transp; cbn [nr nc el]; rewrite lsum_swap; exact MP|exact Hj].
  apply lsum_ext. intros i _. symmetry. apply expected_transp.
Qed.
Lemma same_gap : forall m, nonneg_table m -> 0 < matsum m -> length (nz_rows m) = 2%nat -> length (nz_cols m) = 2%nat ->
  exists d, forall i j, In i (nz_rows m) -> In j (nz_cols m) -> Rabs (expected m i j - el m i j) = d.
Proof.
  intros m HN MP L1 L2.
  assert (RI : forall i, In i (nz_rows m) -> (i < nr m)%nat) by (intros i H; apply in_nz_rows in H; tauto). assert (CJ : forall j, In j (nz_cols m) -> (j < nc m)%nat) by (intros i H; apply in_nz_cols in H; tauto).
  destruct (two_sum _ (fun _ => 0) _ L1) as (a & b & EI & _). destruct (two_sum _ (fun _ => 0) _ L2) as (c & d & EJ & _).
  assert (R0 : forall i, In i (nz_rows m) -> expected m i c - el m i c = - (expected m i d - el m i d)).
  { intros i Hi. pose proof (nz_rowsum m i (RI i Hi)) as A. pose proof (nz_expsum_r m i MP (RI i Hi)) as B. rewrite EJ in A, B. cbn in A, B. lra. }
  assert (C0 : forall j, In j (nz_cols m) -> expected m a j - el m a j = - (expected m b j - el m b j)).
  { intros j Hj. pose proof (nz_colsum m j (CJ j Hj)) as A. pose proof (nz_expsum_c m j MP (CJ j Hj)) as B. rewrite EI in A, B. cbn in A, B. lra. }
  rewrite EI, EJ in *. exists (Rabs (expected m a c - el m a c)). pose proof (R0 a (or_introl eq_refl)) as Ra. pose proof (C0 c (or_introl eq_refl)) as Ca. pose proof (C0 d (or_intror (or_introl eq_refl))) as Cd.
  intros i j [<-|[<-|[]]] [<-|[<-|[]]]; [reflexivity|rewrite Ra, Rabs_Ropp; reflexivity|rewrite Ca, Rabs_Ropp; reflexivity|rewrite Ra, Cd, Ropp_involutive; reflexivity].
Qed.
Lemma stat_full : forall k l m, nonneg_table m -> has_records m -> ((length (nz_rows m) - 1) * (length (nz_cols m) - 1))%nat <> 0%nat -> ((length (nz_rows m) - 1) * (length (nz_cols m) - 1))%nat <> 1%nat ->
  stat k l m (nz_rows m) (nz_cols m) = full l m.
Proof.
  intros k l m HN HR D0 D1. pose proof (matsum_pos m HN HR) as MP. rewrite <- full_nz by assumption. unfold stat. apply Nat.eqb_neq in D0, D1. rewrite D0. apply lsum_ext. intros i _. apply lsum_ext. intros j _. unfold stat_term. rewrite D1. reflexivity.
Qed.
Lemma stat_le_full : forall l m, nonneg_table m -> has_records m -> stat true l m (nz_rows m) (nz_cols m) <= full l m.
Proof.
  intros l m HN HR. pose proof (matsum_pos m HN HR) as MP. pose proof (full_nonneg l m HN HR) as FN.
  destruct (Nat.eq_dec ((length (nz_rows m) - 1) * (length (nz_cols m) - 1)) 0) as [D|D]; [unfold stat; rewrite D; cbn [Nat.eqb]; exact FN|].
  destruct (Nat.eq_dec ((length (nz_rows m) - 1) * (length (nz_cols m) - 1)) 1) as [D1|D1]; [|right; apply stat_full; assumption].
  assert (POS : forall i j, In i (nz_rows m) -> In j (nz_cols m) -> 0 < expected m i j).
  { intros i j Hi Hj. unfold expected. apply Rdiv_lt_0_compat; [|exact MP]. apply Rmult_lt_0_compat; [apply nz_row_pos; assumption|apply nz_col_pos; assumption]. }
  assert (DOM : forall i j, In i (nz_rows m) -> In j (nz_cols m) -> dom (el m i j) (expected m i j)) by (intros i j Hi Hj; apply in_nz_rows in Hi; apply in_nz_cols in Hj; apply cell_dom; tauto).
  unfold stat. rewrite D1. cbn [Nat.eqb]. unfold stat_term. destruct l; cbn [Nat.eqb].
  - rewrite <- full_nz by assumption. apply lsum_le. intros i Hi. apply lsum_le. intros j Hj. unfold pd_term. pose proof (POS i j Hi Hj) as P. apply Rmult_le_compat_r; [left; apply Rinv_0_lt_compat; exact P|].
    rewrite yates_form. set (t := if Req_EM_T _ 0 then 0 else _). assert (T : 0 <= t <= 1).
    { unfold t. destruct (Req_EM_T _ 0) as [Z|N]; [lra|]. pose proof (Rabs_pos_lt _ N) as A. set (q := Rabs _) in *. assert (0 <= Rmin (1 / 2) q <= q) by (split; [apply Rmin_glb; lra|apply Rmin_r]). split; [apply Rmult_le_pos; [lra|left; apply Rinv_0_lt_compat; lra]|]. apply Rmult_le_reg_r with q; [lra|]. unfold Rdiv. rewrite Rmult_assoc, Rinv_l by lra. lra. }
    set (o := el m i j). set (e := expected m i j). replace ((o + t * (e - o) - e) * (o + t * (e - o) - e)) with ((1 - t) ^ 2 * ((o - e) * (o - e))) by ring. pose proof (Rle_0_sqr (o - e)) as Q. unfold Rsqr in Q. assert (0 <= (1 - t) ^ 2 <= 1) by nra. nra.
  - apply dof1 in D1. destruct D1 as [L1 L2]. destruct (same_gap m HN MP L1 L2) as (d & GAP).
    set (t := if Req_EM_T d 0 then 0 else Rmin (1 / 2) d / d). assert (D0 : 0 <= d). { destruct (nz_rows m) as [|a I] eqn:EI; [discriminate L1|]. destruct (nz_cols m) as [|c J] eqn:EJ; [discriminate L2|]. rewrite <- (GAP a c (or_introl eq_refl) (or_introl eq_refl)). apply Rabs_pos. }
    assert (T : 0 <= t <= 1).
    { unfold t. destruct (Req_EM_T d 0) as [Z|N]; [lra|]. assert (0 <= Rmin (1 / 2) d <= d) by (split; [apply Rmin_glb; lra|apply Rmin_r]). split; [apply Rmult_le_pos; [lra|left; apply Rinv_0_lt_compat; lra]|]. apply Rmult_le_reg_r with d; [lra|]. unfold Rdiv. rewrite Rmult_assoc, Rinv_l by lra. lra. }
    apply Rle_trans with ((1 - t) * full LogLikelihood m); [|nra]. rewrite <- full_nz by assumption. rewrite <- lsum_scal. apply lsum_le. intros i Hi. rewrite <- lsum_scal. apply lsum_le. intros j Hj.
    replace (yates true (el m i j) (expected m i j)) with (el m i j + t * (expected m i j - el m i j)); [apply pd_pull; auto|].
    rewrite yates_form. pose proof (GAP i j Hi Hj) as G. unfold t. destruct (Req_EM_T (expected m i j - el m i j) 0) as [Z|N].
    + rewrite Z in *. ring.
    + rewrite G. destruct (Req_EM_T d 0) as [Z|_]; [|reflexivity]. exfalso. rewrite Z in G. apply N. destruct (Req_dec (expected m i j - el m i j) 0) as [Q|Q]; [exact Q|]. apply Rabs_no_R0 in Q. contradiction.
Qed.

(** * Merging rows *)
Lemma nodup_incl_len : forall (a b : list nat), NoDup a -> incl a b -> (length a <= length b)%nat.
Proof. intros a b N I. exact (NoDup_incl_length N I). Qed.
Lemma rows_len : forall f r m, (forall i, (i < nr m)%nat -> (f i < r)%nat) -> (length (nz_rows (mrows f r m)) <= length (nz_rows m))%nat.
Proof.
  intros f r m HF. rewrite <- (map_length f (nz_rows m)). apply nodup_incl_len; [apply nodup_nz_rows|]. intros i' H. destruct (mr_nz f r m i' H) as (i & Hi & E). apply in_map_iff. eauto.
Qed.
Lemma cols_len : forall f r m, (forall i, (i < nr m)%nat -> (f i < r)%nat) -> nonneg_table m -> length (nz_cols (mrows f r m)) = length (nz_cols m).
Proof.
  intros f r m HF HN. apply Nat.le_antisymm; apply nodup_incl_len; try apply nodup_nz_cols; intros j H; apply (mr_nzc f r m HF HN); exact H.
Qed.
Lemma merge_rows : forall f r m l, (forall i, (i < nr m)%nat -> (f i < r)%nat) -> nonneg_table m -> has_records m ->
  exists v v', get_chi2 true m l = Ok v /\ get_chi2 true (mrows f r m) l = Ok v' /\ v' <= v.
Proof.
  intros f r m l HF HN HR. pose proof (mr_nonneg f r m HN) as HN'. pose proof (mr_records f r m HF HN HR) as HR'.
  exists (stat true l m (nz_rows m) (nz_cols m)), (stat true l (mrows f r m) (nz_rows (mrows f r m)) (nz_cols (mrows f r m))).
  split; [apply get_chi2_closed; assumption|]. split; [apply get_chi2_closed; assumption|].
  assert (P : 0 <= stat true l m (nz_rows m) (nz_cols m)) by (apply stat_nonneg; [assumption|assumption|left; reflexivity]).
  pose proof (rows_len f r m HF) as RL. pose proof (cols_len f r m HF HN) as CL.
  destruct (Nat.eq_dec ((length (nz_rows (mrows f r m)) - 1) * (length (nz_cols (mrows f r m)) - 1)) 0) as [D'|D']; [unfold stat at 1; rewrite D'; cbn [Nat.eqb]; exact P|].
  destruct (Nat.eq_dec ((length (nz_rows m) - 1) * (length (nz_cols m) - 1)) 1) as [D1|D1].
  - assert (INJ : forall a b, In a (nz_rows m) -> In b (nz_rows m) -> f a = f b -> a = b).
    { intros a b Ha Hb E. destruct (Nat.eq_dec a b) as [Q|Q]; [exact Q|]. exfalso. apply dof1 in D1. destruct D1 as [L1 L2].
      destruct (nz_rows m) as [|x [|y [|]]] eqn:EI; try discriminate L1. assert (F : f x = f y) by (destruct Ha as [<-|[<-|[]]], Hb as [<-|[<-|[]]]; congruence).
      assert (length (nz_rows (mrows f r m)) <= 1)%nat; [|nia].
      change 1%nat with (length [f x]). apply nodup_incl_len; [apply nodup_nz_rows|]. intros i' H. destruct (mr_nz f r m i' H) as (i & Hi & E'). rewrite EI in Hi. destruct Hi as [<-|[<-|[]]]; left; congruence. }
    pose proof (mr_inj f r m HF HN INJ true l) as Q. rewrite !get_chi2_closed in Q by assumption. injection Q as Q. rewrite Q. apply Rle_refl.
  - rewrite (stat_full true l m) by (try assumption; rewrite CL in D'; nia). eapply Rle_trans; [apply stat_le_full; assumption|]. apply mr_full; assumption.
Qed.
Lemma merge_comp : forall f g r c m, mat_eq (merge f g r c m) (transp (mrows g c (transp (mrows f r m)))).
Proof.
  intros f g r c m. split; [reflexivity|]. split; [reflexivity|]. intros i j _ _. unfold merge, mrows, transp. cbn [nr nc el].
  rewrite (lsum_swap nat nat (fun i0 j0 => if Nat.eqb (f i0) i then if Nat.eqb (g j0) j then el m i0 j0 else 0 else 0)). apply lsum_ext. intros b _. destruct (Nat.eqb (g b) j).
  - reflexivity.
  - apply lsum_0. intros a _. destruct (Nat.eqb (f a) i); reflexivity.
Qed.
Lemma transp_nonneg : forall m, nonneg_table m -> nonneg_table (transp m). Proof. intros m H i j Hi Hj. cbn in *. apply H; assumption. Qed.
Lemma transp_records : forall m, has_records m -> has_records (transp m). Proof. intros m (i & j & A & B & C). exists j, i. cbn. auto. Qed.
Lemma merge_chi2 : forall f g r c m l, merges_into f g r c m -> nonneg_table m -> has_records m ->
  exists v v', get_chi2 true m l = Ok v /\ get_chi2 true (merge f g r c m) l = Ok v' /\ v' <= v.
Proof.
  intros f g r c m l [HF HG] HN HR. destruct (merge_rows f r m l HF HN HR) as (v & w & E1 & E2 & L1).
  pose proof (mr_nonneg f r m HN) as HN'. pose proof (mr_records f r m HF HN HR) as HR'.
  destruct (merge_rows g c (transp (mrows f r m)) l) as (w' & v' & E3 & E4 & L2); [exact HG|apply transp_nonneg; exact HN'|apply transp_records; exact HR'|].
  exists v, v'. split; [exact E1|]. rewrite (get_chi2_eq _ _ _ _ (merge_comp f g r c m)), get_chi2_transp. split; [exact E4|]. rewrite get_chi2_transp in E3. rewrite E2 in E3. injection E3 as <-. lra.
Qed.
