(** C83: how often the MC p-value is small when there is no correlation. *)
From Coq Require Import String ZArith List Bool Reals Lra Lia Psatz Sorting.Permutation.
From Verif Require Import Base RSum StatsModel Num SigModel SpecSig SigProofs.
Import ListNotations.
Open Scope list_scope.
Open Scope R_scope.

(** Without correlation the test statistic of the data and those of N simulated tables are N+1 exchangeable values: each of them is equally
    likely to be that of the data. [others i xs] are the simulated ones if the i-th value belongs to the data. *)
Definition others (i : nat) (xs : list R) : list R := firstn i xs ++ skipn (S i) xs.
Definition at_most (p : num) (a : R) : bool := match p with Fin r => if Rle_dec r a then true else false | _ => false end.
(** the number of choices of the data value for which the MC p-value is at most a *)
Definition false_positives (SL : slib) (xs : list R) (a : R) : nat :=
  length (filter (fun i => at_most (fst (MC_of_chi2s SL (nth i xs 0) (others i xs))) a) (seq 0 (length xs))).

Lemma split_at : forall i (xs : list R), (i < length xs)%nat -> xs = firstn i xs ++ nth i xs 0 :: skipn (S i) xs.
Proof.
  induction i as [|i IH]; intros [|x xs] H; simpl in H; try lia; [reflexivity|]. cbn [firstn nth skipn app]. f_equal. apply IH. lia.
Qed.
Lemma above_others : forall i xs, (i < length xs)%nat -> above (nth i xs 0) (others i xs) = above (nth i xs 0) xs.
Proof.
  intros i xs H. pose proof (split_at i xs H) as E. set (x := nth i xs 0) in *. unfold others, above. rewrite E at 3. rewrite !filter_app, !app_length. cbn [filter]. destruct (Rlt_dec x x); [lra|]. reflexivity.
Qed.
Lemma equal_others : forall i xs, (i < length xs)%nat -> equal_to (nth i xs 0) xs = S (equal_to (nth i xs 0) (others i xs)).
Proof.
  intros i xs H. pose proof (split_at i xs H) as E. set (x := nth i xs 0) in *. unfold others, equal_to. rewrite E at 1. rewrite !filter_app, !app_length. cbn [filter]. destruct (Req_EM_T x x); [|congruence]. cbn [length]. lia.
Qed.
Lemma length_others : forall i xs, (i < length xs)%nat -> length xs = S (length (others i xs)).
Proof. intros i xs H. pose proof (split_at i xs H) as E. rewrite E at 1. unfold others. rewrite !app_length. cbn [length]. lia. Qed.

Definition small (xs : list R) (k : nat) (v : R) : bool := (2 * above v xs + equal_to v xs <=? 2 * k + 2)%nat.
Lemma p_small : forall SL xs i N k, length xs = S N -> (1 <= N)%nat -> (i < length xs)%nat ->
  at_most (fst (MC_of_chi2s SL (nth i xs 0) (others i xs))) (INR k / INR N) = small xs k (nth i xs 0).
Proof.
  intros SL xs i N k L HN Hi. pose proof (length_others i xs Hi) as LO. assert (LN : length (others i xs) = N) by lia.
  assert (NE : others i xs <> []) by (intros E; rewrite E in LN; simpl in LN; lia). unfold MC_of_chi2s. cbn [fst]. rewrite MC_p by exact NE. cbn [at_most].
  pose proof (above_others i xs Hi) as A. pose proof (equal_others i xs Hi) as G. set (x := nth i xs 0) in *. assert (NP : 0 < INR N) by (apply lt_0_INR; lia).
  assert (P : mc_p x (others i xs) <= INR k / INR N <-> (2 * above x xs + equal_to x xs <= 2 * k + 2)%nat).
  { assert (D : forall q, q / INR N <= INR k / INR N <-> q <= INR k).
    { intros q. split; intros H; [|apply Rmult_le_compat_r; [left; apply Rinv_0_lt_compat; exact NP|exact H]]. apply Rmult_le_reg_r with (/ INR N); [apply Rinv_0_lt_compat; exact NP|exact H]. }
    unfold mc_p. rewrite LN, A, G. destruct (Nat.eqb_spec (equal_to x (others i xs)) 0) as [E|E].
    - rewrite D, E. split; intros H; [apply INR_le in H; lia|apply le_INR; lia].
    - rewrite D. set (g := equal_to x (others i xs)) in *. set (m := above x xs). split; intros H.
      + apply INR_le. rewrite !plus_INR, !mult_INR, (S_INR g). change (INR 2) with 2. lra.
      + apply le_INR in H. rewrite !plus_INR, !mult_INR, (S_INR g) in H. change (INR 2) with 2 in H. lra. }
  unfold small. destruct (Rle_dec (mc_p x (others i xs)) (INR k / INR N)) as [H|H].
  - symmetry. apply Nat.leb_le, P, H.
  - symmetry. apply Nat.leb_gt. apply Nat.lt_nge. intros K. apply H, P, K.
Qed.
Lemma filter_index : forall (q : R -> bool) xs, length (filter (fun i => q (nth i xs 0)) (seq 0 (length xs))) = length (filter q xs).
Proof.
  intros q xs. assert (G : forall l s (f : nat -> R), (forall i, (i < length l)%nat -> f (s + i)%nat = nth i l 0) -> length (filter (fun i => q (f i)) (seq s (length l))) = length (filter q l)).
  { induction l as [|x l IH]; intros s f F; [reflexivity|]. cbn [length seq filter]. pose proof (F 0%nat ltac:(simpl; lia)) as F0. rewrite Nat.add_0_r in F0. cbn [nth] in F0. rewrite F0.
    assert (R : length (filter (fun i => q (f i)) (seq (S s) (length l))) = length (filter q l)).
    { apply IH. intros i Hi. replace (S s + i)%nat with (s + S i)%nat by lia. rewrite F by (simpl; lia). reflexivity. }
    destruct (q x); cbn [length]; rewrite R; reflexivity. }
  apply (G xs 0%nat (fun i => nth i xs 0)). reflexivity.
Qed.
Lemma count_values : forall SL xs N k, length xs = S N -> (1 <= N)%nat -> false_positives SL xs (INR k / INR N) = length (filter (small xs k) xs).
Proof.
  intros SL xs N k L HN. unfold false_positives. rewrite <- filter_index. f_equal. apply filter_ext_in. intros i Hi. apply in_seq in Hi. apply p_small; [exact L|exact HN|lia].
Qed.

Lemma least : forall l : list R, l <> [] -> exists v, In v l /\ forall x, In x l -> v <= x.
Proof.
  induction l as [|a l IH]; intros NE; [congruence|]. destruct l as [|b l].
  - exists a. split; [left; reflexivity|]. intros x [->|[]]. lra.
  - destruct (IH ltac:(discriminate)) as (v & V & H). destruct (Rle_dec a v) as [L|L].
    + exists a. split; [left; reflexivity|]. intros x [->|X]; [lra|]. specialize (H x X). lra.
    + exists v. split; [right; exact V|]. intros x [->|X]; [lra|apply H, X].
Qed.
Lemma filter_le_filter : forall (f g : R -> bool) l, (forall x, In x l -> f x = true -> g x = true) -> (length (filter f l) <= length (filter g l))%nat.
Proof.
  induction l as [|a l IH]; intros H; [apply Nat.le_refl|]. cbn [filter]. specialize (IH (fun x X => H x (or_intror X))). pose proof (H a (or_introl eq_refl)) as Ha.
  destruct (f a); [rewrite Ha by reflexivity; cbn [length]; lia|]. destruct (g a); cbn [length]; lia.
Qed.
Lemma split_count : forall v xs, length (filter (fun x => if Rle_dec v x then true else false) xs) = (above v xs + equal_to v xs)%nat.
Proof.
  intros v xs. unfold above, equal_to. induction xs as [|x xs IH]; [reflexivity|]. cbn [filter]. destruct (Rle_dec v x), (Rlt_dec v x), (Req_EM_T v x); cbn [length]; lra || lia.
Qed.
Lemma filter_compl : forall (f : R -> bool) l, (length (filter f l) + length (filter (fun x => negb (f x)) l) = length l)%nat.
Proof. intros f l. induction l as [|a l IH]; [reflexivity|]. cbn [filter length]. destruct (f a); cbn [negb length]; lia. Qed.

Lemma upper : forall xs k, filter (small xs k) xs = [] \/ exists v, In v xs /\ (2 * above v xs + equal_to v xs <= 2 * k + 2)%nat /\ (length (filter (small xs k) xs) <= above v xs + equal_to v xs)%nat.
Proof.
  intros xs k. destruct (filter (small xs k) xs) as [|a l] eqn:E; [left; reflexivity|right]. destruct (least (filter (small xs k) xs)) as (v & V & H); [rewrite E; discriminate|].
  apply filter_In in V. destruct V as [V1 V2]. exists v. split; [exact V1|]. split; [apply Nat.leb_le, V2|]. rewrite <- E, <- split_count. apply filter_le_filter. intros x X S.
  destruct (Rle_dec v x) as [L|L]; [reflexivity|]. exfalso. apply L, H, filter_In. split; assumption.
Qed.

(** with ties the error rate can be up to 2 (k+1) / (N+1) ... *)
Theorem C83_ties : forall SL xs N k, length xs = S N -> (1 <= N)%nat -> (false_positives SL xs (INR k / INR N) <= 2 * (k + 1))%nat.
Proof.
  intros SL xs N k L HN. rewrite (count_values SL xs N k L HN). destruct (upper xs k) as [E|(v & _ & A & B)]; [rewrite E; simpl; lia|lia].
Qed.
(** ... and this is reached *)
Lemma above_repeat : forall v n, above v (repeat v n) = 0%nat.
Proof. intros v n. unfold above. induction n as [|n IH]; [reflexivity|]. cbn [repeat filter]. destruct (Rlt_dec v v); [lra|exact IH]. Qed.
Lemma equal_repeat : forall v n, equal_to v (repeat v n) = n.
Proof. intros v n. unfold equal_to. induction n as [|n IH]; [reflexivity|]. cbn [repeat filter]. destruct (Req_EM_T v v); [cbn [length]; rewrite IH; reflexivity|congruence]. Qed.
Theorem C83_ties_reached : forall SL k, false_positives SL (repeat 1 (2 * (k + 1))) (INR k / INR (2 * k + 1)) = (2 * (k + 1))%nat.
Proof.
  intros SL k. rewrite (count_values SL _ (2 * k + 1) k) by (rewrite ?repeat_length; lia). rewrite <- (repeat_length 1 (2 * (k + 1))) at 3. set (xs := repeat 1 (2 * (k + 1))) in *.
  assert (E : forall l, (forall x, In x l -> x = 1) -> length (filter (small xs k) l) = length l).
  { induction l as [|a l IH]; intros H; [reflexivity|]. cbn [filter]. rewrite (H a (or_introl eq_refl)). assert (S1 : small xs k 1 = true) by (unfold small, xs; rewrite above_repeat, equal_repeat; apply Nat.leb_le; lia). rewrite S1. cbn [length]. rewrite IH; [reflexivity|]. intros x X. apply H. right. exact X. }
  apply E. intros x X. apply repeat_spec in X. exact X.
Qed.

(** without ties it is exactly (k+1) / (N+1): the p-value is k/N or less for k+1 of the N+1 equally likely choices *)
Lemma equal_distinct : forall xs v, NoDup xs -> In v xs -> equal_to v xs = 1%nat.
Proof.
  intros xs v ND. unfold equal_to. induction ND as [|x xs NI ND IH]; intros H; [destruct H|]. cbn [filter]. destruct (Req_EM_T v x) as [->|N].
  - cbn [length]. f_equal. assert (E : filter (fun y => if Req_EM_T x y then true else false) xs = []).
    { destruct (filter (fun y => if Req_EM_T x y then true else false) xs) as [|y l] eqn:E; [reflexivity|exfalso]. assert (Y : In y (filter (fun y => if Req_EM_T x y then true else false) xs)) by (rewrite E; left; reflexivity).
      apply filter_In in Y. destruct Y as [Y1 Y2]. destruct (Req_EM_T x y); [subst; contradiction|discriminate]. }
    rewrite E. reflexivity.
  - apply IH. destruct H as [->|H]; [congruence|exact H].
Qed.
Lemma greatest : forall l : list R, l <> [] -> exists v, In v l /\ forall x, In x l -> x <= v.
Proof.
  intros l NE. destruct (least (map Ropp l)) as (v & V & H); [destruct l; [congruence|discriminate]|]. apply in_map_iff in V. destruct V as (w & <- & W). exists w. split; [exact W|]. intros x X.
  specialize (H (- x) (in_map Ropp _ _ X)). lra.
Qed.
Theorem C83_distinct : forall SL xs N k, length xs = S N -> (1 <= N)%nat -> (k <= N)%nat -> NoDup xs -> false_positives SL xs (INR k / INR N) = (k + 1)%nat.
Proof.
  intros SL xs N k L HN HK ND. rewrite (count_values SL xs N k L HN). apply Nat.le_antisymm.
  - destruct (upper xs k) as [E|(v & V & A & B)]; [rewrite E; simpl; lia|]. rewrite (equal_distinct xs v ND V) in *. lia.
  - pose proof (filter_compl (small xs k) xs) as C. assert (U : (length (filter (fun x => negb (small xs k x)) xs) <= N - k)%nat); [|lia].
    destruct (filter (fun x => negb (small xs k x)) xs) as [|a l] eqn:E; [simpl; lia|]. destruct (greatest (filter (fun x => negb (small xs k x)) xs)) as (v & V & H); [rewrite E; discriminate|].
    apply filter_In in V. destruct V as [V1 V2]. apply negb_true_iff, Nat.leb_gt in V2. rewrite (equal_distinct xs v ND V1) in V2.
    assert (B : (length (filter (fun x => negb (small xs k x)) xs) <= length (filter (fun x => negb (if Rlt_dec v x then true else false)) xs))%nat).
    { apply filter_le_filter. intros x X S. destruct (Rlt_dec v x) as [T|T]; [|reflexivity]. exfalso. specialize (H x ltac:(apply filter_In; split; assumption)). lra. }
    pose proof (filter_compl (fun x => if Rlt_dec v x then true else false) xs) as C'. unfold above in V2. rewrite E in B. lia.
Qed.
(** so an infinite significance (p = 0) occurs without correlation for one of the N+1 choices, or for two if the largest value occurs twice *)
Theorem C83_zero : forall SL xs N, length xs = S N -> (1 <= N)%nat ->
  (false_positives SL xs 0 <= 2)%nat /\ (NoDup xs -> false_positives SL xs 0 = 1%nat).
Proof.
  intros SL xs N L HN. replace 0 with (INR 0 / INR N) by (simpl; unfold Rdiv; ring). split; [apply (C83_ties SL xs N 0 L HN)|]. intros ND. apply (C83_distinct SL xs N 0 L HN); [lia|exact ND].
Qed.
Example C83_case : NoDup [3; 1; 2] /\ length [3; 1; 2] = 3%nat.
Proof. split; [|reflexivity]. repeat constructor; simpl; intros H; repeat destruct H as [H|H]; try lra; exact H. Qed.

