(** Proofs about significances: p-values, percentile rank, Chernoff fallback, the fit's residuals. *)
From Coq Require Import String ZArith List Bool Reals Lra Lia Sorting.Permutation.
From Flocq Require Import Core.
Import ListNotations.
From Verif Require Import F64 Base RSum StatsModel SpecStats StatsProofs Num SimModel SigModel SpecSig.
Open Scope list_scope.
Open Scope R_scope.

Lemma ln_quot : forall x y, 0 < x -> 0 < y -> ln (x / y) = ln x - ln y.
Proof. intros x y X Y. unfold Rdiv. rewrite ln_mult, ln_Rinv; [ring|assumption..|apply Rinv_0_lt_compat; assumption]. Qed.
Lemma ln_power : forall n x, 0 < x -> ln (x ^ n) = INR n * ln x.
Proof. induction n as [|n IH]; intros x X; [simpl; rewrite ln_1; ring|]. rewrite S_INR. cbn [pow]. rewrite ln_mult, IH; [ring|assumption..|apply pow_lt; assumption]. Qed.

(** * counting *)
Lemma count_parts : forall c l, (above c l + equal_to c l + below c l = length l)%nat.
Proof.
  intros c l. unfold above, equal_to, below. induction l as [|x l IH]; [reflexivity|]. simpl.
  destruct (Rlt_dec c x), (Req_EM_T c x), (Rlt_dec x c); simpl; try lia; exfalso; lra.
Qed.
Lemma filter_lt : forall c l, length (filter (fun x => rltb x c) l) = below c l.
Proof. intros. reflexivity. Qed.
Lemma filter_le : forall c l, length (filter (fun x => rleb x c) l) = (below c l + equal_to c l)%nat.
Proof.
  intros c l. unfold equal_to, below, rleb. induction l as [|x l IH]; [reflexivity|]. simpl.
  destruct (Rle_dec x c), (Req_EM_T c x), (Rlt_dec x c); simpl; try lia; exfalso; lra.
Qed.
Lemma length_filter_perm : forall (p : R -> bool) l l', Permutation l l' -> length (filter p l) = length (filter p l').
Proof. intros p l l' P. induction P; simpl; try destruct (p x); try destruct (p y); simpl; congruence. Qed.
Lemma above_antitone : forall c c' l, c <= c' -> (above c' l <= above c l)%nat.
Proof. intros c c' l H. unfold above. induction l as [|x l IH]; [reflexivity|]. simpl. destruct (Rlt_dec c' x), (Rlt_dec c x); simpl; try lia. exfalso. lra. Qed.
Lemma above_equal : forall c c' l, c < c' -> (above c' l + equal_to c' l <= above c l)%nat.
Proof. intros c c' l H. unfold above, equal_to. induction l as [|x l IH]; [reflexivity|]. simpl. destruct (Rlt_dec c' x), (Req_EM_T c' x), (Rlt_dec c x); simpl; try lia; exfalso; lra. Qed.

Definition mc_p (c : R) (l : list R) : R := if Nat.eqb (equal_to c l) 0 then INR (above c l) / INR (length l) else (INR (above c l) + (INR (equal_to c l) - 1) / 2) / INR (length l).
Lemma INR_pos : forall n, (0 < n)%nat -> 0 < INR n. Proof. intros. apply lt_0_INR. assumption. Qed.
Lemma MC_p : forall SL c l, l <> [] -> one_minus_percent (percentileofscore SL l c) = Fin (mc_p c l).
Proof.
  intros SL c l NE. unfold percentileofscore. destruct l as [|x l0]; [congruence|]. set (l := x :: l0) in *. rewrite filter_lt, filter_le. cbn [one_minus_percent]. f_equal.
  pose proof (count_parts c l) as P. assert (L : 0 < INR (length l)) by (apply INR_pos; simpl; lia). apply (f_equal INR) in P. rewrite !plus_INR in P. unfold mc_p.
  destruct (Nat.eqb_spec (equal_to c l) 0) as [E|E].
  - rewrite E, Nat.add_0_r, Nat.ltb_irrefl, !plus_INR. rewrite E in P. simpl (INR 0) in *. apply (Rmult_eq_reg_r (INR (length l))); [|lra]. field_simplify; [|lra|lra]. lra.
  - rewrite (proj2 (Nat.ltb_lt _ _)) by lia. rewrite !plus_INR. simpl (INR 1). apply (Rmult_eq_reg_r (INR (length l))); [|lra]. field_simplify; [|lra|lra]. lra.
Qed.
Lemma div_range : forall a n, 0 < n -> 0 <= a <= n -> 0 <= a / n <= 1.
Proof. intros a n H [A B]. split; [apply Rmult_le_pos; [lra|apply Rlt_le, Rinv_0_lt_compat; lra]|]. apply (Rmult_le_reg_r n); [lra|]. unfold Rdiv. rewrite Rmult_assoc, Rinv_l by lra. lra. Qed.
Lemma le_div : forall a b n, 0 < n -> a <= b -> a / n <= b / n.
Proof. intros a b n H L. apply Rmult_le_compat_r; [apply Rlt_le, Rinv_0_lt_compat; lra|lra]. Qed.
Lemma mc_p_range : forall c l, l <> [] -> 0 <= mc_p c l <= 1.
Proof.
  intros c l NE. assert (L : 0 < INR (length l)) by (apply INR_pos; destruct l; [congruence|simpl; lia]). pose proof (count_parts c l) as P. apply (f_equal INR) in P. rewrite !plus_INR in P.
  pose proof (pos_INR (above c l)). pose proof (pos_INR (below c l)). pose proof (pos_INR (equal_to c l)). unfold mc_p. destruct (Nat.eqb_spec (equal_to c l) 0) as [E|E].
  - rewrite E in P. simpl in P. apply div_range; lra.
  - assert (1 <= INR (equal_to c l)) by (apply (le_INR 1); lia). apply div_range; lra.
Qed.
Lemma mc_p_mono : forall c c' l, l <> [] -> c <= c' -> mc_p c' l <= mc_p c l.
Proof.
  intros c c' l NE [H| ->]; [|lra]. assert (L : 0 < INR (length l)) by (apply INR_pos; destruct l; [congruence|simpl; lia]).
  pose proof (le_INR _ _ (above_equal _ _ l H)) as A. rewrite plus_INR in A. pose proof (pos_INR (equal_to c' l)).
  assert (mc_p c' l <= (INR (above c' l) + INR (equal_to c' l)) / INR (length l)). { unfold mc_p. destruct (Nat.eqb_spec (equal_to c' l) 0) as [E|E]; apply le_div; lra. }
  assert (INR (above c l) / INR (length l) <= mc_p c l). { unfold mc_p. destruct (Nat.eqb_spec (equal_to c l) 0) as [E|E]; [lra|]. assert (1 <= INR (equal_to c l)) by (apply (le_INR 1); lia). apply le_div; lra. }
  pose proof (le_div _ _ _ L A). lra.
Qed.

(** * Chernoff fallback *)
Lemma two_pi : 1 < 2 * PI. Proof. pose proof PI2_3_2. unfold PI2 in *. lra. Qed.
Lemma ln_le_sub1 : forall x, 0 < x -> ln x <= x - 1.
Proof. intros x H. destruct (Req_dec x 1) as [->|N]; [rewrite ln_1; lra|]. rewrite <- (ln_exp (x - 1)). pose proof (exp_ineq1 (x - 1) ltac:(lra)) as E. left. apply ln_increasing; lra. Qed.
Lemma chernoff_ok : forall c k e, 0 < c -> 0 < k -> let u := chernoff_exponent c k + e in
  chernoff c k e = if rltb 0 u then Ok (Fin (sqrt (u - ln u))) else Raise ValueError.
Proof.
  intros c k e C K u. unfold chernoff, mlog. assert (Z : 0 < c / k) by (apply Rdiv_lt_0_compat; assumption). rewrite (proj2 (rleb_false _ _)) by lra. cbn [rbind].
  replace (- ln (2 * PI) - k * ln (c / k) + k * (c / k - 1) + e) with u by (unfold u, chernoff_exponent; ring).
  destruct (rltb 0 u) eqn:U; [apply rltb_true in U|apply rltb_false in U].
  - rewrite (proj2 (rleb_false _ _)) by lra. cbn [rbind]. rewrite (proj2 (rltb_false _ _)); [reflexivity|]. pose proof (ln_le_sub1 u U). lra.
  - rewrite (proj2 (rleb_true _ _)) by lra. reflexivity.
Qed.
Lemma exponent_mono : forall k c c', 0 < k -> k <= c -> c <= c' -> chernoff_exponent c k <= chernoff_exponent c' k.
Proof.
  intros k c c' K KC CC. unfold chernoff_exponent. assert (Z : 1 <= c / k). { apply (Rmult_le_reg_r k); [lra|]. unfold Rdiv. rewrite Rmult_assoc, Rinv_l; lra. }
  assert (ZZ : c / k <= c' / k) by (apply le_div; lra). set (z := c / k) in *. set (z' := c' / k) in *.
  assert (L : ln z' - ln z <= z' - z).
  { rewrite <- ln_quot by lra. assert (P : 0 < z' / z) by (apply Rdiv_lt_0_compat; lra). pose proof (ln_le_sub1 _ P). assert (z' / z - 1 <= z' - z). { apply (Rmult_le_reg_r z); [lra|]. unfold Rdiv. rewrite Rmult_minus_distr_r, Rmult_assoc, Rinv_l by lra. nra. } lra. }
  assert (k * (z - 1 - ln z) <= k * (z' - 1 - ln z')) by (apply Rmult_le_compat_l; lra). lra.
Qed.
Lemma u_ln_u_mono : forall u v, 1 <= u -> u <= v -> u - ln u <= v - ln v.
Proof.
  intros u v U V. assert (ln v - ln u <= v - u); [|lra]. rewrite <- ln_quot by lra. assert (P : 0 < v / u) by (apply Rdiv_lt_0_compat; lra).
  pose proof (ln_le_sub1 _ P). assert (v / u - 1 <= v - u). { apply (Rmult_le_reg_r u); [lra|]. unfold Rdiv. rewrite Rmult_minus_distr_r, Rmult_assoc, Rinv_l by lra. nra. } lra.
Qed.

(** * asymptotic method *)
Lemma ndof_pos : forall m, (2 <= nr m)%nat -> (2 <= nc m)%nat -> 0 < IZR (theoretical_ndof m).
Proof. intros m A B. apply IZR_lt. unfold theoretical_ndof. nia. Qed.
Lemma neqb_zero : forall x, neqb x (Fin 0) = true <-> x = Fin 0.
Proof. intros [|r| |]; cbn; split; try discriminate; try (destruct (Req_EM_T r 0) as [->|]; [reflexivity|discriminate]). intros E. injection E as ->. destruct (Req_EM_T 0 0); congruence. Qed.

(** * the fit *)
Lemma fold_min_le : forall l a x, In x l \/ x = a -> fold_left Rmin l a <= x.
Proof.
  induction l as [|y l IH]; intros a x [H|H]; simpl; try contradiction; [lra| |].
  - destruct H as [->|H]; [|apply IH; left; exact H]. eapply Rle_trans; [apply (IH _ (Rmin a x)); right; reflexivity|apply Rmin_r].
  - subst. eapply Rle_trans; [apply (IH _ (Rmin a y)); right; reflexivity|apply Rmin_l].
Qed.
Lemma fold_max_ge : forall l a x, In x l \/ x = a -> x <= fold_left Rmax l a.
Proof.
  induction l as [|y l IH]; intros a x [H|H]; simpl; try contradiction; [lra| |].
  - destruct H as [->|H]; [|apply IH; left; exact H]. eapply Rle_trans; [apply (Rmax_r a x)|apply (IH _ (Rmax a x)); right; reflexivity].
  - subst. eapply Rle_trans; [apply (Rmax_l a y)|apply (IH _ (Rmax a y)); right; reflexivity].
Qed.
Lemma lmin_le : forall l x, In x l -> lmin l <= x. Proof. intros [|a l] x H; [contradiction|]. apply fold_min_le. simpl in H. intuition congruence. Qed.
Lemma lmax_ge : forall l x, In x l -> x <= lmax l. Proof. intros [|a l] x H; [contradiction|]. apply fold_max_ge. simpl in H. intuition congruence. Qed.
Lemma hrange_spec : forall l, l <> [] -> let '(a, b) := hrange l in a < b /\ forall x, In x l -> a <= x <= b.
Proof.
  intros [|y l0] NE; [congruence|]. set (l := y :: l0). pose proof (lmin_le l y (or_introl eq_refl)). pose proof (lmax_ge l y (or_introl eq_refl)). unfold hrange.
  destruct (reqb (lmin l) (lmax l)) eqn:E; [apply reqb_true in E|apply reqb_false in E]; (split; [lra|]; intros x H'; pose proof (lmin_le l x H'); pose proof (lmax_ge l x H'); lra).
Qed.
Lemma hbound_0 : forall l n, hbound l n 0 = fst (hrange l). Proof. intros. unfold hbound. destruct (hrange l). simpl. ring. Qed.
Lemma hbound_n : forall l n, (0 < n)%nat -> hbound l n n = snd (hrange l). Proof. intros l n H. unfold hbound. destruct (hrange l). simpl. field. apply not_0_INR. lia. Qed.
Lemma hbound_S : forall l n i, (0 < n)%nat -> hbound l n (S i) = hbound l n i + (snd (hrange l) - fst (hrange l)) / INR n.
Proof. intros l n i H. unfold hbound. destruct (hrange l) as [a b]. cbn [fst snd]. rewrite S_INR. field. apply not_0_INR. lia. Qed.
Lemma hbound_lt : forall l n i, l <> [] -> (0 < n)%nat -> hbound l n i < hbound l n (S i).
Proof. intros l n i NE H. rewrite hbound_S by exact H. pose proof (hrange_spec l NE) as P. destruct (hrange l) as [a b]. cbn [fst snd]. assert (0 < (b - a) / INR n) by (apply Rdiv_lt_0_compat; [lra|apply INR_pos; exact H]). lra. Qed.
Lemma hbound_le : forall l n i j, l <> [] -> (0 < n)%nat -> (i <= j)%nat -> hbound l n i <= hbound l n j.
Proof. intros l n i j NE H L. induction L; [lra|]. pose proof (hbound_lt l n m NE H). lra. Qed.
(** every value lies in exactly one bin *)
Lemma in_one_bin : forall l n x, l <> [] -> (0 < n)%nat -> In x l -> exists i, (i < n)%nat /\ forall k, (k < n)%nat -> (in_hbin l n k x = true <-> k = i).
Proof.
  intros l n x NE N HX. pose proof (hrange_spec l NE) as P. pose proof (hbound_0 l n) as B0. pose proof (hbound_n l n N) as BN. destruct (hrange l) as [a b]. cbn [fst snd] in *. destruct P as [AB P]. specialize (P x HX).
  assert (EX : forall m, (m <= n)%nat -> x < hbound l n m -> exists i, (i < m)%nat /\ hbound l n i <= x < hbound l n (S i)).
  { induction m as [|m IH]; intros M L; [lra|]. destruct (Rlt_dec x (hbound l n m)) as [L'|L']; [destruct (IH ltac:(lia) L') as (i & Hi & E); exists i; split; [lia|exact E]|]. exists m. split; [lia|lra]. }
  assert (SPEC : forall k, in_hbin l n k x = true <-> hbound l n k <= x /\ (x < hbound l n (S k) \/ (S k = n /\ x <= hbound l n (S k)))).
  { intros k. unfold in_hbin. rewrite andb_true_iff, orb_true_iff, andb_true_iff, rleb_true, rltb_true, Nat.eqb_eq, rleb_true. tauto. }
  destruct (Rlt_dec x (hbound l n n)) as [L|L].
  - destruct (EX n (le_n n) L) as (i & Hi & E). exists i. split; [exact Hi|]. intros k Hk. rewrite SPEC. split; [|intros ->; tauto]. intros [A B].
    destruct (lt_eq_lt_dec k i) as [[H|H]|H]; [exfalso|exact H|exfalso].
    + pose proof (hbound_le l n (S k) i NE N ltac:(lia)). destruct B as [B|[B1 B2]]; [lra|]. rewrite B1 in *. lra.
    + pose proof (hbound_le l n (S i) k NE N ltac:(lia)). lra.
  - exists (n - 1)%nat. split; [lia|]. intros k Hk. rewrite SPEC. split.
    + intros [A B]. destruct (Nat.eq_dec (S k) n) as [E|E]; [lia|]. exfalso. pose proof (hbound_le l n (S k) (n - 1) NE N ltac:(lia)). pose proof (hbound_lt l n (n - 1) NE N) as LT. replace (S (n - 1)) with n in LT by lia. destruct B as [B|[B1 B2]]; [lra|lia].
    + intros ->. replace (S (n - 1)) with n by lia. pose proof (hbound_lt l n (n - 1) NE N) as LT. replace (S (n - 1)) with n in LT by lia. split; [lra|]. right. split; [lia|]. lra.
Qed.
Lemma sum_ind : forall n i, (i < n)%nat -> list_sum (map (fun k => if Nat.eqb k i then 1 else 0) (seq 0 n))%nat = 1%nat.
Proof.
  intros n i H. assert (G : forall a len, list_sum (map (fun k => if Nat.eqb k i then 1 else 0) (seq a len))%nat = if (Nat.leb a i && Nat.ltb i (a + len))%bool then 1%nat else 0%nat).
  { intros a len. revert a. induction len as [|len IH]; intros a; [simpl; destruct (Nat.leb_spec a i), (Nat.ltb_spec i (a + 0)); simpl; try reflexivity; lia|]. cbn [seq map list_sum fold_right]. change (fold_right Nat.add 0%nat ?l) with (list_sum l). rewrite IH.
    destruct (Nat.eqb_spec a i), (Nat.leb_spec (S a) i), (Nat.ltb_spec i (S a + len)), (Nat.leb_spec a i), (Nat.ltb_spec i (a + S len)); simpl; lia. }
  rewrite G. rewrite (proj2 (Nat.leb_le _ _)), (proj2 (Nat.ltb_lt _ _)) by lia. reflexivity.
Qed.
Lemma sum_count : forall (p : nat -> R -> bool) n l, (forall x, In x l -> exists i, (i < n)%nat /\ forall k, (k < n)%nat -> (p k x = true <-> k = i)) ->
  list_sum (map (fun i => length (filter (p i) l)) (seq 0 n)) = length l.
Proof.
  intros p n. induction l as [|x l IH]; intros H.
  - simpl. generalize (seq 0 n). intros s. induction s as [|a s IHs]; [reflexivity|exact IHs].
  - simpl length. destruct (H x (or_introl eq_refl)) as (i & Hi & E). rewrite <- IH by (intros; apply H; right; assumption).
    transitivity (list_sum (map (fun k => (if Nat.eqb k i then 1 else 0) + length (filter (p k) l))%nat (seq 0 n))).
    + f_equal. apply map_ext_in. intros k Hk. apply in_seq in Hk. simpl. specialize (E k ltac:(lia)). destruct (p k x), (Nat.eqb_spec k i); simpl; try reflexivity; exfalso; intuition congruence.
    + assert (A : forall (f g : nat -> nat) s, list_sum (map (fun k => f k + g k)%nat s) = (list_sum (map f s) + list_sum (map g s))%nat) by (clear; induction s as [|a s IHs]; simpl; [reflexivity|rewrite IHs; lia]).
      rewrite A, sum_ind by exact Hi. reflexivity.
Qed.
(** n! >= ... : minus the logarithm of a Poisson probability is never negative *)
Lemma pow_fact_exp : forall y f, 0 < f -> f ^ y / INR (fact y) <= exp f.
Proof.
  intros y f F. unfold exp. destruct (exist_exp f) as (e & E). cbn [proj1_sig]. unfold exp_in, infinit_sum in E.
  assert (P : forall i, 0 <= / INR (fact i) * f ^ i). { intros i. apply Rmult_le_pos; [apply Rlt_le, Rinv_0_lt_compat, INR_fact_lt_0|apply pow_le; lra]. }
  assert (S1 : forall n, (y <= n)%nat -> / INR (fact y) * f ^ y <= sum_f_R0 (fun i => / INR (fact i) * f ^ i) n).
  { intros n L. induction L as [|n L IH].
    - destruct y; [simpl; lra|]. rewrite tech5. assert (0 <= sum_f_R0 (fun i => / INR (fact i) * f ^ i) y) by (apply cond_pos_sum; exact P). lra.
    - rewrite tech5. pose proof (P (S n)). lra. }
  destruct (Rle_dec (f ^ y / INR (fact y)) e) as [H|H]; [exact H|]. exfalso. set (d := f ^ y / INR (fact y) - e) in *. destruct (E d ltac:(unfold d; lra)) as (N & HN).
  specialize (HN (Nat.max N y) ltac:(lia)). specialize (S1 (Nat.max N y) ltac:(lia)). unfold R_dist in HN. apply Rabs_def2 in HN. unfold d in HN. unfold Rdiv in *. lra.
Qed.
Lemma poisson_nonneg : forall y f, 0 < f -> 0 <= f - INR y * ln f + ln (INR (fact y)).
Proof.
  intros y f F. pose proof (pow_fact_exp y f F) as H. pose proof (INR_fact_lt_0 y) as FP. assert (PP : 0 < f ^ y) by (apply pow_lt; exact F).
  assert (D : 0 < f ^ y / INR (fact y)) by (apply Rdiv_lt_0_compat; assumption).
  assert (L : ln (f ^ y / INR (fact y)) <= f). { rewrite <- (ln_exp f) at 2. destruct H as [H|H]; [left; apply ln_increasing; assumption|rewrite H; lra]. }
  rewrite ln_quot in L by assumption. rewrite ln_power in L by exact F. lra.
Qed.
