(** Uniqueness and monotonicity of distribution functions; beta and chi2 laws with integer parameters. *)
From Coq Require Import ZArith Reals Lra Lia Psatz List.
From Coquelicot Require Import Coquelicot.
From Verif Require Import RSum Num SpecSig OutModel SpecOut SpecGauss.
Import ListNotations.
Open Scope R_scope.

Definition interval (D : R -> Prop) : Prop := forall x y z, D x -> D y -> x <= z <= y -> D z.

Lemma cdf_incr : forall D h F, interval D -> (forall x, D x -> 0 < h x) -> cdf_on D h F -> forall x y, D x -> D y -> x < y -> F x < F y.
Proof.
  intros D h F HD Hh ((C & HC & H) & _) x y Dx Dy Hxy. destruct (MVT_cor2 F (fun x => C * h x) x y Hxy) as (c & E & Hc).
  - intros c Hc. apply H. apply (HD x y); assumption.
  - assert (0 < C * h c). { apply Rmult_lt_0_compat; [exact HC|]. apply Hh, (HD x y); [assumption|assumption|lra]. } nra.
Qed.
Lemma cdf_range : forall D h F, interval D -> (forall x, D x -> 0 < h x) -> cdf_on D h F -> forall x, D x -> 0 <= F x <= 1.
Proof.
  intros D h F HD Hh HF x Dx. pose proof (cdf_incr D h F HD Hh HF) as I. destruct HF as (_ & Lo & Hi). split; apply Rnot_lt_le; intros N.
  - destruct (Lo (- F x / 2) ltac:(lra)) as (x0 & D0 & H0). destruct (Rle_or_lt x0 x) as [L|L].
    + pose proof (H0 x0 D0 (Rle_refl _)) as A. apply Rabs_le_between in A. destruct L as [L|<-]; [pose proof (I x0 x D0 Dx L)|]; lra.
    + pose proof (H0 x Dx ltac:(lra)) as A. apply Rabs_le_between in A. lra.
  - destruct (Hi ((F x - 1) / 2) ltac:(lra)) as (x0 & D0 & H0). destruct (Rle_or_lt x x0) as [L|L].
    + pose proof (H0 x0 D0 (Rle_refl _)) as A. apply Rabs_le_between in A. destruct L as [L| ->]; [pose proof (I x x0 Dx D0 L)|]; lra.
    + pose proof (H0 x Dx ltac:(lra)) as A. apply Rabs_le_between in A. lra.
Qed.
Lemma const_on : forall D (f : R -> R), interval D -> (forall x, D x -> derivable_pt_lim f x 0) -> forall x y, D x -> D y -> f x = f y.
Proof.
  intros D f HD H. assert (L : forall x y, D x -> D y -> x < y -> f x = f y).
  { intros x y Dx Dy Hxy. destruct (MVT_cor2 f (fun _ => 0) x y Hxy) as (c & E & _); [|lra]. intros c Hc. apply H, (HD x y); assumption. }
  intros x y Dx Dy. destruct (Rtotal_order x y) as [T|[->|T]]; [apply L; assumption|reflexivity|symmetry; apply L; assumption].
Qed.
Lemma small_zero : forall c K, 0 <= K -> (forall e, 0 < e -> Rabs c <= K * e) -> c = 0.
Proof.
  intros c K HK H. destruct (Req_dec c 0) as [E|N]; [exact E|exfalso]. pose proof (Rabs_pos_lt c N) as P. destruct HK as [HK|<-].
  - pose proof (H (Rabs c / (2 * K)) ltac:(apply Rdiv_lt_0_compat; lra)) as B. replace (K * (Rabs c / (2 * K))) with (Rabs c / 2) in B by (field; lra). lra.
  - pose proof (H 1 ltac:(lra)). lra.
Qed.
Lemma cdf_unique : forall D h F G, interval D -> cdf_on D h F -> cdf_on D h G -> forall x, D x -> F x = G x.
Proof.
  intros D h F G HD ((C & HC & F1) & F0 & F2) ((C' & HC' & G1) & G0 & G2).
  assert (K : forall x y, D x -> D y -> C' * F x - C * G x = C' * F y - C * G y).
  { apply (const_on D (fun x => C' * F x - C * G x) HD). intros x Dx. replace 0 with (C' * (C * h x) - C * (C' * h x)) by ring.
    apply (derivable_pt_lim_minus (fun x => C' * F x) (fun x => C * G x) x); apply derivable_pt_lim_scal; [apply F1|apply G1]; exact Dx. }
  assert (Z : forall x, D x -> C' * F x - C * G x = 0).
  { intros x Dx. apply (small_zero _ (C + C')); [lra|]. intros e He. destruct (F0 e He) as (a & Da & Ha). destruct (G0 e He) as (b & Db & Hb).
    destruct (Rle_or_lt a b) as [L|L].
    - rewrite (K x a Dx Da). pose proof (Ha a Da (Rle_refl _)) as A. pose proof (Hb a Da L) as B. apply Rabs_le_between in A, B. apply Rabs_le_between. nra.
    - rewrite (K x b Dx Db). pose proof (Ha b Db ltac:(lra)) as A. pose proof (Hb b Db (Rle_refl _)) as B. apply Rabs_le_between in A, B. apply Rabs_le_between. nra. }
  assert (E : C' - C = 0).
  { apply (small_zero _ (C + C')); [lra|]. intros e He. destruct (F2 e He) as (a & Da & Ha). destruct (G2 e He) as (b & Db & Hb).
    destruct (Rle_or_lt a b) as [L|L].
    - pose proof (Z b Db) as E. pose proof (Ha b Db L) as A. pose proof (Hb b Db (Rle_refl _)) as B. apply Rabs_le_between in A, B. apply Rabs_le_between. nra.
    - pose proof (Z a Da) as E. pose proof (Ha a Da (Rle_refl _)) as A. pose proof (Hb a Da ltac:(lra)) as B. apply Rabs_le_between in A, B. apply Rabs_le_between. nra. }
  intros x Dx. pose proof (Z x Dx) as E'. replace C' with C in E' by lra. nra.
Qed.

(** * beta law with integer first parameter: tails of the negative binomial distribution *)
Definition nb_tail (b : R) (n : nat) (x : R) : R := 1 - lsum (negbin_prob b x) (seq 0 n).
Lemma nb_tail_S : forall b n x, nb_tail b (S n) x = nb_tail b n x - negbin_prob b x n.
Proof. intros b n x. unfold nb_tail. rewrite seq_S, lsum_app, lsum_cons, lsum_nil. change (0 + n)%nat with n. lra. Qed.
Lemma rising_pos : forall b k, 0 < b -> 0 < rising b k.
Proof. intros b k Hb. induction k as [|k IH]; simpl; [lra|]. pose proof (pos_INR k). apply Rmult_lt_0_compat; lra. Qed.
Lemma fact_pos : forall k, 0 < INR (fact k). Proof. intros k. apply INR_fact_lt_0. Qed.

Lemma is_derive_pow1 : forall b x, x < 1 -> is_derive (fun x => Rpower (1 - x) b) x (- (b * Rpower (1 - x) (b - 1))).
Proof.
  intros b x Hx. unfold Rpower. auto_derive; [lra|]. assert (E : exp (b * ln (1 - x)) = (1 - x) * exp ((b - 1) * ln (1 - x))).
  { rewrite <- (exp_ln (1 - x)) at 2 by lra. rewrite <- exp_plus. f_equal. ring. }
  change (1 + - x) with (1 - x). rewrite E. field. lra.
Qed.
Lemma negbin_derive : forall b k x, x < 1 -> is_derive (fun x => negbin_prob b x k) x
  (rising b k / INR (fact k) * (INR k * x ^ pred k * Rpower (1 - x) b - x ^ k * (b * Rpower (1 - x) (b - 1)))).
Proof.
  intros b k x Hx. unfold negbin_prob. evar_last.
  - apply (is_derive_mult (fun x => rising b k / INR (fact k) * x ^ k) (fun x => Rpower (1 - x) b) x); [|apply is_derive_pow1, Hx|intros; apply Rmult_comm].
    apply (is_derive_scal (fun x => x ^ k) x). apply (is_derive_pow (fun x => x) k x 1). apply (is_derive_id x).
  - unfold plus, mult, scal, one; simpl. ring.
Qed.
Lemma rpower_minus1 : forall x b, 0 < x -> Rpower x b = x * Rpower x (b - 1).
Proof. intros x b Hx. rewrite <- (Rpower_1 x Hx) at 2. rewrite <- Rpower_plus. f_equal. ring. Qed.

Lemma nb_tail_derive : forall b n x, 0 < b -> x < 1 -> is_derive (nb_tail b (S n)) x (rising b (S n) / INR (fact n) * (x ^ n * Rpower (1 - x) (b - 1))).
Proof.
  intros b n x Hb Hx. induction n as [|n IH].
  - assert (E0 : forall t, 1 - negbin_prob b t 0 = nb_tail b 1 t) by (intros t; rewrite nb_tail_S; unfold nb_tail; rewrite lsum_nil; ring).
    apply (is_derive_ext (fun x => 1 - negbin_prob b x 0) _ _ _ E0).
    evar_last; [apply (is_derive_minus (fun _ => 1) (fun x => negbin_prob b x 0) x); [apply is_derive_const|apply negbin_derive, Hx]|].
    unfold minus, plus, opp, zero; simpl. field.
  - apply (is_derive_ext (fun x => nb_tail b (S n) x - negbin_prob b x (S n))); [intros t; symmetry; apply nb_tail_S|].
    evar_last; [apply (is_derive_minus (nb_tail b (S n)) (fun x => negbin_prob b x (S n)) x); [exact IH|apply negbin_derive, Hx]|].
    unfold minus, plus, opp. cbn [pred]. simpl. set (q := (fact n + n * fact n)%nat). assert (Q : INR q = (INR n + 1) * INR (fact n)).
    { unfold q. rewrite plus_INR, mult_INR. ring. } rewrite Q. change (match n with O => 1 | S _ => INR n + 1 end) with (INR (S n)). rewrite S_INR.
    rewrite (rpower_minus1 (1 - x) b) by lra. pose proof (fact_pos n). pose proof (pos_INR n). set (rp := Rpower (1 - x) (b - 1)).
    field. split; lra.
Qed.
Lemma cont_small : forall (f : R -> R) a l, is_derive f a l -> f a = 0 -> forall e, 0 < e -> exists d, 0 < d /\ forall x, Rabs (x - a) <= d -> Rabs (f x) <= e.
Proof.
  intros f a l H E e He. assert (C : continuity_pt f a) by (apply derivable_continuous_pt; exists l; apply is_derive_Reals, H).
  destruct (C e He) as (d & Hd & HC). exists (d / 2). split; [lra|]. intros x Hx. destruct (Req_dec x a) as [->|N]; [rewrite E, Rabs_R0; lra|].
  specialize (HC x). unfold D_x, no_cond, dist in HC. simpl in HC. unfold R_dist in HC. rewrite E, Rminus_0_r in HC. left. apply HC. split; [split; [exact I|congruence]|lra].
Qed.
Lemma nb_tail_0 : forall b n, nb_tail b (S n) 0 = 0.
Proof.
  intros b n. induction n as [|n IH]; rewrite nb_tail_S.
  - unfold nb_tail, negbin_prob. rewrite lsum_nil. simpl. rewrite Rminus_0_r. unfold Rpower. rewrite ln_1, Rmult_0_r, exp_0. field.
  - rewrite IH. unfold negbin_prob. simpl pow. rewrite Rmult_0_l. ring.
Qed.
Lemma interval01 : interval (fun x => 0 < x < 1). Proof. intros x y z A B C. lra. Qed.
Lemma interval0 : interval (fun x => 0 < x). Proof. intros x y z A B C. lra. Qed.

Lemma nb_tail_cdf : forall b n, 0 < b -> beta_cdf (INR (S n)) b (nb_tail b (S n)).
Proof.
  intros b n Hb. split; [|split].
  - exists (rising b (S n) / INR (fact n)). split; [apply Rdiv_lt_0_compat; [apply rising_pos, Hb|apply fact_pos]|]. intros x Hx. apply is_derive_Reals.
    replace (INR (S n) - 1) with (INR n) by (rewrite S_INR; ring). rewrite Rpower_pow by lra. apply nb_tail_derive; [exact Hb|lra].
  - intros e He. destruct (cont_small (nb_tail b (S n)) 0 _ (nb_tail_derive b n 0 Hb ltac:(lra)) (nb_tail_0 b n) e He) as (d & Hd & H).
    exists (Rmin d (1 / 2)). pose proof (Rmin_l d (1 / 2)). pose proof (Rmin_r d (1 / 2)). assert (0 < Rmin d (1 / 2)) by (apply Rmin_glb_lt; lra). split; [lra|].
    intros x Hx Hle. apply H. rewrite Rminus_0_r, Rabs_right; lra.
  - intros e He. set (M := lsum (fun k => rising b k / INR (fact k)) (seq 0 (S n))).
    assert (Pk : forall k, 0 < rising b k / INR (fact k)) by (intros k; apply Rdiv_lt_0_compat; [apply rising_pos, Hb|apply fact_pos]).
    assert (HM : 0 <= M) by (apply lsum_nonneg; intros k _; left; apply Pk).
    assert (B : forall x, 0 < x < 1 -> Rabs (nb_tail b (S n) x - 1) <= M * Rpower (1 - x) b).
    { intros x Hx. unfold nb_tail. replace (1 - lsum (negbin_prob b x) (seq 0 (S n)) - 1) with (- lsum (negbin_prob b x) (seq 0 (S n))) by ring. rewrite Rabs_Ropp.
      pose proof (exp_pos (b * ln (1 - x))) as EP. fold (Rpower (1 - x) b) in EP.
      assert (P : forall k, 0 <= negbin_prob b x k). { intros k. unfold negbin_prob. apply Rmult_le_pos; [apply Rmult_le_pos; [left; apply Pk|apply pow_le; lra]|lra]. }
      rewrite Rabs_right; [|apply Rle_ge, lsum_nonneg; intros; apply P]. unfold M. rewrite Rmult_comm, <- lsum_scal. apply lsum_le. intros k _. unfold negbin_prob.
      rewrite (Rmult_comm (Rpower (1 - x) b)). apply Rmult_le_compat_r; [lra|]. rewrite <- (Rmult_1_r (rising b k / INR (fact k))) at 2. apply Rmult_le_compat_l; [left; apply Pk|].
      rewrite <- (pow1 k). apply pow_incr. lra. }
    set (y := Rpower (e / (M + 1)) (1 / b)). assert (Y : 0 < y) by apply exp_pos. assert (EM : 0 < e / (M + 1)) by (apply Rdiv_lt_0_compat; lra).
    exists (1 - Rmin y (1 / 2)). pose proof (Rmin_l y (1 / 2)). pose proof (Rmin_r y (1 / 2)). assert (0 < Rmin y (1 / 2)) by (apply Rmin_glb_lt; lra). split; [lra|].
    intros x Hx Hle. eapply Rle_trans; [apply B, Hx|]. assert (Q : Rpower (1 - x) b <= e / (M + 1)).
    { apply Rle_trans with (Rpower y b); [apply Rle_Rpower_l; lra|]. unfold y. rewrite Rpower_mult. replace (1 / b * b) with 1 by (field; lra). rewrite Rpower_1 by exact EM. lra. }
    pose proof (exp_pos (b * ln (1 - x))) as EP. fold (Rpower (1 - x) b) in EP. apply Rle_trans with ((M + 1) * (e / (M + 1))); [|right; field; lra].
    apply Rmult_le_compat; lra.
Qed.
(** regularised incomplete beta function with integer first parameter = tail of the negative binomial distribution *)
Theorem beta_negbin : forall b n I, 0 < b -> beta_cdf (INR (S n)) b I -> forall x, 0 < x < 1 -> I x = 1 - lsum (negbin_prob b x) (seq 0 (S n)).
Proof. intros b n I Hb H. apply (cdf_unique _ _ _ _ interval01 H (nb_tail_cdf b n Hb)). Qed.

(** * chi2 law with an even number of degrees of freedom: Poisson tails *)
Definition po_tail (n : nat) (t : R) : R := 1 - lsum (poisson_prob (t / 2)) (seq 0 n).
Lemma po_tail_S : forall n x, po_tail (S n) x = po_tail n x - poisson_prob (x / 2) n.
Proof. intros n x. unfold po_tail. rewrite seq_S, lsum_app, lsum_cons, lsum_nil. change (0 + n)%nat with n. lra. Qed.
Lemma poisson_derive : forall k x, is_derive (fun x => poisson_prob (x / 2) k) x (1 / 2 * (exp (- (x / 2)) / INR (fact k) * (INR k * (x / 2) ^ pred k - (x / 2) ^ k))).
Proof. intros k x. unfold poisson_prob. auto_derive; [exact I|]. unfold Rdiv. rewrite !Rmult_1_l. ring. Qed.
Lemma po_tail_derive : forall n x, is_derive (po_tail (S n)) x (1 / 2 * poisson_prob (x / 2) n).
Proof.
  intros n x. induction n as [|n IH].
  - assert (E0 : forall t, 1 - poisson_prob (t / 2) 0 = po_tail 1 t) by (intros t; rewrite po_tail_S; unfold po_tail; rewrite lsum_nil; ring).
    apply (is_derive_ext _ _ _ _ E0). evar_last; [apply (is_derive_minus (fun _ => 1) (fun x => poisson_prob (x / 2) 0) x); [apply is_derive_const|apply poisson_derive]|].
    unfold minus, plus, opp, zero; simpl. unfold poisson_prob. simpl. field.
  - apply (is_derive_ext (fun x => po_tail (S n) x - poisson_prob (x / 2) (S n))); [intros t; symmetry; apply po_tail_S|].
    evar_last; [apply (is_derive_minus (po_tail (S n)) (fun x => poisson_prob (x / 2) (S n)) x); [exact IH|apply poisson_derive]|].
    unfold minus, plus, opp. cbn [pred]. simpl. set (q := (fact n + n * fact n)%nat). assert (Q : INR q = (INR n + 1) * INR (fact n)).
    { unfold q. rewrite plus_INR, mult_INR. ring. } unfold poisson_prob. change (fact (S n)) with q. rewrite Q. change (match n with O => 1 | S _ => INR n + 1 end) with (INR (S n)). rewrite S_INR.
    pose proof (fact_pos n). pose proof (pos_INR n). simpl pow. field. split; lra.
Qed.
Lemma po_tail_0 : forall n, po_tail (S n) 0 = 0.
Proof.
  intros n. induction n as [|n IH]; rewrite po_tail_S.
  - unfold po_tail, poisson_prob. rewrite lsum_nil. replace (0 / 2) with 0 by field. simpl. rewrite Ropp_0, exp_0. field.
  - rewrite IH. unfold poisson_prob. replace (0 / 2) with 0 by field. simpl pow. unfold Rdiv. ring.
Qed.
Lemma exp_ge_term : forall k x, 0 <= x -> x ^ k / INR (fact k) <= exp x.
Proof.
  intros k x Hx. eapply Rle_trans; [|apply (sum_incr (fun i => / INR (fact i) * x ^ i) k (exp x))].
  - destruct k as [|k]; [simpl; lra|]. cbn [sum_f_R0]. unfold Rdiv. rewrite (Rmult_comm (x ^ S k)).
    assert (0 <= sum_f_R0 (fun i => / INR (fact i) * x ^ i) k); [|lra]. apply cond_pos_sum. intros i. apply Rmult_le_pos; [left; apply Rinv_0_lt_compat, fact_pos|apply pow_le, Hx].
  - unfold exp. destruct (exist_exp x) as [l Hl]. exact Hl.
  - intros i. apply Rmult_le_pos; [left; apply Rinv_0_lt_compat, fact_pos|apply pow_le, Hx].
Qed.
Lemma poisson_small : forall k mu, 0 < mu -> 0 <= poisson_prob mu k <= INR (S k) / mu.
Proof.
  intros k mu H. pose proof (exp_pos (- mu)) as EP. pose proof (fact_pos k) as FP. pose proof (pow_lt mu k H) as PP. split.
  - unfold poisson_prob. apply Rmult_le_pos; [apply Rmult_le_pos; lra|left; apply Rinv_0_lt_compat, FP].
  - pose proof (exp_ge_term (S k) mu ltac:(lra)) as T. unfold poisson_prob. apply (Rmult_le_reg_r (mu * exp mu)); [apply Rmult_lt_0_compat; [exact H|apply exp_pos]|].
    assert (E : exp (- mu) * exp mu = 1) by (rewrite <- exp_plus, Rplus_opp_l; apply exp_0).
    replace (exp (- mu) * mu ^ k / INR (fact k) * (mu * exp mu)) with (exp (- mu) * exp mu * (INR (S k) * (mu ^ S k / INR (fact (S k))))).
    + rewrite E, Rmult_1_l. replace (INR (S k) / mu * (mu * exp mu)) with (INR (S k) * exp mu) by (field; lra). apply Rmult_le_compat_l; [apply pos_INR|exact T].
    + replace (INR (fact (S k))) with (INR (S k) * INR (fact k)) by (rewrite <- mult_INR; reflexivity). simpl pow. field. split; [lra|]. apply not_0_INR. lia.
Qed.
Lemma po_tail_cdf : forall n, chi2_cdf (2 * INR (S n)) (po_tail (S n)).
Proof.
  intros n. split; [|split].
  - exists (1 / 2 / INR (fact n) / 2 ^ n). pose proof (fact_pos n). pose proof (pow_lt 2 n ltac:(lra)). split; [apply Rdiv_lt_0_compat; [apply Rdiv_lt_0_compat; lra|assumption]|].
    intros x Hx. apply is_derive_Reals. replace (2 * INR (S n) / 2 - 1) with (INR n) by (rewrite S_INR; field). rewrite Rpower_pow by exact Hx. evar_last; [apply po_tail_derive|].
    unfold poisson_prob. replace (- (x / 2)) with (- x / 2) by field. replace ((x / 2) ^ n) with (x ^ n / 2 ^ n) by (unfold Rdiv; rewrite Rpow_mult_distr, pow_inv; reflexivity). field. split; lra.
  - intros e He. destruct (cont_small (po_tail (S n)) 0 _ (po_tail_derive n 0) (po_tail_0 n) e He) as (d & Hd & H). exists d. split; [exact Hd|].
    intros x Hx Hle. apply H. rewrite Rminus_0_r, Rabs_right; lra.
  - intros e He. set (N := INR (S n)). assert (HN : 0 < N) by (apply lt_0_INR; lia). exists (2 * (N * N / e)). assert (P : 0 < N * N / e) by (apply Rdiv_lt_0_compat; nra). split; [lra|].
    intros x Hx Hle. unfold po_tail. replace (1 - lsum (poisson_prob (x / 2)) (seq 0 (S n)) - 1) with (- lsum (poisson_prob (x / 2)) (seq 0 (S n))) by ring. rewrite Rabs_Ropp.
    rewrite Rabs_right by (apply Rle_ge, lsum_nonneg; intros k _; apply poisson_small; lra).
    apply Rle_trans with (lsum (fun _ => N / (x / 2)) (seq 0 (S n))).
    + apply lsum_le. intros k Hk. apply in_seq in Hk. eapply Rle_trans; [apply poisson_small; lra|]. apply Rmult_le_compat_r; [left; apply Rinv_0_lt_compat; lra|]. apply le_INR. lia.
    + rewrite lsum_const, seq_length. fold N. apply (Rmult_le_reg_r (x / 2)); [lra|]. match goal with |- ?a <= _ => replace a with (N * N) by (field; lra) end.
      assert (N * N / e <= x / 2) by lra. apply (Rmult_le_compat_l e) in H; [|lra]. replace (e * (N * N / e)) with (N * N) in H by (field; lra). lra.
Qed.
(** chi2 with 2(n+1) degrees of freedom at 2 mu: the probability of more than n events of mean mu *)
Theorem chi2_poisson : forall n G, chi2_cdf (2 * INR (S n)) G -> forall mu, 0 < mu -> G (2 * mu) = 1 - lsum (poisson_prob mu) (seq 0 (S n)).
Proof.
  intros n G H mu Hmu. rewrite (cdf_unique _ _ _ _ interval0 H (po_tail_cdf n) (2 * mu)) by lra. unfold po_tail. replace (2 * mu / 2) with mu by field. reflexivity.
Qed.

(** * the negative binomial probabilities sum to 1 and have mean b x / (1 - x) *)
Lemma geometric_zero : forall (a : nat -> R) K r, (forall n, 0 <= a n) -> 0 <= r < 1 -> (forall n, (K <= n)%nat -> a (S n) <= r * a n) -> Un_cv a 0.
Proof.
  intros a K r Ha Hr H. assert (B : forall j, a (K + j)%nat <= a K * r ^ j).
  { induction j as [|j IH]; [rewrite Nat.add_0_r; simpl; lra|]. replace (K + S j)%nat with (S (K + j)) by lia. eapply Rle_trans; [apply H; lia|]. simpl. nra. }
  intros e He. destruct (pow_lt_1_zero r ltac:(rewrite Rabs_right; lra) (e / (a K + 1))) as (N & HN); [apply Rdiv_lt_0_compat; [exact He|pose proof (Ha K); lra]|].
  exists (K + N)%nat. intros n Hn. unfold R_dist. rewrite Rminus_0_r, Rabs_right by (apply Rle_ge, Ha). replace n with (K + (n - K))%nat by lia.
  eapply Rle_lt_trans; [apply B|]. pose proof (HN (n - K)%nat ltac:(lia)) as P. pose proof (pow_le r (n - K) ltac:(lra)). rewrite Rabs_right in P by lra. pose proof (Ha K) as A.
  apply Rle_lt_trans with ((a K + 1) * r ^ (n - K)); [nra|]. apply Rlt_le_trans with ((a K + 1) * (e / (a K + 1))); [apply Rmult_lt_compat_l; lra|right; field; lra].
Qed.
Lemma nb_step : forall b x k, INR (S k) * negbin_prob b x (S k) = x * (b + INR k) * negbin_prob b x k.
Proof.
  intros b x k. unfold negbin_prob. change (rising b (S k)) with (rising b k * (b + INR k)). change (x ^ S k) with (x * x ^ k).
  replace (INR (fact (S k))) with (INR (S k) * INR (fact k)) by (rewrite <- mult_INR; reflexivity). pose proof (fact_pos k). assert (0 < INR (S k)) by (apply lt_0_INR; lia). field. split; lra.
Qed.
Lemma nb_pos : forall b x k, 0 < b -> 0 < x < 1 -> 0 < negbin_prob b x k.
Proof. intros b x k Hb Hx. unfold negbin_prob. apply Rmult_lt_0_compat; [|apply exp_pos]. apply Rmult_lt_0_compat; [apply Rdiv_lt_0_compat; [apply rising_pos, Hb|apply fact_pos]|apply pow_lt; lra]. Qed.
Lemma INR_above : forall x, exists K, x <= INR K.
Proof. intros x. destruct (archimed x) as [H _]. exists (Z.to_nat (up x)). destruct (Z_le_gt_dec 0 (up x)) as [L|L]; [rewrite INR_IZR_INZ, Z2Nat.id by exact L; lra|]. pose proof (pos_INR (Z.to_nat (up x))). assert (IZR (up x) < 0) by (apply IZR_lt; lia). lra. Qed.
Lemma nb_vanish : forall b x, 0 < b -> 0 < x < 1 -> Un_cv (fun n => INR n * negbin_prob b x n) 0.
Proof.
  intros b x Hb Hx. destruct (INR_above (2 * x * b / (1 - x))) as [K HK]. apply (geometric_zero _ (S K) ((1 + x) / 2)); [| lra|].
  - intros n. apply Rmult_le_pos; [apply pos_INR|left; apply nb_pos; assumption].
  - intros n Hn. rewrite nb_step. pose proof (nb_pos b x n Hb Hx) as P. assert (HN : INR K <= INR n) by (apply le_INR; lia).
    assert (Q : x * (b + INR n) <= (1 + x) / 2 * INR n); [|nra].
    assert (2 * x * b <= INR n * (1 - x)); [|lra]. apply Rle_trans with (2 * x * b / (1 - x) * (1 - x)); [right; field; lra|]. apply Rmult_le_compat_r; lra.
Qed.
Lemma nb_tail_bound : forall b n x, 0 < b -> 0 < x < 1 -> 0 <= nb_tail b (S n) x <= (1 + Rpower (1 - x) (b - 1)) / Rpower (1 - x) b * (INR (S n) * negbin_prob b x (S n)).
Proof.
  intros b n x Hb Hx. split; [apply (cdf_range _ (fun x => Rpower x (INR (S n) - 1) * Rpower (1 - x) (b - 1)) _ interval01); [intros y Hy; apply Rmult_lt_0_compat; apply exp_pos|apply nb_tail_cdf, Hb|exact Hx]|].
  destruct (MVT_cor2 (nb_tail b (S n)) (fun x => rising b (S n) / INR (fact n) * (x ^ n * Rpower (1 - x) (b - 1))) 0 x ltac:(lra)) as (c & E & Hc).
  - intros c Hc. apply is_derive_Reals, nb_tail_derive; lra.
  - rewrite nb_tail_0, !Rminus_0_r in E. rewrite E. unfold negbin_prob.
    assert (C : 0 < rising b (S n) / INR (fact n)) by (apply Rdiv_lt_0_compat; [apply rising_pos, Hb|apply fact_pos]).
    replace ((1 + Rpower (1 - x) (b - 1)) / Rpower (1 - x) b * (INR (S n) * (rising b (S n) / INR (fact (S n)) * x ^ S n * Rpower (1 - x) b)))
      with (rising b (S n) / INR (fact n) * (x ^ n * (1 + Rpower (1 - x) (b - 1))) * x).
    2:{ replace (INR (fact (S n))) with (INR (S n) * INR (fact n)) by (rewrite <- mult_INR; reflexivity). change (x ^ S n) with (x * x ^ n). pose proof (fact_pos n).
        assert (0 < INR (S n)) by (apply lt_0_INR; lia). assert (0 < Rpower (1 - x) b) by apply exp_pos. field. lra. }
    apply Rmult_le_compat_r; [lra|]. apply Rmult_le_compat_l; [lra|]. assert (P1 : 0 <= c ^ n) by (apply pow_le; lra). assert (P2 : c ^ n <= x ^ n) by (apply pow_incr; lra).
    assert (R0 : 0 < Rpower (1 - c) (b - 1)) by apply exp_pos. assert (R1 : 0 < Rpower (1 - x) (b - 1)) by apply exp_pos.
    assert (R2 : Rpower (1 - c) (b - 1) <= 1 + Rpower (1 - x) (b - 1)).
    { destruct (Rle_or_lt 1 b) as [H|H].
      - apply Rle_trans with 1; [|lra]. apply Rle_trans with (Rpower 1 (b - 1)); [apply Rle_Rpower_l; lra|]. unfold Rpower. rewrite ln_1, Rmult_0_r, exp_0. lra.
      - apply Rle_trans with (Rpower (1 - x) (b - 1)); [|lra]. unfold Rpower. assert (L : ln (1 - x) <= ln (1 - c)) by (left; apply ln_increasing; lra).
        assert (M : (b - 1) * ln (1 - c) <= (b - 1) * ln (1 - x)) by nra. destruct M as [M|M]; [left; apply exp_increasing, M|rewrite M; lra]. }
    apply Rle_trans with (c ^ n * (1 + Rpower (1 - x) (b - 1))); [apply Rmult_le_compat_l; lra|apply Rmult_le_compat_r; lra].
Qed.
Lemma lsum_sum_f : forall (f : nat -> R) n, sum_f_R0 f n = lsum f (seq 0 (S n)).
Proof. intros f n. induction n as [|n IH]; [cbn; unfold lsum; simpl; ring|]. cbn [sum_f_R0]. rewrite IH, (seq_S (S n)), lsum_app, (lsum_cons _ _ (0 + S n)%nat), lsum_nil. change (0 + S n)%nat with (S n). ring. Qed.
Theorem negbin_total : forall b x, 0 < b -> 0 < x < 1 -> infinite_sum (negbin_prob b x) 1.
Proof.
  intros b x Hb Hx e He. set (M := (1 + Rpower (1 - x) (b - 1)) / Rpower (1 - x) b).
  assert (HM : 0 < M) by (apply Rdiv_lt_0_compat; [pose proof (exp_pos ((b - 1) * ln (1 - x))); unfold Rpower; lra|apply exp_pos]).
  destruct (nb_vanish b x Hb Hx (e / M)) as [N HN]; [apply Rdiv_lt_0_compat; lra|]. exists N. intros n Hn. rewrite lsum_sum_f. unfold R_dist. rewrite Rabs_minus_sym.
  fold (nb_tail b (S n) x). destruct (nb_tail_bound b n x Hb Hx) as [B1 B2]. fold M in B2. rewrite Rabs_right by lra. eapply Rle_lt_trans; [exact B2|].
  pose proof (HN (S n) ltac:(lia)) as P. unfold R_dist in P. rewrite Rminus_0_r, Rabs_right in P by (apply Rle_ge, Rmult_le_pos; [apply pos_INR|left; apply nb_pos; assumption]).
  apply Rlt_le_trans with (M * (e / M)); [apply Rmult_lt_compat_l; assumption|right; field; lra].
Qed.
Lemma nb_mean_partial : forall b x n, (1 - x) * lsum (fun k => INR k * negbin_prob b x k) (seq 0 n) + INR n * negbin_prob b x n = b * x * lsum (negbin_prob b x) (seq 0 n).
Proof.
  intros b x n. induction n as [|n IH]; [cbn [seq]; rewrite !lsum_nil; simpl; ring|]. rewrite seq_S, !lsum_app, !lsum_cons, !lsum_nil. change (0 + n)%nat with n. rewrite nb_step. lra.
Qed.
Theorem negbin_mean : forall b x, 0 < b -> 0 < x < 1 -> infinite_sum (fun k => INR k * negbin_prob b x k) (b * x / (1 - x)).
Proof.
  intros b x Hb Hx.
  assert (U : Un_cv (fun n => (b * x * sum_f_R0 (negbin_prob b x) n - INR (S n) * negbin_prob b x (S n)) * / (1 - x)) ((b * x * 1 - 0) * / (1 - x))).
  { apply CV_mult; [|intros e He; exists O; intros n _; unfold R_dist; rewrite Rminus_eq_0, Rabs_R0; exact He]. apply CV_minus.
    - apply CV_mult; [intros e He; exists O; intros n _; unfold R_dist; rewrite Rminus_eq_0, Rabs_R0; exact He|exact (negbin_total b x Hb Hx)].
    - intros e He. destruct (nb_vanish b x Hb Hx e He) as [N HN]. exists N. intros n Hn. apply HN. lia. }
  intros e He. destruct (U e He) as [N HN]. exists N. intros n Hn. specialize (HN n Hn).
  replace (sum_f_R0 (fun k => INR k * negbin_prob b x k) n) with ((b * x * sum_f_R0 (negbin_prob b x) n - INR (S n) * negbin_prob b x (S n)) * / (1 - x)).
  - replace (b * x / (1 - x)) with ((b * x * 1 - 0) * / (1 - x)) by (field; lra). exact HN.
  - rewrite !lsum_sum_f. rewrite <- (nb_mean_partial b x (S n)). field. lra.
Qed.
