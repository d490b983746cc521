(** C63, C64: the incomplete beta function. *)
From Coq Require Import ZArith List Bool Reals Lra Lia.
From Verif Require Import Base StatsModel StatsProofs Num BetaModel SpecBeta BetaProofs.
Import ListNotations.
Open Scope R_scope.

(** C63: inside the domain the loop never divides by zero; it returns the first iterate (odd convergent) close enough to the
    preceding iterate, the very first comparison being made with 1, and raises ValueError iff none of ITMAX+1 iterates is *)
Theorem C63_continued_fraction : forall a b x ITMAX EPS, cf_domain a b x ->
  (exists m, (1 <= m <= ITMAX + 1)%nat /\ contfractbeta a b x ITMAX EPS = Ok (convergent a b x (2 * m + 1)) /\
     close_enough EPS (iterate a b x (m - 1)) (iterate a b x m) /\
     forall m', (1 <= m' < m)%nat -> ~ close_enough EPS (iterate a b x (m' - 1)) (iterate a b x m')) \/
  (contfractbeta a b x ITMAX EPS = Raise ValueError /\
   forall m, (1 <= m <= ITMAX + 1)%nat -> ~ close_enough EPS (iterate a b x (m - 1)) (iterate a b x m)).
Proof.
  intros a b x ITMAX EPS D. unfold contfractbeta. destruct (start_inv a b x D) as (s & -> & Hi & Hz). cbn [rbind].
  destruct (loop_spec a b x D EPS (S ITMAX) 0 s Hi Hz) as [(m & Hm & C & L & E)|[L E]].
  - left. exists m. split; [lia|]. rewrite E. destruct m as [|m]; [lia|]. split; [reflexivity|].
    replace (S m - 1)%nat with m by lia. split; [exact C|]. intros m' Hm'. destruct m' as [|m']; [lia|].
    replace (S m' - 1)%nat with m' by lia. apply (L (S m')). lia.
  - right. split; [exact E|]. intros m Hm. destruct m as [|m]; [lia|]. replace (S m - 1)%nat with m by lia. apply (L (S m)). lia.
Qed.

(** every value returned is at least 1, so that its logarithm is defined *)
Theorem C63_at_least_one : forall a b x ITMAX EPS cf, cf_domain a b x -> contfractbeta a b x ITMAX EPS = Ok cf -> 1 <= cf.
Proof.
  intros a b x ITMAX EPS cf D E. destruct (C63_continued_fraction a b x ITMAX EPS D) as [(m & _ & E' & _)|[E' _]].
  - rewrite E' in E. inversion E. apply convergent_ge1. exact D.
  - congruence.
Qed.
Theorem C63_no_other_failure : forall a b x ITMAX EPS e, cf_domain a b x -> contfractbeta a b x ITMAX EPS = Raise e -> e = ValueError.
Proof.
  intros a b x ITMAX EPS e D E. destruct (C63_continued_fraction a b x ITMAX EPS D) as [(m & _ & E' & _)|[E' _]]; congruence.
Qed.

(** a fraction that stops: for b = 1 all odd convergents are 1/(1-x), so at most two iterations are needed *)
Lemma convergent_b1 : forall a x n, cf_domain a 1 x -> (1 <= n)%nat -> convergent a 1 x n = 1 / (1 - x).
Proof.
  intros a x n D Hn. unfold convergent. f_equal. destruct n as [|n]; [lia|].
  rewrite tail_S. rewrite (coeff_odd a 1 x 0 : coeff a 1 x 1 = _).
  assert (E : cf_tail a 1 x 1 n = 1).
  { destruct n as [|n]; [reflexivity|]. rewrite tail_S. rewrite (coeff_even a 1 x 1 : coeff a 1 x 2 = _). unfold d_even. simpl INR.
    replace (1 * (1 - 1) * x) with 0 by ring. unfold Rdiv. rewrite !Rmult_0_l. ring. }
  rewrite E. destruct D as (Ha & _ & Hx & _). unfold d_odd. simpl INR. field. lra.
Qed.
Theorem C63_example_b1 : forall a x, cf_domain a 1 x -> cf_default a 1 x = Ok (1 / (1 - x)).
Proof.
  intros a x D. unfold cf_default. destruct (domain_x1 _ _ _ D) as [X1 _].
  assert (N : (1 <= N.to_nat 5000)%nat) by lia.
  destruct (C63_continued_fraction a 1 x (N.to_nat 5000) (1 / 10000000) D) as [(m & Hm & E & _)|[E L]].
  - rewrite E. f_equal. apply convergent_b1; [exact D|lia].
  - exfalso. apply (L 2%nat). { lia. }
    cbn [Nat.sub iterate]. rewrite !convergent_b1 by (exact D || lia). unfold close_enough. rewrite Rminus_diag_eq by reflexivity.
    rewrite Rabs_R0. apply Rmult_lt_0_compat; [lra|]. apply Rabs_pos_lt. apply Rgt_not_eq. apply Rdiv_lt_0_compat; lra.
Qed.
Example C63_witness : cf_domain 2 3 (1/4). Proof. unfold cf_domain. lra. Qed.

(** * C64 *)
Lemma nlog_pos : forall r, 0 < r -> nlog r = Fin (ln r).
Proof. intros r H. unfold nlog. rewrite (proj2 (rltb_false _ _)) by lra. rewrite (proj2 (reqb_false _ _)) by lra. reflexivity. Qed.

Section Gamma.
Variable gammaln : R -> R.

Lemma lbeta_fin : forall a b x, 0 < x < 1 -> lbeta gammaln a b x = Fin (gammaln (a + b) - gammaln a - gammaln b + a * ln x + b * ln (1 - x)).
Proof. intros a b x H. unfold lbeta. rewrite !nlog_pos by lra. reflexivity. Qed.

Lemma switch_low : forall a b x, 0 < a -> 0 < b -> 0 < x < 1 -> x < (a + 1) / (a + b + 2) -> cf_domain a b x.
Proof. intros. unfold cf_domain. lra. Qed.
Lemma switch_high : forall a b x, 0 < a -> 0 < b -> 0 < x < 1 -> ~ x < (a + 1) / (a + b + 2) -> cf_domain b a (1 - x).
Proof.
  intros a b x Ha Hb Hx Hn. unfold cf_domain. split; [lra|]. split; [lra|]. split; [lra|].
  replace ((b + 1) / (b + a + 2)) with (1 - (a + 1) / (a + b + 2)) by (field; lra). lra.
Qed.
Lemma cf_default_pos : forall a b x cf, cf_domain a b x -> cf_default a b x = Ok cf -> 1 <= cf.
Proof. intros a b x cf D E. eapply C63_at_least_one; eassumption. Qed.

Lemma log_of_exp : forall l cf a, 1 <= cf -> 0 < a -> nsub (nadd (Fin l) (nlog cf)) (nlog a) = nlogn (Fin (exp l * (cf / a))).
Proof.
  intros l cf a H Ha. rewrite !nlog_pos by lra. cbn [nadd nsub nneg nlogn]. unfold nsub. cbn [nadd nneg].
  assert (0 < cf / a) by (apply Rdiv_lt_0_compat; lra). pose proof (exp_pos l).
  rewrite nlog_pos by (apply Rmult_lt_0_compat; assumption). f_equal.
  rewrite ln_mult by assumption. rewrite ln_exp. unfold Rdiv. rewrite ln_mult by (try apply Rinv_0_lt_compat; lra).
  rewrite ln_Rinv by exact Ha. ring.
Qed.

(** C64: log_incompbeta is the pair of logarithms of incompbeta and of one minus it, and fails with it *)
Theorem C64_logarithms : forall a b x, 0 < a -> 0 < b -> 0 <= x <= 1 ->
  log_incompbeta gammaln a b x = (let* p := incompbeta gammaln a b x in Ok (nlogn p, nlogn (one_minus p))) /\
  (forall e, incompbeta gammaln a b x = Raise e -> e = ValueError) /\
  (forall p, incompbeta gammaln a b x = Ok p -> exists r, p = Fin r).
Proof.
  intros a b x Ha Hb Hx. unfold log_incompbeta, incompbeta.
  destruct (reqb x 0) eqn:E0.
  { cbn [rbind nlogn one_minus]. split; [|split; [discriminate|intros p E; inversion E; eauto]].
    unfold nlog at 1. rewrite (proj2 (rltb_false _ _)), (proj2 (reqb_true 0 0)) by (reflexivity || lra).
    rewrite nlog_pos by lra. rewrite Rminus_0_r, ln_1. reflexivity. }
  apply reqb_false in E0. destruct (reqb x 1) eqn:E1.
  { cbn [rbind nlogn one_minus]. split; [|split; [discriminate|intros p E; inversion E; eauto]].
    rewrite nlog_pos by lra. rewrite ln_1. unfold nlog. rewrite (proj2 (rltb_false _ _)), (proj2 (reqb_true (1 - 1) 0)) by lra. reflexivity. }
  apply reqb_false in E1. assert (Hx' : 0 < x < 1) by lra. rewrite rdiv_ok by lra. cbn [rbind]. rewrite lbeta_fin by exact Hx'.
  set (l := gammaln (a + b) - gammaln a - gammaln b + a * ln x + b * ln (1 - x)).
  destruct (rltb x ((a + 1) / (a + b + 2))) eqn:S.
  - apply rltb_true in S. pose proof (switch_low a b x Ha Hb Hx' S) as D.
    destruct (cf_default a b x) as [cf|e] eqn:C; cbn [rbind].
    + rewrite rdiv_ok by lra. cbn [rbind exp_times]. split; [|split; [discriminate|intros p E; inversion E; eauto]].
      rewrite log_of_exp by (try lra; eapply cf_default_pos; eassumption). reflexivity.
    + split; [reflexivity|]. split; [|discriminate]. intros e' E. inversion E; subst. eapply C63_no_other_failure; eassumption.
  - apply rltb_false in S. pose proof (switch_high a b x Ha Hb Hx' ltac:(lra)) as D.
    destruct (cf_default b a (1 - x)) as [cf|e] eqn:C; cbn [rbind].
    + rewrite rdiv_ok by lra. cbn [rbind exp_times one_minus]. split; [|split; [discriminate|intros p E; inversion E; eauto]].
      rewrite log_of_exp by (try lra; eapply cf_default_pos; eassumption).
      replace (1 - (1 - exp l * (cf / b))) with (exp l * (cf / b)) by ring. reflexivity.
    + split; [reflexivity|]. split; [|discriminate]. intros e' E. inversion E; subst. eapply C63_no_other_failure; eassumption.
Qed.

(** C64: reflection, away from the point where the code changes from one fraction to the other *)
Theorem C64_reflection : forall a b x, 0 < a -> 0 < b -> 0 <= x <= 1 -> x <> (a + 1) / (a + b + 2) ->
  incompbeta gammaln b a (1 - x) = rmap one_minus (incompbeta gammaln a b x).
Proof.
  intros a b x Ha Hb Hx Hs. unfold incompbeta.
  destruct (reqb x 0) eqn:E0.
  { apply reqb_true in E0. subst x. rewrite (proj2 (reqb_false (1 - 0) 0)), (proj2 (reqb_true (1 - 0) 1)) by lra.
    cbn [rmap one_minus]. do 2 f_equal. lra. }
  apply reqb_false in E0. destruct (reqb x 1) eqn:E1.
  { apply reqb_true in E1. subst x. rewrite (proj2 (reqb_true (1 - 1) 0)) by lra. cbn [rmap one_minus]. do 2 f_equal. lra. }
  apply reqb_false in E1. rewrite (proj2 (reqb_false (1 - x) 0)), (proj2 (reqb_false (1 - x) 1)) by lra.
  rewrite !rdiv_ok by lra. cbn [rbind]. rewrite !lbeta_fin by lra.
  replace (1 - (1 - x)) with x by ring.
  replace (gammaln (b + a) - gammaln b - gammaln a + b * ln (1 - x) + a * ln x)
    with (gammaln (a + b) - gammaln a - gammaln b + a * ln x + b * ln (1 - x)) by (rewrite (Rplus_comm b a); ring).
  set (l := gammaln (a + b) - gammaln a - gammaln b + a * ln x + b * ln (1 - x)).
  assert (SW : (b + 1) / (b + a + 2) = 1 - (a + 1) / (a + b + 2)) by (field; lra). rewrite SW.
  destruct (rltb x ((a + 1) / (a + b + 2))) eqn:S.
  - apply rltb_true in S. rewrite (proj2 (rltb_false _ _)) by lra. destruct (cf_default a b x) as [cf|e]; [|reflexivity].
    cbn [rbind]. rewrite rdiv_ok by lra. reflexivity.
  - apply rltb_false in S. rewrite (proj2 (rltb_true _ _)) by lra. destruct (cf_default b a (1 - x)) as [cf|e]; [|reflexivity].
    cbn [rbind]. rewrite rdiv_ok by lra. cbn [rbind rmap exp_times one_minus]. do 2 f_equal. ring.
Qed.

(** sanity: with the right gamma function and b = 1 the function is x^a below the switching point *)
Theorem C64_example_b1 : forall a x, 0 < a -> 0 < x -> x < (a + 1) / (a + 3) ->
  gammaln 1 = 0 -> gammaln (a + 1) = ln a + gammaln a -> incompbeta gammaln a 1 x = Ok (Fin (Rpower x a)).
Proof.
  intros a x Ha Hx Hs G1 Ga.
  assert (X1 : x < 1).
  { apply Rlt_le_trans with (1 := Hs). apply Rmult_le_reg_r with (a + 3); [lra|]. unfold Rdiv. rewrite Rmult_assoc, Rinv_l by lra. lra. }
  unfold incompbeta. rewrite (proj2 (reqb_false x 0)), (proj2 (reqb_false x 1)) by lra. rewrite rdiv_ok by lra. cbn [rbind].
  replace (a + 1 + 2) with (a + 3) by ring. rewrite (proj2 (rltb_true _ _)) by exact Hs.
  assert (D : cf_domain a 1 x) by (unfold cf_domain; replace (a + 1 + 2) with (a + 3) by ring; lra).
  rewrite C63_example_b1 by exact D. cbn [rbind]. rewrite rdiv_ok by lra. cbn [rbind]. rewrite lbeta_fin by lra. cbn [exp_times].
  do 2 f_equal. rewrite Ga, G1. replace (ln a + gammaln a - gammaln a - 0 + a * ln x + 1 * ln (1 - x)) with (ln a + (a * ln x + ln (1 - x))) by ring.
  rewrite !exp_plus, !exp_ln by lra. unfold Rpower. field. split; lra.
Qed.
End Gamma.

(** the limits in force in incompbeta and log_incompbeta: 5000 further steps, relative change below 1e-7 *)
Theorem C63_defaults : forall a b x, cf_domain a b x ->
  (exists m, (1 <= m <= N.to_nat 5001)%nat /\ cf_default a b x = Ok (convergent a b x (2 * m + 1)) /\
     close_enough (1 / 10 ^ 7) (iterate a b x (m - 1)) (iterate a b x m) /\
     forall m', (1 <= m' < m)%nat -> ~ close_enough (1 / 10 ^ 7) (iterate a b x (m' - 1)) (iterate a b x m')) \/
  (cf_default a b x = Raise ValueError /\
   forall m, (1 <= m <= N.to_nat 5001)%nat -> ~ close_enough (1 / 10 ^ 7) (iterate a b x (m - 1)) (iterate a b x m)).
Proof.
  intros a b x D. pose proof (C63_continued_fraction a b x (N.to_nat 5000) (1 / 10000000) D) as H.
  replace (N.to_nat 5000 + 1)%nat with (N.to_nat 5001) in H by lia. replace (1 / 10000000) with (1 / 10 ^ 7) in H by field. 
  unfold cf_default. replace (1 / 10000000) with (1 / 10 ^ 7) by field. exact H.
Qed.
Print Assumptions C63_defaults.
