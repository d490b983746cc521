(** C82: the continued fraction converges to the incomplete beta function, and how accurate the returned values are. *)
From Coq Require Import ZArith List Bool Reals Lra Lia Psatz.
From Coquelicot Require Import Coquelicot.
From Verif Require Import Base RSum StatsModel StatsProofs Num BetaModel SpecBeta BetaProofs PropsBeta OutModel SpecOut OutProofs PropsOut SpecGauss CdfProofs PropsOut5 HyperBeta HyperBeta2 HyperBeta3 SpecBeta2.
Import ListNotations.
Open Scope R_scope.

Lemma beta_value : forall a b I C, 0 < a -> 0 < b -> beta_cdf a b I -> beta_constant a b I C -> forall x, 0 < x < 1 -> I x = C * (Rpower x a * Rpower (1 - x) b * vbeta a b x / a).
Proof.
  intros a b I C A B (_ & H0 & _) HC x X. rewrite (beta_cdf_u a b A B C I HC H0 x X). reflexivity.
Qed.
Lemma beta_constant_unique : forall a b I C C', beta_constant a b I C -> beta_constant a b I C' -> C = C'.
Proof.
  intros a b I C C' H H'. pose proof (uniqueness_limite I (1 / 2) _ _ (H (1 / 2) ltac:(lra)) (H' (1 / 2) ltac:(lra))) as E.
  pose proof (exp_pos ((a - 1) * ln (1 / 2)) : 0 < Rpower (1 / 2) (a - 1)). pose proof (exp_pos ((b - 1) * ln (1 - 1 / 2)) : 0 < Rpower (1 - 1 / 2) (b - 1)).
  apply Rmult_eq_reg_r in E; [exact E|]. apply Rgt_not_eq, Rmult_lt_0_compat; assumption.
Qed.
Lemma beta_constant_pos : forall a b I C, beta_cdf a b I -> beta_constant a b I C -> 0 < C.
Proof. intros a b I C ((C' & P & H) & _) HC. rewrite (beta_constant_unique a b I C C' HC H). exact P. Qed.

(** * the limit *)
Theorem C82_limit : forall a b I C x, 0 < a -> 0 < b -> beta_cdf a b I -> beta_constant a b I C -> 0 < x < 1 ->
  Un_cv (fun n => C * Rpower x a * Rpower (1 - x) b / a * convergent a b x n) (I x).
Proof.
  intros a b I C x A B HI HC X. rewrite (beta_value a b I C A B HI HC x X).
  replace (C * (Rpower x a * Rpower (1 - x) b * vbeta a b x / a)) with (C * Rpower x a * Rpower (1 - x) b / a * vbeta a b x) by (field; lra).
  apply is_lim_seq_Reals. apply (is_lim_seq_scal_l (convergent a b x) _ (Finite (vbeta a b x))). apply convergent_limit; lra.
Qed.

(** * enough iterations always suffice *)
Theorem C82_returns : forall a b x EPS, cf_domain a b x -> 0 < EPS -> exists N, forall ITMAX, (N <= ITMAX)%nat -> exists cf, contfractbeta a b x ITMAX EPS = Ok cf.
Proof.
  intros a b x EPS Dom HE. destruct (dom_parts a b x Dom) as (A & B & X).
  pose proof (convergent_limit a b x A B ltac:(lra)) as L. apply is_lim_seq_Reals in L. destruct (L (EPS / 2) ltac:(lra)) as [N HN]. exists (N + 2)%nat. intros ITMAX HI.
  destruct (C63_continued_fraction a b x ITMAX EPS Dom) as [(m & _ & E & _)|[_ NO]]; [eexists; exact E|exfalso].
  apply (NO (S (S N)) ltac:(lia)). replace (S (S N) - 1)%nat with (S N) by lia. unfold close_enough, iterate.
  pose proof (HN (2 * S (S N) + 1)%nat ltac:(lia)) as B1. pose proof (HN (2 * S N + 1)%nat ltac:(lia)) as B2. unfold R_dist in B1, B2.
  pose proof (convergent_ge1 a b x Dom (2 * S (S N) + 1)) as G. rewrite (Rabs_pos_eq (convergent a b x (2 * S (S N) + 1))) by lra.
  apply Rlt_le_trans with (EPS * 1); [|apply Rmult_le_compat_l; lra].
  apply Rabs_def2 in B1, B2. apply Rabs_def1; lra.
Qed.

(** * accuracy of the continued fraction *)
Lemma cf_accuracy : forall a b x ITMAX EPS cf, cf_domain a b x -> EPS <= 1 / 4 -> contfractbeta a b x ITMAX EPS = Ok cf ->
  Rabs (cf - vbeta a b x) <= Rmax 1 (x / (1 - x)) * (EPS * cf).
Proof.
  intros a b x ITMAX EPS cf Dom HE H. destruct (C63_continued_fraction a b x ITMAX EPS Dom) as [(m & M & E & HC & _)|[E _]]; rewrite E in H; [|discriminate].
  injection H as <-. destruct m as [|m]; [lia|]. exact (err_iterate a b x Dom EPS (S m) ltac:(lia) HE HC).
Qed.
Theorem C82_accuracy : forall a b I C x ITMAX EPS cf, beta_cdf a b I -> beta_constant a b I C -> cf_domain a b x -> EPS <= 1 / 4 ->
  contfractbeta a b x ITMAX EPS = Ok cf ->
  agrees (EPS * Rmax 1 (x / (1 - x))) (C * Rpower x a * Rpower (1 - x) b / a * cf) (I x).
Proof.
  intros a b I C x ITMAX EPS cf HI HC Dom HE H. destruct (dom_parts a b x Dom) as (A & B & X). pose proof (cf_accuracy a b x ITMAX EPS cf Dom HE H) as E.
  unfold agrees. rewrite (beta_value a b I C A B HI HC x X). pose proof (beta_constant_pos a b I C HI HC) as CP.
  pose proof (exp_pos (a * ln x) : 0 < Rpower x a). pose proof (exp_pos (b * ln (1 - x)) : 0 < Rpower (1 - x) b).
  set (K := C * Rpower x a * Rpower (1 - x) b / a). assert (KP : 0 < K) by (unfold K; apply Rdiv_lt_0_compat; [apply Rmult_lt_0_compat; [apply Rmult_lt_0_compat; assumption|assumption]|exact A]).
  replace (K * cf - C * (Rpower x a * Rpower (1 - x) b * vbeta a b x / a)) with (K * (cf - vbeta a b x)) by (unfold K; field; lra).
  rewrite Rabs_mult, (Rabs_pos_eq K) by lra. replace (EPS * Rmax 1 (x / (1 - x)) * (K * cf)) with (K * (Rmax 1 (x / (1 - x)) * (EPS * cf))) by ring. apply Rmult_le_compat_l; lra.
Qed.
Lemma agrees_weaken : forall e e' r p, 0 <= r -> e <= e' -> agrees e r p -> agrees e' r p.
Proof. intros e e' r p R L H. unfold agrees in *. eapply Rle_trans; [exact H|]. apply Rmult_le_compat_r; assumption. Qed.
Lemma odds_bound : forall a b x, cf_domain a b x -> x / (1 - x) <= (a + 1) / (b + 1).
Proof.
  intros a b x Dom. destruct (domain_x1 a b x Dom) as [X H]. destruct Dom as (A & B & X0 & _).
  apply Rmult_le_reg_r with ((1 - x) * (b + 1)); [apply Rmult_lt_0_compat; lra|].
  replace (x / (1 - x) * ((1 - x) * (b + 1))) with (x * (b + 1)) by (field; lra). replace ((a + 1) / (b + 1) * ((1 - x) * (b + 1))) with ((a + 1) * (1 - x)) by (field; lra). nra.
Qed.

(** * incompbeta *)
Lemma cdf_reflect : forall a b I, beta_cdf a b I -> beta_cdf b a (fun x => 1 - I (1 - x)).
Proof.
  intros a b I ((C & CP & H) & H0 & H1). split; [|split].
  - exists C. split; [exact CP|]. intros x X. pose proof (H (1 - x) ltac:(lra)) as D. apply is_derive_Reals in D. apply is_derive_Reals.
    evar_last. { apply (is_derive_minus (fun _ => 1) (fun x => I (1 - x)) x); [apply is_derive_const|]. apply (is_derive_comp I (fun x => 1 - x) x); [exact D|]. apply (is_derive_minus (fun _ => 1) (fun x => x) x); [apply is_derive_const|apply is_derive_id]. }
    unfold minus, plus, opp, zero, one, scal. simpl. unfold mult. simpl. replace (1 - (1 - x)) with x by ring. match goal with |- ?l = ?r => change (@eq R l r) end. ring.
  - intros e He. destruct (H1 e He) as (p & P & K). exists (1 - p). split; [lra|]. intros x X L. pose proof (K (1 - x) ltac:(lra) ltac:(lra)) as Z. rewrite Rabs_minus_sym. exact Z.
  - intros e He. destruct (H0 e He) as (p & P & K). exists (1 - p). split; [lra|]. intros x X L. replace (1 - I (1 - x) - 1) with (- I (1 - x)) by ring. rewrite Rabs_Ropp. apply K; lra.
Qed.
Lemma constant_reflect : forall a b I C, beta_constant a b I C -> beta_constant b a (fun x => 1 - I (1 - x)) C.
Proof.
  intros a b I C H x X. pose proof (H (1 - x) ltac:(lra)) as D. apply is_derive_Reals in D. apply is_derive_Reals.
  evar_last. { apply (is_derive_minus (fun _ => 1) (fun x => I (1 - x)) x); [apply is_derive_const|]. apply (is_derive_comp I (fun x => 1 - x) x); [exact D|]. apply (is_derive_minus (fun _ => 1) (fun x => x) x); [apply is_derive_const|apply is_derive_id]. }
  unfold minus, plus, opp, zero, one, scal. simpl. unfold mult. simpl. replace (1 - (1 - x)) with x by ring. match goal with |- ?l = ?r => change (@eq R l r) end. ring.
Qed.

(** the relative precision: of the value below the switching point, of one minus the value above it *)
Definition precision (a b : R) : R := 1 / 10 ^ 7 * Rmax 1 ((a + 1) / (b + 1)).
Theorem C82_incompbeta : forall gl a b I x p, 0 < a -> 0 < b -> beta_cdf a b I -> beta_constant a b I (exp (gl (a + b) - gl a - gl b)) -> 0 < x < 1 ->
  incompbeta gl a b x = Ok p ->
  exists r, p = Fin r /\ (x < (a + 1) / (a + b + 2) -> 0 < r /\ agrees (precision a b) r (I x)) /\
    ((a + 1) / (a + b + 2) <= x -> r < 1 /\ agrees (precision b a) (1 - r) (1 - I x)).
Proof.
  intros gl a b I x p A B HI HC X H. unfold incompbeta in H. rewrite (proj2 (reqb_false x 0)), (proj2 (reqb_false x 1)) in H by lra. unfold rdiv at 1 in H. rewrite (proj2 (reqb_false _ 0)) in H by lra. cbn [rbind] in H.
  rewrite lbeta_fin in H by exact X. set (l := gl (a + b) - gl a - gl b) in *.
  assert (EX : exp (l + a * ln x + b * ln (1 - x)) = exp l * Rpower x a * Rpower (1 - x) b) by (rewrite !exp_plus; reflexivity).
  assert (EPOS : 0 < exp (l + a * ln x + b * ln (1 - x))) by apply exp_pos.
  destruct (rltb x ((a + 1) / (a + b + 2))) eqn:SW.
  - apply rltb_true in SW. pose proof (switch_low a b x A B X SW) as Dom. destruct (cf_default a b x) as [cf|e] eqn:CF; [|discriminate]. cbn [rbind] in H. unfold rdiv in H. rewrite (proj2 (reqb_false a 0)) in H by lra. cbn [rbind exp_times] in H.
    injection H as <-. eexists. split; [reflexivity|]. split; [intros _|intros; lra].
    pose proof (cf_default_pos a b x cf Dom CF) as C1. assert (R0 : 0 < exp (l + a * ln x + b * ln (1 - x)) * (cf / a)) by (apply Rmult_lt_0_compat; [exact EPOS|apply Rdiv_lt_0_compat; lra]).
    split; [exact R0|]. pose proof (C82_accuracy a b I (exp l) x (N.to_nat 5000) (1 / 10000000) cf HI HC Dom ltac:(lra) CF) as AC.
    apply (agrees_weaken (1 / 10000000 * Rmax 1 (x / (1 - x)))); [lra| |].
    + unfold precision. replace (10 ^ 7) with 10000000 by ring. apply Rmult_le_compat_l; [lra|]. apply Rmax_lub; [apply Rmax_l|]. apply Rle_trans with ((a + 1) / (b + 1)); [apply odds_bound, Dom|apply Rmax_r].
    + replace (exp (l + a * ln x + b * ln (1 - x)) * (cf / a)) with (exp l * Rpower x a * Rpower (1 - x) b / a * cf) by (rewrite EX; field; lra). exact AC.
  - apply rltb_false in SW. pose proof (switch_high a b x A B X ltac:(lra)) as Dom. destruct (cf_default b a (1 - x)) as [cf|e] eqn:CF; [|discriminate]. cbn [rbind] in H. unfold rdiv in H. rewrite (proj2 (reqb_false b 0)) in H by lra. cbn [rbind exp_times one_minus] in H.
    injection H as <-. eexists. split; [reflexivity|]. split; [intros; lra|intros _].
    pose proof (cf_default_pos b a (1 - x) cf Dom CF) as C1. set (q := exp (l + a * ln x + b * ln (1 - x)) * (cf / b)). assert (R0 : 0 < q) by (apply Rmult_lt_0_compat; [exact EPOS|apply Rdiv_lt_0_compat; lra]).
    split; [lra|]. pose proof (C82_accuracy b a (fun x => 1 - I (1 - x)) (exp l) (1 - x) (N.to_nat 5000) (1 / 10000000) cf (cdf_reflect a b I HI) (constant_reflect a b I _ HC) Dom ltac:(lra) CF) as AC.
    replace (1 - (1 - q)) with q by ring. cbv beta in AC. replace (1 - (1 - x)) with x in AC by ring.
    apply (agrees_weaken (1 / 10000000 * Rmax 1 ((1 - x) / x))); [lra| |].
    + unfold precision. replace (10 ^ 7) with 10000000 by ring. apply Rmult_le_compat_l; [lra|]. apply Rmax_lub; [apply Rmax_l|]. apply Rle_trans with ((b + 1) / (a + 1)); [|apply Rmax_r]. pose proof (odds_bound b a (1 - x) Dom) as O. replace (1 - (1 - x)) with x in O by ring. exact O.
    + replace q with (exp l * Rpower (1 - x) b * Rpower x a / b * cf) by (unfold q; rewrite EX; field; lra). exact AC.
Qed.

(** * whole numbers of events: the recurrence of gammaln suffices *)
Lemma gl_shift : forall gl b n, loggamma_ok gl -> 0 < b -> exp (gl (INR n + b) - gl b) = rising b n.
Proof.
  intros gl b n [_ G] B. induction n as [|n IH].
  - simpl. rewrite Rplus_0_l, Rminus_eq_0. apply exp_0.
  - rewrite S_INR. pose proof (pos_INR n). replace (INR n + 1 + b) with (INR n + b + 1) by ring. rewrite G by lra. replace (ln (INR n + b) + gl (INR n + b) - gl b) with (ln (INR n + b) + (gl (INR n + b) - gl b)) by ring.
    rewrite exp_plus, exp_ln, IH by lra. cbn [rising]. ring.
Qed.
Lemma rising_fact : forall n, rising 1 n = INR (fact n).
Proof. induction n as [|n IH]; [reflexivity|]. cbn [rising]. rewrite IH, fact_simpl, mult_INR, S_INR. ring. Qed.
Lemma whole_constant : forall gl b n, loggamma_ok gl -> 0 < b -> beta_constant (INR (S n)) b (nb_tail b (S n)) (exp (gl (INR (S n) + b) - gl (INR (S n)) - gl b)).
Proof.
  intros gl b n G B x X. assert (E : exp (gl (INR (S n) + b) - gl (INR (S n)) - gl b) = rising b (S n) / INR (fact n)).
  { pose proof (gl_shift gl b (S n) G B) as E1. pose proof (gl_shift gl 1 n G ltac:(lra)) as E2. rewrite rising_fact in E2. replace (INR n + 1) with (INR (S n)) in E2 by (rewrite S_INR; ring). destruct G as [G1 _]. rewrite G1, Rminus_0_r in E2.
    replace (gl (INR (S n) + b) - gl (INR (S n)) - gl b) with ((gl (INR (S n) + b) - gl b) + - gl (INR (S n))) by ring. rewrite exp_plus, exp_Ropp, E1, E2. reflexivity. }
  rewrite E. replace (INR (S n) - 1) with (INR n) by (rewrite S_INR; ring). rewrite Rpower_pow by lra. apply is_derive_Reals. apply nb_tail_derive; [exact B|lra].
Qed.
Theorem C82_negative_binomial : forall gl n b x p, loggamma_ok gl -> 0 < b -> 0 < x < 1 -> incompbeta gl (INR (S n)) b x = Ok p ->
  exists r, p = Fin r /\ (x < (INR (S n) + 1) / (INR (S n) + b + 2) -> 0 < r /\ agrees (precision (INR (S n)) b) r (negbin_tail b x (S n))) /\
    ((INR (S n) + 1) / (INR (S n) + b + 2) <= x -> r < 1 /\ agrees (precision b (INR (S n))) (1 - r) (1 - negbin_tail b x (S n))).
Proof.
  intros gl n b x p G B X H. assert (A : 0 < INR (S n)) by (apply lt_0_INR; lia).
  exact (C82_incompbeta gl (INR (S n)) b (nb_tail b (S n)) x p A B (nb_tail_cdf b n B) (whole_constant gl b n G B) X H).
Qed.

(** * the logarithmic p-values of outliers *)
Theorem C82_log_p : forall L n m s lp lq, loggamma_ok (gammaln L) -> 0 < s -> log_poisson_obs_p L (S n) (Fin m) (Fin s) = Ok (lp, lq) ->
  let a := INR (S n) in let b := fst (predictive m s) in let x := snd (predictive m s) in let tail := 1 - lsum (predictive_prob m s) (seq 0 (S n)) in
  (x < (a + 1) / (a + b + 2) -> exists l, lp = Fin l /\ agrees (precision a b) (exp l) tail) /\
  ((a + 1) / (a + b + 2) <= x -> exists l, lq = Fin l /\ agrees (precision b a) (exp l) (1 - tail)).
Proof.
  intros L n m s lp lq G Hs H. rewrite (proj2 (C58_which_function L (S n) (Fin m) (Fin s))) in H. cbn [tail_with] in H. unfold err_positive in H. rewrite (proj2 (rltb_true 0 s)) in H by exact Hs.
  destruct (linnemann_predictive m s Hs) as (E & Hb & Hx). rewrite E in H. cbv zeta. unfold predictive_prob.
  destruct (incompbeta (gammaln L) (INR (S n)) (fst (predictive m s)) (snd (predictive m s))) as [p|e] eqn:EI; [|discriminate]. cbn [rbind] in H. injection H as E1 E2.
  destruct (C82_negative_binomial (gammaln L) n _ _ p G Hb Hx EI) as (r & -> & H1 & H2). split; intros X.
  - destruct (H1 X) as [R A]. exists (ln r). split; [rewrite <- E1; apply nlog_pos, R|]. rewrite exp_ln by exact R. exact A.
  - destruct (H2 X) as [R A]. exists (ln (1 - r)). split; [rewrite <- E2; cbn [one_minus nlogn]; apply nlog_pos; lra|]. rewrite exp_ln by lra. exact A.
Qed.

(** ... and of the mid p-value itself: below the switching point of the fraction ln p is right to that precision, above it ln (1 - p) *)
Lemma precision_mono : forall a a' b, 0 <= a -> a <= a' -> 0 <= b -> precision a b <= precision a' b /\ precision b a' <= precision b a.
Proof.
  intros a a' b A AA B. unfold precision. replace (10 ^ 7) with 10000000 by ring. split; apply Rmult_le_compat_l; try lra; apply Rle_max_compat_l.
  - apply Rmult_le_compat_r; [left; apply Rinv_0_lt_compat; lra|lra].
  - apply Rmult_le_compat_l; [lra|]. apply Rinv_le_contravar; lra.
Qed.
Lemma agrees_looser : forall e e' r p, 0 <= r -> e <= e' -> agrees e r p -> agrees e' r p.
Proof. unfold agrees. intros e e' r p H L A. pose proof (Rmult_le_compat_r r e e' H L). lra. Qed.
Lemma agrees_mean : forall e r r' p p', agrees e r p -> agrees e r' p' -> agrees e ((r + r') / 2) ((p + p') / 2).
Proof.
  unfold agrees. intros e r r' p p' A B. pose proof (Rle_abs (r - p)). pose proof (Rle_abs (- (r - p))) as A2. rewrite Rabs_Ropp in A2. pose proof (Rle_abs (r' - p')). pose proof (Rle_abs (- (r' - p'))) as B2. rewrite Rabs_Ropp in B2. apply Rabs_le. lra.
Qed.
Lemma switch_mono : forall a a' b, 0 < a -> a <= a' -> 0 < b -> (a + 1) / (a + b + 2) <= (a' + 1) / (a' + b + 2).
Proof.
  intros a a' b A AA B. apply (Rmult_le_reg_r ((a + b + 2) * (a' + b + 2))); [nra|]. 
  replace ((a + 1) / (a + b + 2) * ((a + b + 2) * (a' + b + 2))) with ((a + 1) * (a' + b + 2)) by (field; lra).
  replace ((a' + 1) / (a' + b + 2) * ((a + b + 2) * (a' + b + 2))) with ((a' + 1) * (a + b + 2)) by (field; lra). nra.
Qed.
Definition below_switch (k : nat) (b x : R) : Prop := k = O \/ x < (INR k + 1) / (INR k + b + 2).
Lemma tail_precision : forall L k m s P, loggamma_ok (gammaln L) -> 0 < s -> tail_with L (incompbeta (gammaln L)) k (Fin m) (Fin s) = Ok P ->
  let b := fst (predictive m s) in let x := snd (predictive m s) in let T := 1 - lsum (predictive_prob m s) (seq 0 k) in
  exists r, P = Fin r /\ (below_switch k b x -> 0 < r /\ agrees (precision (INR k) b) r T) /\
    ((INR k + 1) / (INR k + b + 2) <= x \/ k = O -> r <= 1 /\ (k <> O -> r < 1) /\ agrees (precision b (INR k)) (1 - r) (1 - T)).
Proof.
  intros L k m s P G Hs H. cbv zeta. destruct (linnemann_predictive m s Hs) as (E & Hb & Hx). destruct k as [|k].
  - cbn [tail_with] in H. injection H as <-. exists 1. cbn [seq]. rewrite lsum_nil. split; [reflexivity|]. unfold agrees.
    replace (1 - (1 - 0)) with 0 by ring. replace (1 - 1 - 0) with 0 by ring. rewrite Rabs_R0. split; intros _.
    + split; [lra|]. unfold precision. pose proof (Rmax_l 1 ((INR 0 + 1) / (fst (predictive m s) + 1))). replace (10 ^ 7) with 10000000 by ring. lra.
    + split; [lra|]. split; [intros N; contradiction|lra].
  - cbn [tail_with] in H. unfold err_positive in H. rewrite (proj2 (rltb_true 0 s)) in H by exact Hs. rewrite E in H. destruct (predictive m s) as [b x] eqn:EP. cbn [fst snd] in *.
    destruct (C82_negative_binomial (gammaln L) k b x P G Hb Hx H) as (r & -> & H1 & H2). exists r. split; [reflexivity|].
    assert (ET : 1 - lsum (predictive_prob m s) (seq 0 (S k)) = negbin_tail b x (S k)) by (unfold predictive_prob; rewrite EP; reflexivity). rewrite ET. split.
    + intros [N|N]; [discriminate|]. apply H1, N.
    + intros [N|N]; [|discriminate]. destruct (H2 N) as [A B]. split; [lra|]. split; [intros _; exact A|exact B].
Qed.
Theorem C58_mid_precision : forall L n m s lp lq, loggamma_ok (gammaln L) -> betainc_exact (betainc L) -> 0 < s -> log_poisson_obs_mid_p L n (Fin m) (Fin s) = Ok (lp, lq) ->
  let b := fst (predictive m s) in let x := snd (predictive m s) in
  exists p, poisson_obs_mid_p L n (Fin m) (Fin s) = Fin p /\
    (x < (INR (Nat.max 1 n) + 1) / (INR (Nat.max 1 n) + b + 2) -> exists l, lp = Fin l /\ agrees (precision (INR (S n)) b) (exp l) p) /\
    ((INR (S n) + 1) / (INR (S n) + b + 2) <= x -> exists l, lq = Fin l /\ agrees (precision b (INR n)) (exp l) (1 - p)).
Proof.
  intros L n m s lp lq G HB Hs H. cbv zeta. destruct (linnemann_predictive m s Hs) as (_ & Hb & Hx).
  rewrite (mid_p_fin L n _ _ _ _ (C57_predictive_tail L n m s HB Hs) (C57_predictive_tail L (S n) m s HB Hs)). eexists. split; [reflexivity|].
  unfold log_poisson_obs_mid_p in H. rewrite !log_tail_spec in H.
  destruct (tail_with L (incompbeta (gammaln L)) n (Fin m) (Fin s)) as [P|e] eqn:EP; [|discriminate]. cbn [rbind] in H.
  destruct (tail_with L (incompbeta (gammaln L)) (S n) (Fin m) (Fin s)) as [Q|e] eqn:EQ; [|discriminate]. cbn [rbind] in H. cbn [fst snd] in H. injection H as E1 E2.
  destruct (tail_precision L n m s P G Hs EP) as (r & -> & R1 & R2). destruct (tail_precision L (S n) m s Q G Hs EQ) as (q & -> & Q1 & Q2).
  set (b := fst (predictive m s)) in *. set (x := snd (predictive m s)) in *. pose proof (pos_INR n) as N0. pose proof (S_INR n) as NS.
  destruct (precision_mono (INR n) (INR (S n)) b N0 ltac:(lra) ltac:(lra)) as [PM1 PM2]. split; intros X.
  - assert (B1 : below_switch n b x). { destruct n as [|n]; [left; reflexivity|right; exact X]. }
    assert (B2 : below_switch (S n) b x). { right. destruct n as [|n]; [exact X|]. apply Rlt_le_trans with (1 := X). change (Nat.max 1 (S n)) with (S n). apply switch_mono; [apply lt_0_INR; lia|lra|lra]. }
    destruct (R1 B1) as [R0 RA]. destruct (Q1 B2) as [Q0 QA]. rewrite log_mean_spec in E1 by lra. rewrite nlogn_fin in E1 by lra.
    exists (ln ((r + q) / 2)). split; [symmetry; exact E1|]. rewrite exp_ln by lra. apply agrees_mean; [|exact QA]. apply (agrees_looser _ _ _ _ (Rlt_le _ _ R0) PM1 RA).
  - assert (B1 : (INR n + 1) / (INR n + b + 2) <= x \/ n = O).
    { destruct n as [|n]; [right; reflexivity|left]. apply Rle_trans with (2 := X). apply switch_mono; [apply lt_0_INR; lia|lra|lra]. }
    destruct (R2 B1) as (R0 & _ & RA). destruct (Q2 (or_introl X)) as (_ & Q0 & QA). specialize (Q0 ltac:(discriminate)). cbn [one_minus] in E2.
    rewrite log_mean_spec in E2 by lra. rewrite nlogn_fin in E2 by lra.
    exists (ln ((1 - q + (1 - r)) / 2)). split; [symmetry; exact E2|]. rewrite exp_ln by lra.
    match goal with |- agrees _ _ (1 - (?t + ?u) / 2) => replace (1 - (t + u) / 2) with ((1 - u + (1 - t)) / 2) by field end.
    apply agrees_mean; [|exact RA]. refine (agrees_looser _ _ _ _ _ PM2 QA). lra.
Qed.

(** * the hypotheses can be met *)
(** a solution of the recurrence of ln Gamma *)
Definition steps (z : R) : nat := Z.to_nat (- Int_part (- z) - 1).
Definition demo_gl (z : R) : R := lsum (fun i => ln (z - INR (S i))) (seq 0 (steps z)).
Lemma lsum_shift1 : forall (f : nat -> R) n s, lsum f (seq (S s) n) = lsum (fun i => f (S i)) (seq s n).
Proof. intros f n. induction n as [|n IH]; intros s; [reflexivity|]. cbn [seq]. rewrite !lsum_cons, IH. reflexivity. Qed.
Lemma demo_gl_ok : loggamma_ok demo_gl.
Proof.
  split.
  - assert (E : steps 1 = 0%nat).
    { unfold steps. assert (I : Int_part (Ropp 1) = (-1)%Z) by (unfold Int_part; rewrite <- (tech_up (Ropp 1) 0); [reflexivity|simpl; lra|simpl; lra]). rewrite I. reflexivity. }
    unfold demo_gl. rewrite E. reflexivity.
  - intros z Z0. assert (E : steps (z + 1) = S (steps z)).
    { unfold steps. assert (I : Int_part (- (z + 1)) = (Int_part (- z) - 1)%Z).
      { destruct (base_Int_part (- z)) as [B1 B2]. unfold Int_part at 1. rewrite <- (tech_up (- (z + 1)) (Int_part (- z))); [reflexivity| |]; lra. }
      rewrite I. destruct (base_Int_part (- z)) as [B1 B2]. assert (Int_part (- z) < 0)%Z by (apply lt_IZR; lra). lia. }
    unfold demo_gl. rewrite E. cbn [seq]. rewrite lsum_cons, lsum_shift1. simpl INR. replace (z + 1 - 1) with z by ring. f_equal.
    apply lsum_ext. intros i _. f_equal. destruct i; simpl; ring.
Qed.

Lemma exp_le1 : forall z, z <= 0 -> exp z <= 1.
Proof. intros z [H | ->]; [|rewrite exp_0; lra]. apply exp_increasing in H. rewrite exp_0 in H. lra. Qed.
(** the beta law exists for all positive parameters *)
Theorem C82_beta_law : forall a b, 0 < a -> 0 < b -> exists I C, beta_cdf a b I /\ beta_constant a b I C.
Proof.
  intros a b A B. set (U := ubeta a b). set (h := fun x => Rpower x (a - 1) * Rpower (1 - x) (b - 1)).
  assert (HP : forall x, 0 < x < 1 -> 0 < h x) by (intros x X; unfold h, Rpower; apply Rmult_lt_0_compat; apply exp_pos).
  assert (DU : forall x, 0 < x < 1 -> derivable_pt_lim U x (h x)) by (intros x X; apply is_derive_Reals, u_derive; [exact A|exact B|exact X]).
  assert (INC : forall x y, 0 < x -> x < y -> y < 1 -> U x < U y).
  { intros x y X XY Y. destruct (MVT_cor2 U h x y XY) as (c & E & Hc); [intros c Hc; apply DU; lra|]. assert (0 < h c) by (apply HP; lra). nra. }
  (* bound near 1 *)
  set (K := Rmax 1 (Rpower (1 / 2) (a - 1))).
  assert (K1 : forall x, 1 / 2 <= x < 1 -> h x <= K * Rpower (1 - x) (b - 1)).
  { intros x X. unfold h. apply Rmult_le_compat_r; [left; apply exp_pos|]. unfold K, Rpower. destruct (Rle_or_lt 1 a) as [L|L].
    - apply Rle_trans with 1; [|apply Rmax_l]. assert (ln x < 0) by (rewrite <- ln_1; apply ln_increasing; lra). apply exp_le1. nra.
    - apply Rle_trans with (exp ((a - 1) * ln (1 / 2))); [|apply Rmax_r]. destruct (Req_dec x (1 / 2)) as [->|N]; [lra|]. left. apply exp_increasing. assert (ln (1 / 2) < ln x) by (apply ln_increasing; lra). nra. }
  assert (K0 : 1 <= K) by apply Rmax_l.
  set (W := fun x => U x + K / b * Rpower (1 - x) b).
  assert (DW : forall x, 0 < x < 1 -> derivable_pt_lim W x (h x - K * Rpower (1 - x) (b - 1))).
  { intros x X. unfold W. apply is_derive_Reals. evar_last. { apply (is_derive_plus U (fun x => K / b * Rpower (1 - x) b) x); [apply is_derive_Reals, DU, X|]. apply (is_derive_scal (fun x => Rpower (1 - x) b) x (K / b)). apply is_derive_pow1. lra. }
    unfold plus, scal. simpl. unfold mult. simpl. match goal with |- ?l = ?r => change (@eq R l r) end. field. lra. }
  assert (WD : forall x, 1 / 2 < x < 1 -> W x <= W (1 / 2)).
  { intros x X. destruct (MVT_cor2 W (fun x => h x - K * Rpower (1 - x) (b - 1)) (1 / 2) x ltac:(lra)) as (c & E & Hc); [intros c Hc; apply DW; lra|]. pose proof (K1 c ltac:(lra)). nra. }
  set (M := W (1 / 2)).
  assert (BD : forall x, 0 < x < 1 -> U x <= M).
  { intros x X. destruct (Rle_or_lt x (1 / 2)) as [L|L].
    - apply Rle_trans with (U (1 / 2)); [destruct (Req_dec x (1 / 2)) as [->|N]; [lra|left; apply INC; lra]|]. unfold M, W. pose proof (exp_pos (b * ln (1 - 1 / 2)) : 0 < Rpower (1 - 1 / 2) b). assert (0 < K / b) by (apply Rdiv_lt_0_compat; lra). nra.
    - pose proof (WD x ltac:(lra)) as D. unfold W at 1 in D. pose proof (exp_pos (b * ln (1 - x)) : 0 < Rpower (1 - x) b). assert (0 < K / b) by (apply Rdiv_lt_0_compat; lra). assert (0 < K / b * Rpower (1 - x) b) by (apply Rmult_lt_0_compat; assumption). fold M in D. lra. }
  destruct (completeness (fun u => exists x, 0 < x < 1 /\ u = U x)) as [T [T1 T2]].
  { exists M. intros u (x & X & ->). apply BD, X. }
  { exists (U (1 / 2)), (1 / 2). split; [lra|reflexivity]. }
  assert (UP : forall x, 0 < x < 1 -> 0 < U x).
  { intros x X. unfold U, ubeta. pose proof (hyp_ge1 (a + b) 1 (a + 1) x ltac:(lra) ltac:(lra) ltac:(lra) ltac:(lra)) as G. apply Rdiv_lt_0_compat; [|exact A]. apply Rmult_lt_0_compat; [apply Rmult_lt_0_compat; apply exp_pos|unfold vbeta; lra]. }
  assert (TP : 0 < T) by (apply Rlt_le_trans with (U (1 / 2)); [apply UP; lra|apply T1; exists (1 / 2); split; [lra|reflexivity]]).
  assert (DI : forall x, 0 < x < 1 -> derivable_pt_lim (fun x => / T * U x) x (/ T * h x)) by (intros x X; apply (derivable_pt_lim_scal U), DU, X).
  exists (fun x => / T * U x), (/ T). split; [|exact DI]. split; [exists (/ T); split; [apply Rinv_0_lt_compat, TP|exact DI]|]. split.
  - intros e He. destruct (u_zero a b A B (e * T) ltac:(apply Rmult_lt_0_compat; lra)) as (x0 & X0 & Z). exists x0. split; [exact X0|]. intros x X L. pose proof (Z x X L) as Z'. rewrite Rabs_mult, (Rabs_pos_eq (/ T)) by (left; apply Rinv_0_lt_compat, TP).
    apply Rmult_le_reg_l with T; [exact TP|]. rewrite <- Rmult_assoc, Rinv_r, Rmult_1_l by lra. unfold U. lra.
  - intros e He. assert (NB : ~ is_upper_bound (fun u => exists x, 0 < x < 1 /\ u = U x) (T - e * T)).
    { intros UB. pose proof (T2 _ UB). nra. }
    destruct (Classical_Prop.classic (exists x, 0 < x < 1 /\ T - e * T < U x)) as [(x0 & X0 & L0)|N].
    + exists x0. split; [exact X0|]. intros x X L. assert (U1 : U x0 <= U x) by (destruct (Req_dec x0 x) as [->|D]; [lra|left; apply INC; lra]). assert (U2 : U x <= T) by (apply T1; exists x; split; [exact X|reflexivity]).
      apply Rabs_le. assert (V1 : / T * U x <= 1) by (apply Rmult_le_reg_l with T; [exact TP|]; rewrite <- Rmult_assoc, Rinv_r by lra; lra).
      assert (V2 : 1 - e <= / T * U x) by (apply Rmult_le_reg_l with T; [exact TP|]; rewrite <- Rmult_assoc, Rinv_r by lra; lra). lra.
    + exfalso. apply NB. intros u (x & X & ->). apply Rnot_lt_le. intros L. apply N. exists x. split; assumption.
Qed.

(** the bound is met by a non-trivial case with a whole number of events *)
Example C82_witness : cf_domain 3 2 (1/2) /\ beta_cdf 3 2 (nb_tail 2 3) /\ beta_constant 3 2 (nb_tail 2 3) (exp (demo_gl (3 + 2) - demo_gl 3 - demo_gl 2)).
Proof.
  split; [unfold cf_domain; lra|]. replace 3 with (INR 3) by (simpl; ring). split; [apply nb_tail_cdf; lra|apply whole_constant; [apply demo_gl_ok|lra]].
Qed.
