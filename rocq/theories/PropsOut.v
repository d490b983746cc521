(** C55-C59, C65, C74: expected counts, p-values and Z-values of single cells. *)
From Coq Require Import String ZArith List Bool Reals Lra Lia Psatz.
From Verif Require Import F64 Base Cells BinModel HistModel RSum StatsModel StatsProofs Num PhikModel BetaModel SpecBeta BetaProofs PropsBeta SpecSig SigModel SigProofs OutModel SpecOut OutProofs.
Import ListNotations.
Open Scope R_scope.
Open Scope list_scope.

Lemma Ok_inj : forall A (a b : A), Ok a = Ok b -> a = b. Proof. congruence. Qed.

(** * C55 *)
(** the prediction is B*C/D, defined iff there are records in neither the row nor the column *)
Theorem C55_prediction : forall L m CI t i j, get_independent_frequency_estimates L m CI = Ok t -> (i < nr m)%nat -> (j < nc m)%nat ->
  let e := nth j (nth i t []) (NaN, NaN) in
  (0 < elsewhere m i j -> fst e = Fin (same_row m i j * same_col m i j / elsewhere m i j) /\ exists s, snd e = Fin s /\ 0 <= s) /\
  (elsewhere m i j <= 0 -> e = (NaN, NaN)).
Proof.
  intros L m CI t i j H Hi Hj. destruct (estimates_nth L m CI t i j H Hi Hj) as (_ & _ & E). rewrite estimate_spec in E by assumption. cbv zeta in *.
  destruct (rltb 0 (elsewhere m i j)) eqn:D.
  - apply rltb_true in D. split; [intros _|lra].
    destruct (get_uncertainty L (same_row m i j) CI) as [sB|]; [|discriminate]. destruct (get_uncertainty L (same_col m i j) CI) as [sC|]; [|discriminate].
    destruct (get_uncertainty L (elsewhere m i j) CI) as [sD|]; [|discriminate]. cbn [rbind] in E. injection E as E. rewrite <- E. cbn [fst snd].
    split; [reflexivity|]. eexists. split; [reflexivity|apply sqrt_pos].
  - apply rltb_false in D. injection E as E. rewrite <- E. split; [lra|reflexivity].
Qed.
(** two tables that differ in one cell only give that cell the same prediction and the same uncertainty *)
Theorem C55_blind_to_own_count : forall L m m' CI t t' i j, nr m = nr m' -> nc m = nc m' -> (i < nr m)%nat -> (j < nc m)%nat ->
  (forall k l, (k, l) <> (i, j) -> el m k l = el m' k l) ->
  get_independent_frequency_estimates L m CI = Ok t -> get_independent_frequency_estimates L m' CI = Ok t' ->
  nth j (nth i t []) (NaN, NaN) = nth j (nth i t' []) (NaN, NaN).
Proof.
  intros L m m' CI t t' i j Er Ec Hi Hj Eq H H'.
  destruct (estimates_nth L m CI t i j H Hi Hj) as (_ & _ & E). destruct (estimates_nth L m' CI t' i j H' ltac:(lia) ltac:(lia)) as (_ & _ & E').
  rewrite estimate_spec in E, E' by (assumption || lia).
  assert (b : same_row m i j = same_row m' i j).
  { unfold same_row. rewrite Ec. apply lsum_ext. intros l Hl. apply in_others in Hl. apply Eq. intros X. inversion X. tauto. }
  assert (c : same_col m i j = same_col m' i j).
  { unfold same_col. rewrite Er. apply lsum_ext. intros l Hl. apply in_others in Hl. apply Eq. intros X. inversion X. tauto. }
  assert (d : elsewhere m i j = elsewhere m' i j).
  { unfold elsewhere. rewrite Er, Ec. apply lsum_ext. intros k Hk. apply in_others in Hk. apply lsum_ext. intros l Hl. apply Eq. intros X. inversion X. tauto. }
  cbv zeta in E, E'. rewrite b, c, d in E. congruence.
Qed.

(** * C56 *)
Theorem C56_exact_under_independence : forall L m CI t i j (r c : nat -> R), (forall k l, el m k l = r k * c l) ->
  get_independent_frequency_estimates L m CI = Ok t -> (i < nr m)%nat -> (j < nc m)%nat -> 0 < elsewhere m i j ->
  fst (nth j (nth i t []) (NaN, NaN)) = Fin (el m i j).
Proof.
  intros L m CI t i j r c P H Hi Hj D. destruct (C55_prediction L m CI t i j H Hi Hj) as [A _]. destruct (A D) as [A1 _]. cbv zeta in A1. rewrite A1. f_equal.
  set (R0 := lsum r (others i (nr m))). set (C0 := lsum c (others j (nc m))).
  assert (b : same_row m i j = r i * C0) by (unfold same_row, C0; rewrite <- lsum_scal; apply lsum_ext; intros; apply P).
  assert (c' : same_col m i j = R0 * c j) by (unfold same_col, R0; rewrite <- lsum_scal_r; apply lsum_ext; intros; apply P).
  assert (d : elsewhere m i j = R0 * C0).
  { unfold elsewhere, R0. rewrite <- lsum_scal_r. apply lsum_ext. intros k _. unfold C0. rewrite <- lsum_scal. apply lsum_ext. intros. apply P. }
  rewrite b, c', P. rewrite d in *. assert (R0 <> 0) by (intros X; rewrite X in D; lra). assert (C0 <> 0) by (intros X; rewrite X in D; lra). field. split; assumption.
Qed.
Lemma elsewhere_transp : forall m i j, elsewhere (transp m) j i = elsewhere m i j.
Proof. intros. unfold elsewhere. cbn [transp nr nc el]. apply lsum_swap. Qed.
Theorem C56_transposition : forall L m CI t t' i j,
  get_independent_frequency_estimates L m CI = Ok t -> get_independent_frequency_estimates L (transp m) CI = Ok t' ->
  (i < nr m)%nat -> (j < nc m)%nat -> nth i (nth j t' []) (NaN, NaN) = nth j (nth i t []) (NaN, NaN).
Proof.
  intros L m CI t t' i j H H' Hi Hj.
  destruct (estimates_nth L m CI t i j H Hi Hj) as (_ & _ & E). destruct (estimates_nth L (transp m) CI t' j i H' Hj Hi) as (_ & _ & E').
  rewrite estimate_spec in E by assumption. rewrite estimate_spec in E' by assumption. cbv zeta in *. rewrite elsewhere_transp in E'.
  change (same_row (transp m) j i) with (same_col m i j) in E'. change (same_col (transp m) j i) with (same_row m i j) in E'.
  destruct (rltb 0 (elsewhere m i j)); [|congruence].
  destruct (get_uncertainty L (same_row m i j) CI) as [sB|] eqn:EB; [|discriminate]. destruct (get_uncertainty L (same_col m i j) CI) as [sC|] eqn:EC; [|discriminate].
  destruct (get_uncertainty L (elsewhere m i j) CI) as [sD|]; [|discriminate]. cbn [rbind] in E, E'. injection E as E. injection E' as E'.
  rewrite <- E, <- E'. f_equal.
  - f_equal. rewrite (Rmult_comm (same_col m i j)). reflexivity.
  - do 2 f_equal. rewrite (Rmult_comm (same_col m i j) (same_row m i j)). ring.
Qed.
(** ... and transposing never changes whether the computation succeeds *)
Theorem C56_transposition_total : forall L m, is_ok (get_independent_frequency_estimates L m "poisson") = true /\ is_ok (get_independent_frequency_estimates L m "exact_poisson") = true.
Proof.
  intros L m. split; (destruct (get_independent_frequency_estimates L m _) eqn:E; [reflexivity|exfalso]);
    unfold get_independent_frequency_estimates in E; apply mapM_fails in E; destruct E as (i & _ & E); apply mapM_fails in E; destruct E as (j & _ & E);
    unfold estimate in E; cbv zeta in E; cbn in E; destruct (rltb 0 _); discriminate.
Qed.

(** * C65 *)
Theorem C65_poisson_uncertainty : forall x, (1 <= x -> get_poisson_uncertainty x = sqrt x) /\ (x < 1 -> get_poisson_uncertainty x = 1) /\ 1 <= get_poisson_uncertainty x.
Proof.
  intros x. unfold get_poisson_uncertainty. destruct (rleb 1 x) eqn:E.
  - apply rleb_true in E. split; [reflexivity|]. split; [lra|]. rewrite <- sqrt_1. apply sqrt_le_1_alt. exact E.
  - apply rleb_false in E. split; [lra|]. split; [reflexivity|lra].
Qed.
Theorem C65_unknown_method : forall L x CI, (CI <> "poisson" -> CI <> "exact_poisson" -> get_uncertainty L x CI = Raise NotImplementedError)%string /\
  (CI = "poisson" \/ CI = "exact_poisson" -> is_ok (get_uncertainty L x CI) = true)%string.
Proof.
  intros L x CI. unfold get_uncertainty. split.
  - intros H1 H2. destruct (String.eqb_spec CI "exact_poisson"); [contradiction|]. destruct (String.eqb_spec CI "poisson"); [contradiction|reflexivity].
  - intros [->| ->]; reflexivity.
Qed.
(** a table in which no prediction exists never looks at the method name *)
Theorem C65_unknown_method_table : forall L m CI, CI <> "poisson"%string -> CI <> "exact_poisson"%string ->
  ((exists i j, (i < nr m)%nat /\ (j < nc m)%nat /\ 0 < elsewhere m i j) -> get_independent_frequency_estimates L m CI = Raise NotImplementedError) /\
  ((forall i j, (i < nr m)%nat -> (j < nc m)%nat -> elsewhere m i j <= 0) -> is_ok (get_independent_frequency_estimates L m CI) = true).
Proof.
  intros L m CI H1 H2.
  assert (U : forall x, get_uncertainty L x CI = Raise NotImplementedError) by (intros x; apply (C65_unknown_method L x CI); assumption).
  assert (F : forall e, get_independent_frequency_estimates L m CI = Raise e -> e = NotImplementedError /\ exists i j, (i < nr m)%nat /\ (j < nc m)%nat /\ 0 < elsewhere m i j).
  { intros e E. unfold get_independent_frequency_estimates in E. apply mapM_fails in E. destruct E as (i & Hi & E). apply mapM_fails in E. destruct E as (j & Hj & E).
    apply in_seq in Hi. apply in_seq in Hj. rewrite estimate_spec in E by lia. cbv zeta in E. destruct (rltb 0 (elsewhere m i j)) eqn:D; [|discriminate].
    apply rltb_true in D. rewrite U in E. cbn [rbind] in E. injection E as <-. split; [reflexivity|]. exists i, j. split; [lia|]. split; [lia|exact D]. }
  split.
  - intros (i & j & Hi & Hj & D).
    destruct (get_independent_frequency_estimates L m CI) as [t|e] eqn:E.
    + exfalso. destruct (estimates_nth L m CI t i j E Hi Hj) as (_ & _ & X). rewrite estimate_spec in X by assumption. cbv zeta in X.
      rewrite (proj2 (rltb_true _ _) D), U in X. discriminate.
    + destruct (F e eq_refl) as [-> _]. reflexivity.
  - intros Hn. destruct (get_independent_frequency_estimates L m CI) as [t|e] eqn:E; [reflexivity|].
    destruct (F e eq_refl) as [_ (i & j & Hi & Hj & D)]. specialize (Hn i j Hi Hj). lra.
Qed.
Lemma others_nonneg : forall m i j, nonneg_table m -> 0 <= same_row m i j /\ 0 <= same_col m i j.
Proof. intros m i j H. split; apply lsum_nonneg; intros; apply H. Qed.
(** the uncertainty vanishes exactly for a cell that has its row and its column to itself *)
Lemma err_zero : forall B C D sB sC sD, 0 <= B -> 0 <= C -> 0 < D -> 0 < sB -> 0 < sC -> 0 < sD ->
  (sqrt ((sB * C / D) ^ 2 + (sC * B / D) ^ 2 + (sD * (B * C / D) / D) ^ 2) = 0 <-> B = 0 /\ C = 0).
Proof.
  intros B C D sB sC sD HB HC HD H1 H2 H3.
  assert (a1 : 0 <= (sB * C / D) ^ 2) by apply pow2_ge_0. assert (a2 : 0 <= (sC * B / D) ^ 2) by apply pow2_ge_0.
  assert (a3 : 0 <= (sD * (B * C / D) / D) ^ 2) by apply pow2_ge_0.
  split.
  - intros E. apply sqrt_eq_0 in E; [|lra].
    assert (Z : forall u, u ^ 2 = 0 -> u = 0) by (intros u Hu; nra).
    assert (Z' : forall s u, 0 < s -> s * u / D = 0 -> u = 0).
    { intros s u Hs Hu. apply Rmult_eq_compat_r with (r := D) in Hu. unfold Rdiv in Hu. rewrite Rmult_assoc, Rinv_l, Rmult_1_r, Rmult_0_l in Hu by lra.
      apply Rmult_integral in Hu. lra. }
    split; [apply (Z' sC); [lra|apply Z; lra]|apply (Z' sB); [lra|apply Z; lra]].
  - intros [-> ->]. match goal with |- sqrt ?u = 0 => replace u with 0 by (field; lra) end. apply sqrt_0.
Qed.
Theorem C65_zero_uncertainty : forall L m t i j, nonneg_table m -> get_independent_frequency_estimates L m "poisson" = Ok t ->
  (i < nr m)%nat -> (j < nc m)%nat -> 0 < elsewhere m i j ->
  (snd (nth j (nth i t []) (NaN, NaN)) = Fin 0 <-> same_row m i j = 0 /\ same_col m i j = 0).
Proof.
  intros L m t i j NN H Hi Hj D. destruct (estimates_nth L m _ t i j H Hi Hj) as (_ & _ & E). rewrite estimate_spec in E by assumption. cbv zeta in E.
  rewrite (proj2 (rltb_true _ _) D) in E. change (get_uncertainty L ?x "poisson") with (@Ok R (get_poisson_uncertainty x)) in E. cbn [rbind] in E. apply Ok_inj in E. rewrite <- E. cbn [snd].
  destruct (others_nonneg m i j NN) as [HB HC].
  pose proof (proj2 (proj2 (C65_poisson_uncertainty (same_row m i j)))). pose proof (proj2 (proj2 (C65_poisson_uncertainty (same_col m i j)))). pose proof (proj2 (proj2 (C65_poisson_uncertainty (elsewhere m i j)))).
  rewrite <- (err_zero (same_row m i j) (same_col m i j) (elsewhere m i j) (get_poisson_uncertainty (same_row m i j)) (get_poisson_uncertainty (same_col m i j)) (get_poisson_uncertainty (elsewhere m i j))); try lra.
  split; [intros X; congruence|intros X; rewrite X; reflexivity].
Qed.

(** * C57 *)
Lemma p_probability : forall L n nexp s, olib_ok L -> (exists m, nexp = Fin m /\ 0 < m) \/ (exists e, s = Fin e /\ 0 < e) -> is_probability (poisson_obs_p L n nexp s).
Proof.
  intros L n nexp s (OB & OP & _) H. destruct n as [|k]; [exists 1; split; [reflexivity|lra]|]. cbn [poisson_obs_p].
  destruct (err_positive s) as [e|] eqn:Es.
  - assert (He : 0 < e) by (unfold err_positive in Es; destruct s as [|s| |]; try discriminate; destruct (rltb 0 s) eqn:Q; [|discriminate]; apply rltb_true in Q; injection Es as <-; exact Q).
    destruct (linnemann_range nexp e He) as [Hb Hx]. destruct (linnemann nexp e) as [b x]. cbn [fst snd] in *. apply OB; [apply lt_0_INR; lia|lra|lra].
  - destruct H as [(m & -> & Hm)|(e & -> & He)]; [apply OP; exact Hm|].
    cbn [err_positive] in Es. rewrite (proj2 (rltb_true _ _) He) in Es. discriminate.
Qed.
Theorem C57_mid_p : forall L n nexp s, olib_ok L -> (exists m, nexp = Fin m /\ 0 < m) \/ (exists e, s = Fin e /\ 0 < e) ->
  exists p q, poisson_obs_p L n nexp s = Fin p /\ poisson_obs_p L (S n) nexp s = Fin q /\ 0 <= q <= p /\ p <= 1 /\
    poisson_obs_mid_p L n nexp s = Fin ((p + q) / 2).
Proof.
  intros L n nexp s OK H. destruct (p_probability L n nexp s OK H) as (p & Ep & Hp). destruct (p_probability L (S n) nexp s OK H) as (q & Eq & Hq).
  exists p, q. split; [exact Ep|]. split; [exact Eq|].
  assert (M : q <= p).
  { destruct n as [|k]; [cbn in Ep; injection Ep as <-; lra|]. cbn [poisson_obs_p] in Ep, Eq. destruct OK as ((_ & OB) & (OP1 & OP & _) & _).
    destruct (err_positive s) as [e|] eqn:Es.
    - assert (He : 0 < e) by (unfold err_positive in Es; destruct s as [|s| |]; try discriminate; destruct (rltb 0 s) eqn:Q; [|discriminate]; apply rltb_true in Q; injection Es as <-; exact Q).
      destruct (linnemann_range nexp e He) as [Hb Hx]. destruct (linnemann nexp e) as [b x]. cbn [fst snd] in *.
      apply (OB (INR (S k)) (INR (S (S k))) b x p q); try assumption; try lra; [apply lt_0_INR; lia|apply le_INR; lia].
    - destruct H as [(m & -> & Hm)|(e & -> & He)]; [eapply OP; [exact Hm| |exact Ep|exact Eq]; lia|].
      cbn [err_positive] in Es. rewrite (proj2 (rltb_true _ _) He) in Es. discriminate. }
  split; [lra|]. split; [lra|]. apply mid_p_fin; assumption.
Qed.
Theorem C57_monotone : forall L n n' nexp s p p', olib_ok L -> (exists m, nexp = Fin m /\ 0 < m) \/ (exists e, s = Fin e /\ 0 < e) ->
  (n <= n')%nat -> poisson_obs_mid_p L n nexp s = Fin p -> poisson_obs_mid_p L n' nexp s = Fin p' -> p' <= p /\ 0 <= p' /\ p <= 1.
Proof.
  intros L n n' nexp s p p' OK H Hn Hp Hp'.
  assert (A : forall k, exists r, poisson_obs_mid_p L k nexp s = Fin r /\ 0 <= r <= 1).
  { intros k. destruct (C57_mid_p L k nexp s OK H) as (a & b & _ & _ & ? & ? & E). eexists. split; [exact E|lra]. }
  assert (B : forall k r r', poisson_obs_mid_p L k nexp s = Fin r -> poisson_obs_mid_p L (S k) nexp s = Fin r' -> r' <= r).
  { intros k r r' E E'. destruct (C57_mid_p L k nexp s OK H) as (a & b & Ea & Eb & ? & ? & F). destruct (C57_mid_p L (S k) nexp s OK H) as (b' & c & Eb' & Ec & ? & ? & F').
    rewrite E in F. rewrite E' in F'. injection F as ->. injection F' as ->. rewrite Eb in Eb'. injection Eb' as <-. lra. }
  destruct (A n) as (r & Er & Hr). rewrite Hp in Er. injection Er as <-. destruct (A n') as (r' & Er' & Hr'). rewrite Hp' in Er'. injection Er' as <-.
  split; [|lra]. clear Hr Hr'. revert p' Hp'. induction Hn as [|n' Hn IH]; intros p' Hp'; [rewrite Hp in Hp'; injection Hp' as <-; lra|].
  destruct (A n') as (r & Er & _). specialize (IH r Er). pose proof (B n' r p' Er Hp'). lra.
Qed.

(** * C58 *)
(** p-values: scipy's incomplete beta function; logarithms: phik's own one *)
Theorem C58_which_function : forall L n nexp s,
  Ok (poisson_obs_p L n nexp s) = tail_with L (fun a b x => Ok (betainc L a b x)) n nexp s /\
  log_poisson_obs_p L n nexp s = (let* p := tail_with L (incompbeta (gammaln L)) n nexp s in Ok (nlogn p, nlogn (one_minus p))).
Proof.
  intros L n nexp s. split; [|apply log_tail_spec]. destruct n as [|k]; [reflexivity|]. cbn [poisson_obs_p tail_with].
  destruct (err_positive s); [|reflexivity]. destruct (linnemann nexp r). reflexivity.
Qed.
(** the logarithms of the mid p-value, whenever the two tails used are p and q *)
Theorem C58_logs_of_mid_p : forall L n nexp s p q,
  tail_with L (incompbeta (gammaln L)) n nexp s = Ok (Fin p) -> tail_with L (incompbeta (gammaln L)) (S n) nexp s = Ok (Fin q) ->
  0 < p <= 1 -> 0 <= q < 1 ->
  log_poisson_obs_mid_p L n nexp s = Ok (Fin (ln ((p + q) / 2)), Fin (ln (1 - (p + q) / 2))).
Proof.
  intros L n nexp s p q Hp Hq Rp Rq. unfold log_poisson_obs_mid_p. rewrite !log_tail_spec, Hp, Hq. cbn [rbind fst snd one_minus].
  rewrite log_mean_spec by lra. rewrite log_mean_spec by lra. rewrite !nlogn_fin by lra. do 4 f_equal. field.
Qed.
(** nothing observed: p = 1 without any library function *)
Theorem C58_nothing_observed : forall L nexp s, poisson_obs_p L 0 nexp s = Fin 1 /\ log_poisson_obs_p L 0 nexp s = Ok (Fin (ln 1), MInf).
Proof. intros L nexp s. split; [reflexivity|]. rewrite ln_1. reflexivity. Qed.
(** ... which are the logarithms of the mid p-value itself where the two incomplete beta functions agree (in particular where neither
    is used: no uncertainty on the expectation) *)
Theorem C58_logs_agree : forall L n nexp s p q,
  (forall k, (k = n \/ k = S n) -> tail_with L (incompbeta (gammaln L)) k nexp s = Ok (poisson_obs_p L k nexp s)) ->
  poisson_obs_p L n nexp s = Fin p -> poisson_obs_p L (S n) nexp s = Fin q -> 0 < p <= 1 -> 0 <= q < 1 ->
  exists m, poisson_obs_mid_p L n nexp s = Fin m /\ log_poisson_obs_mid_p L n nexp s = Ok (Fin (ln m), Fin (ln (1 - m))).
Proof.
  intros L n nexp s p q A Ep Eq Rp Rq. exists ((p + q) / 2). split; [apply mid_p_fin; assumption|].
  apply C58_logs_of_mid_p; try assumption; rewrite A by auto; [rewrite Ep|rewrite Eq]; reflexivity.
Qed.
Theorem C58_no_uncertainty : forall L n nexp s p q, err_positive s = None ->
  poisson_obs_p L n nexp s = Fin p -> poisson_obs_p L (S n) nexp s = Fin q -> 0 < p <= 1 -> 0 <= q < 1 ->
  exists m, poisson_obs_mid_p L n nexp s = Fin m /\ log_poisson_obs_mid_p L n nexp s = Ok (Fin (ln m), Fin (ln (1 - m))).
Proof.
  intros L n nexp s p q E. apply C58_logs_agree. intros k _. destruct k as [|k]; [reflexivity|]. cbn [tail_with poisson_obs_p]. rewrite E. reflexivity.
Qed.
