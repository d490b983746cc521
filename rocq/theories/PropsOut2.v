(** C59, C74: Z-values of single cells; a library meeting the assumptions. *)
From Coq Require Import String ZArith List Bool Reals Lra Lia Psatz.
From Verif Require Import F64 Base Cells BinModel HistModel RSum StatsModel StatsProofs Num PhikModel BetaModel SpecBeta BetaProofs PropsBeta SpecSig SigModel SigProofs PropsSig OutModel SpecOut OutProofs PropsOut.
Import ListNotations.
Open Scope R_scope.
Open Scope list_scope.

(** * C59 *)
Theorem C59_flip : forall L l, z_from_logp L l true = nneg (z_from_logp L l false).
Proof. intros L [|l| |]; reflexivity. Qed.

Lemma neqb_fin : forall a b, neqb (Fin a) (Fin b) = reqb a b. Proof. reflexivity. Qed.
Section OK.
Variable L : olib.
Hypothesis OK : olib_ok L.

Lemma ppf_neg : forall p, 0 < p < 1 -> exists z, nneg (o_ppf L (Fin p)) = Fin z /\ (0 < z <-> p < 1/2) /\ (z = 0 <-> p = 1/2).
Proof.
  intros p Hp. destruct OK as (_ & _ & (P0 & P1 & PN & PH & PO & PF & PM) & _). destruct (PF p Hp) as [z Ez]. exists (- z). rewrite Ez. split; [reflexivity|].
  destruct (Rtotal_order p (1/2)) as [H|[->|H]].
  - pose proof (PM p (1/2) ltac:(lra) H ltac:(lra)) as M. rewrite Ez, PH in M. cbn in M. destruct (Rlt_dec z 0); [|discriminate]. split; split; intros; lra.
  - rewrite PH in Ez. injection Ez as <-. split; split; intros; lra.
  - pose proof (PM (1/2) p ltac:(lra) H ltac:(lra)) as M. rewrite Ez, PH in M. cbn in M. destruct (Rlt_dec 0 z); [|discriminate]. split; split; intros; lra.
Qed.
Lemma ppf_neg_mono : forall p q z z', 0 < q -> q <= p -> p < 1 -> nneg (o_ppf L (Fin p)) = Fin z -> nneg (o_ppf L (Fin q)) = Fin z' -> z <= z'.
Proof.
  intros p q z z' Hq Hqp Hp Ep Eq. destruct OK as (_ & _ & (_ & _ & _ & _ & _ & PF & PM) & _).
  destruct (PF p ltac:(lra)) as [a Ea]. destruct (PF q ltac:(lra)) as [b Eb]. rewrite Ea in Ep. rewrite Eb in Eq. injection Ep as <-. injection Eq as <-.
  destruct (Rle_lt_or_eq_dec _ _ Hqp) as [H|<-]; [|rewrite Ea in Eb; injection Eb as <-; lra].
  pose proof (PM q p ltac:(lra) H ltac:(lra)) as M. rewrite Ea, Eb in M. cbn in M. destruct (Rlt_dec b a); [lra|discriminate].
Qed.

(** a mid p-value strictly between 0 and 1 gives a finite Z with the right sign *)
Theorem C59_regular : forall n nexp s p, poisson_obs_mid_p L n nexp s = Fin p -> 0 < p < 1 ->
  exists z, poisson_obs_mid_z L n nexp s = Ok (Fin z) /\ (0 < z <-> p < 1/2) /\ (z = 0 <-> p = 1/2).
Proof.
  intros n nexp s p E Hp. unfold poisson_obs_mid_z. rewrite E, !neqb_fin, (proj2 (reqb_false p 0)), (proj2 (reqb_false p 1)) by lra.
  destruct (ppf_neg p Hp) as (z & -> & H). exists z. split; [reflexivity|exact H].
Qed.
(** ... which never decreases when the observed count increases *)
Theorem C59_monotone : forall n n' nexp s p p' z z', (exists m, nexp = Fin m /\ 0 < m) \/ (exists e, s = Fin e /\ 0 < e) -> (n <= n')%nat ->
  poisson_obs_mid_p L n nexp s = Fin p -> poisson_obs_mid_p L n' nexp s = Fin p' -> p < 1 -> 0 < p' ->
  poisson_obs_mid_z L n nexp s = Ok (Fin z) -> poisson_obs_mid_z L n' nexp s = Ok (Fin z') -> z <= z'.
Proof.
  intros n n' nexp s p p' z z' H Hn Ep Ep' P1 P0 Ez Ez'. destruct (C57_monotone L n n' nexp s p p' OK H Hn Ep Ep') as (M & _).
  unfold poisson_obs_mid_z in Ez, Ez'. rewrite Ep, !neqb_fin, (proj2 (reqb_false p 0)), (proj2 (reqb_false p 1)) in Ez by lra.
  rewrite Ep', !neqb_fin, (proj2 (reqb_false p' 0)), (proj2 (reqb_false p' 1)) in Ez' by lra. apply Ok_inj in Ez. apply Ok_inj in Ez'.
  eapply ppf_neg_mono; [exact P0|exact M|exact P1|exact Ez|exact Ez'].
Qed.
(** an undefined expectation gives NaN, whatever the observed count *)
Theorem C59_undefined : forall n, poisson_obs_mid_p L n NaN NaN = NaN /\ poisson_obs_mid_z L n NaN NaN = Ok NaN.
Proof.
  intros n. destruct OK as (_ & (_ & _ & PN & _) & (_ & _ & ON & _) & _).
  assert (E : poisson_obs_mid_p L n NaN NaN = NaN).
  { unfold poisson_obs_mid_p. destruct n as [|k]; cbn [poisson_obs_p err_positive]; rewrite !PN; reflexivity. }
  split; [exact E|]. unfold poisson_obs_mid_z. rewrite E. cbn [neqb]. rewrite ON. reflexivity.
Qed.
(** without an uncertainty, tails that are numerically 0 or 1 give NaN, not an infinite or a large Z *)
Lemma mid_z_from_logs : forall n nexp s b, poisson_obs_mid_p L n nexp s = Fin b -> (b = 0 \/ b = 1) ->
  poisson_obs_mid_z L n nexp s = (let* t := log_poisson_obs_mid_p L n nexp s in Ok (if reqb b 0 then z_from_logp L (fst t) false else z_from_logp L (snd t) true)).
Proof.
  intros n nexp s b E [->| ->]; unfold poisson_obs_mid_z; rewrite E, !neqb_fin.
  - rewrite (proj2 (reqb_true 0 0)) by reflexivity. reflexivity.
  - rewrite (proj2 (reqb_true 1 1)) by reflexivity. rewrite (proj2 (reqb_false 1 0)) by lra. reflexivity.
Qed.
Theorem C59_saturated : forall n nexp s b, err_positive s = None -> (b = 0 \/ b = 1) ->
  poisson_obs_p L n nexp s = Fin b -> poisson_obs_p L (S n) nexp s = Fin b -> poisson_obs_mid_z L n nexp s = Ok NaN.
Proof.
  intros n nexp s b Es Hb E0 E1. pose proof (mid_p_fin L n nexp s b b E0 E1) as M. replace ((b + b) / 2) with b in M by field.
  rewrite (mid_z_from_logs n nexp s b M Hb). destruct OK as (_ & _ & (_ & _ & ON & _) & _).
  assert (T : forall k, poisson_obs_p L k nexp s = Fin b -> log_poisson_obs_p L k nexp s = Ok (nlogn (Fin b), nlogn (Fin (1 - b)))).
  { intros k Ek. rewrite log_tail_spec. destruct k as [|k]; [cbn [tail_with poisson_obs_p] in *; injection Ek as <-; reflexivity|].
    cbn [tail_with poisson_obs_p] in *. rewrite Es in *. rewrite Ek. reflexivity. }
  unfold log_poisson_obs_mid_p. rewrite (T n E0), (T (S n) E1). cbn [rbind fst snd].
  destruct Hb as [->| ->].
  - rewrite (proj2 (reqb_true 0 0)) by reflexivity. cbn [nlogn]. rewrite nlog_0, log_mean_both_minf. cbn [z_from_logp]. rewrite ON. reflexivity.
  - rewrite (proj2 (reqb_false 1 0)) by lra. replace (1 - 1) with 0 by ring. cbn [nlogn]. rewrite nlog_0, log_mean_both_minf. cbn [z_from_logp]. rewrite ON. reflexivity.
Qed.

(** the logarithmic route: finite, positive exactly below ln(1/2) *)
Lemma ln2pi : 0 < ln (2 * PI) < 8.
Proof.
  pose proof two_pi. split; [rewrite <- ln_1; apply ln_increasing; lra|]. pose proof (ln_le_sub1 (2 * PI) ltac:(lra)). pose proof PI_4. lra.
Qed.
Lemma fallback_value : forall l, np_exp L l = 0 -> l < -700 /\ z_from_logp L (Fin l) false = Fin (sqrt (- 2 * ln (2 * PI) - 2 * l - ln (- 2 * ln (2 * PI) - 2 * l))) /\
  1000 < - 2 * ln (2 * PI) - 2 * l.
Proof.
  intros l E. destruct OK as (_ & _ & _ & OE). destruct (OE l) as [X|[_ X]]; [pose proof (exp_pos l); lra|]. split; [exact X|].
  pose proof ln2pi. assert (U : 1000 < - 2 * ln (2 * PI) - 2 * l) by lra. split; [|exact U].
  cbn [z_from_logp]. rewrite E, (proj2 (reqb_true 0 0)) by reflexivity. rewrite nlog_pos by lra. pose proof (ln_le_sub1 (- 2 * ln (2 * PI) - 2 * l) ltac:(lra)).
  rewrite (proj2 (rltb_false _ _)) by lra. reflexivity.
Qed.
Theorem C59_from_logp : forall l, l < 0 -> exists z, z_from_logp L (Fin l) false = Fin z /\ (0 < z <-> l < ln (1/2)).
Proof.
  intros l Hl. destruct OK as (_ & _ & _ & OE). destruct (Req_dec (np_exp L l) 0) as [E|E].
  - destruct (fallback_value l E) as (Hl' & -> & U). eexists. split; [reflexivity|]. split; [intros _|intros _].
    + pose proof (ln_le_sub1 2 ltac:(lra)). replace (1/2) with (/ 2) by field. rewrite ln_Rinv by lra. lra.
    + apply sqrt_lt_R0. pose proof (ln_le_sub1 (- 2 * ln (2 * PI) - 2 * l) ltac:(lra)). lra.
  - destruct (OE l) as [X|[X _]]; [|contradiction]. cbn [z_from_logp]. rewrite (proj2 (reqb_false _ _) E), X.
    pose proof (exp_pos l). assert (exp l < 1) by (rewrite <- exp_0; apply exp_increasing; exact Hl).
    destruct (ppf_neg (exp l) ltac:(lra)) as (z & -> & Hz & _). exists z. split; [reflexivity|]. rewrite Hz. split; intros H1.
    + rewrite <- (ln_exp l). apply ln_increasing; assumption.
    + rewrite <- (exp_ln (1/2)) by lra. apply exp_increasing. exact H1.
Qed.

(** cells whose p-value is numerically 0 or 1 although the uncertainty is known: Z comes from the logarithms *)
Theorem C59_extreme : forall n nexp s b lp lq, poisson_obs_mid_p L n nexp s = Fin b -> log_poisson_obs_mid_p L n nexp s = Ok (Fin lp, Fin lq) -> lp < 0 -> lq < 0 ->
  (b = 0 -> exists z, poisson_obs_mid_z L n nexp s = Ok (Fin z) /\ (0 < z <-> lp < ln (1/2))) /\
  (b = 1 -> exists z, poisson_obs_mid_z L n nexp s = Ok (Fin z) /\ (z < 0 <-> lq < ln (1/2))).
Proof.
  intros n nexp s b lp lq E El Hp Hq. split; intros ->; rewrite (mid_z_from_logs n nexp s _ E ltac:(auto)), El; cbn [rbind fst snd].
  - rewrite (proj2 (reqb_true 0 0)) by reflexivity. destruct (C59_from_logp lp Hp) as (z & -> & Hz). exists z. split; [reflexivity|exact Hz].
  - rewrite (proj2 (reqb_false 1 0)) by lra. rewrite C59_flip. destruct (C59_from_logp lq Hq) as (z & -> & Hz). exists (- z). split; [reflexivity|]. rewrite <- Hz. split; lra.
Qed.

(** the same for the p-value without the mid-p correction ([poisson_obs_z]): numerically 0 or 1, Z comes from ln p, respectively from ln (1 - p) with the sign flipped *)
Theorem C59_extreme_plain : forall n nexp s b lp lq, poisson_obs_p L n nexp s = Fin b -> log_poisson_obs_p L n nexp s = Ok (Fin lp, Fin lq) -> lp < 0 -> lq < 0 ->
  (b = 0 -> exists z, poisson_obs_z L n nexp s = Ok (Fin z) /\ z_from_logp L (Fin lp) false = Fin z /\ (0 < z <-> lp < ln (1/2))) /\
  (b = 1 -> exists z, poisson_obs_z L n nexp s = Ok (Fin z) /\ z_from_logp L (Fin lq) false = Fin (- z) /\ (z < 0 <-> lq < ln (1/2))).
Proof.
  intros n nexp s b lp lq E El Hp Hq. split; intros ->; unfold poisson_obs_z; rewrite E, !neqb_fin.
  - rewrite (proj2 (reqb_true 0 0)) by reflexivity. rewrite El; cbn [rbind fst snd]. destruct (C59_from_logp lp Hp) as (z & Z & Hz). exists z. rewrite Z. repeat split; try reflexivity; apply Hz.
  - rewrite (proj2 (reqb_false 1 0)) by lra. rewrite (proj2 (reqb_true 1 1)) by reflexivity. rewrite El; cbn [rbind fst snd]. rewrite C59_flip. destruct (C59_from_logp lq Hq) as (z & Z & Hz). exists (- z). rewrite Z.
    split; [reflexivity|]. split; [f_equal; ring|]. rewrite <- Hz. split; lra.
Qed.

(** ** isolated cells: alone in their row and in their column *)
Theorem C59_isolated_cell : forall m t i j n, get_independent_frequency_estimates L m "poisson" = Ok t -> (i < nr m)%nat -> (j < nc m)%nat ->
  0 < elsewhere m i j -> same_row m i j = 0 -> same_col m i j = 0 ->
  nth j (nth i t []) (NaN, NaN) = (Fin 0, Fin 0) /\ ((1 <= n)%nat -> poisson_obs_mid_z L n (Fin 0) (Fin 0) = Ok NaN).
Proof.
  intros m t i j n H Hi Hj D B C. split.
  - destruct (estimates_nth L m _ t i j H Hi Hj) as (_ & _ & E). rewrite estimate_spec in E by assumption. cbv zeta in E. rewrite (proj2 (rltb_true _ _) D), B, C in E.
    change (get_uncertainty L ?x "poisson") with (@Ok R (get_poisson_uncertainty x)) in E. cbn [rbind] in E. apply Ok_inj in E. rewrite <- E. f_equal.
    + f_equal. field. lra.
    + f_equal. apply (proj2 (err_zero 0 0 (elsewhere m i j) (get_poisson_uncertainty 0) (get_poisson_uncertainty 0) (get_poisson_uncertainty (elsewhere m i j)) ltac:(lra) ltac:(lra) D
        ltac:(pose proof (proj2 (proj2 (C65_poisson_uncertainty 0))); lra) ltac:(pose proof (proj2 (proj2 (C65_poisson_uncertainty 0))); lra) ltac:(pose proof (proj2 (proj2 (C65_poisson_uncertainty (elsewhere m i j)))); lra))).
      split; reflexivity.
  - intros Hn. destruct n as [|k]; [lia|].
    assert (S0 : err_positive (Fin 0) = None) by (cbn; rewrite (proj2 (rltb_false 0 0)) by lra; reflexivity).
    pose proof OK as (_ & (_ & _ & _ & [PZ|PZ]) & (_ & _ & ON & _) & _).
    + apply C59_saturated with (b := 0); [exact S0|auto| |]; cbn [poisson_obs_p]; rewrite S0; apply PZ.
    + unfold poisson_obs_mid_z, poisson_obs_mid_p. cbn [poisson_obs_p]. rewrite S0, !PZ. cbn. rewrite ON. reflexivity.
Qed.

(** * C74 *)
(** z with exp(-z^2/2) / (z sqrt(2 pi)) = p to leading order, as in the chi2 significance *)
Definition tail_inverse (logp : R) : R := let u := - ln (2 * PI) - 2 * logp in sqrt (u - ln u).
Lemma u_ln_u_smono : forall u v, 1 <= u -> u < v -> u - ln u < v - ln v.
Proof.
  intros u v U V. assert (ln v - ln u < v - u); [|lra]. rewrite <- ln_quot by lra. assert (P : 1 < v / u).
  { apply (Rmult_lt_reg_r u); [lra|]. unfold Rdiv. rewrite Rmult_assoc, Rinv_l; lra. }
  assert (S : ln (v / u) < v / u - 1) by (rewrite <- (ln_exp (v / u - 1)); pose proof (exp_ineq1 (v / u - 1) ltac:(lra)); apply ln_increasing; lra).
  assert (v / u - 1 <= v - u). { apply (Rmult_le_reg_r u); [lra|]. unfold Rdiv. rewrite Rmult_minus_distr_r, Rmult_assoc, Rinv_l by lra. nra. } lra.
Qed.
Theorem C74_below_asymptotic_value : forall l, np_exp L l = 0 -> exists z, z_from_logp L (Fin l) false = Fin z /\ 0 < z < tail_inverse l.
Proof.
  intros l E. destruct (fallback_value l E) as (Hl & -> & U). eexists. split; [reflexivity|]. pose proof ln2pi. unfold tail_inverse.
  set (u := - 2 * ln (2 * PI) - 2 * l) in *. set (v := - ln (2 * PI) - 2 * l). cbv zeta. assert (UV : u < v) by (unfold u, v; lra).
  pose proof (u_ln_u_smono u v ltac:(lra) UV). pose proof (ln_le_sub1 u ltac:(lra)). split; [apply sqrt_lt_R0; lra|]. apply sqrt_lt_1_alt. lra.
Qed.
(** the chi2 significance with the same bound on log p does use that value *)
Theorem C74_chi2_fallback : forall chi2 ndof, 0 < chi2 -> 0 < ndof -> 0 < chernoff_exponent chi2 ndof ->
  chernoff chi2 ndof 0 = Ok (Fin (tail_inverse (- (ndof * (chi2 / ndof - 1 - ln (chi2 / ndof))) / 2))).
Proof.
  intros c k Hc Hk He. rewrite chernoff_ok by assumption. cbv zeta. rewrite Rplus_0_r, (proj2 (rltb_true _ _) He). do 2 f_equal. unfold tail_inverse.
  replace (- ln (2 * PI) - 2 * (- (k * (c / k - 1 - ln (c / k))) / 2)) with (chernoff_exponent c k) by (unfold chernoff_exponent; field; lra). reflexivity.
Qed.
(** smaller p, larger Z *)
Theorem C74_monotone : forall l l' z z', np_exp L l = 0 -> np_exp L l' = 0 -> l' < l -> z_from_logp L (Fin l) false = Fin z -> z_from_logp L (Fin l') false = Fin z' -> z < z'.
Proof.
  intros l l' z z' E E' H Hz Hz'. destruct (fallback_value l E) as (_ & F & U). destruct (fallback_value l' E') as (_ & F' & U'). rewrite F in Hz. rewrite F' in Hz'.
  injection Hz as <-. injection Hz' as <-. apply sqrt_lt_1_alt. pose proof (ln_le_sub1 (- 2 * ln (2 * PI) - 2 * l) ltac:(lra)). split; [lra|]. apply u_ln_u_smono; lra.
Qed.
End OK.

(** * exact Poisson uncertainties *)
Definition chi2_ppf_ok (L : olib) : Prop :=
  0 < norm_cdf L (-1) < norm_cdf L 1 /\ norm_cdf L 1 < 1 /\
  (forall p d, 0 < p < 1 -> 0 < d -> 0 < chi2_ppf L p d) /\ (forall p q d d', 0 < p -> p < q -> q < 1 -> 0 < d -> d <= d' -> chi2_ppf L p d < chi2_ppf L q d').
Theorem C65_exact_uncertainty : forall L x, chi2_ppf_ok L -> 0 <= x -> 0 < get_exact_poisson_uncertainty L x.
Proof.
  intros L x ((A1 & A2) & A3 & A4 & A5) Hx. unfold get_exact_poisson_uncertainty. destruct (reqb x 0) eqn:E; cbn [negb].
  - pose proof (A4 (norm_cdf L 1) (2 * (x + 1)) ltac:(lra) ltac:(lra)). lra.
  - apply reqb_false in E. pose proof (A5 (norm_cdf L (-1)) (norm_cdf L 1) (2 * x) (2 * (x + 1)) ltac:(lra) ltac:(lra) ltac:(lra) ltac:(lra) ltac:(lra)). lra.
Qed.

(** * a library that meets the assumptions: the exact Poisson tail *)
Lemma partial_sum_exp : forall n x, 0 <= x -> lsum (fun i => x ^ i / INR (fact i)) (seq 0 (S n)) <= exp x.
Proof.
  intros n x Hx. assert (E : lsum (fun i => x ^ i / INR (fact i)) (seq 0 (S n)) = sum_f_R0 (fun i => / INR (fact i) * x ^ i) n).
  { induction n as [|n IH]; [unfold lsum; simpl; field|]. rewrite seq_S, lsum_app, IH. cbn [sum_f_R0]. rewrite lsum_cons, lsum_nil. simpl plus. unfold Rdiv. ring. }
  rewrite E. apply sum_incr.
  - unfold exp. destruct (exist_exp x) as [l Hl]. exact Hl.
  - intros k. apply Rmult_le_pos; [apply Rlt_le, Rinv_0_lt_compat, INR_fact_lt_0|apply pow_le; exact Hx].
Qed.
Lemma poisson_tail_range : forall k mu, 0 <= mu -> 0 <= poisson_tail k mu <= 1.
Proof.
  intros k mu H. unfold poisson_tail. rewrite (lsum_ext _ _ (fun i => exp (- mu) * (mu ^ i / INR (fact i)))) by (intros; unfold Rdiv; ring). rewrite lsum_scal.
  pose proof (partial_sum_exp k mu H). pose proof (exp_pos (- mu)).
  assert (0 <= lsum (fun i => mu ^ i / INR (fact i)) (seq 0 (S k))).
  { apply lsum_nonneg. intros i _. apply Rmult_le_pos; [apply pow_le; exact H|apply Rlt_le, Rinv_0_lt_compat, INR_fact_lt_0]. }
  assert (E : exp (- mu) * exp mu = 1) by (rewrite <- exp_plus; replace (- mu + mu) with 0 by ring; apply exp_0). split; nra.
Qed.
Lemma poisson_tail_decr : forall k mu, 0 <= mu -> poisson_tail (S k) mu <= poisson_tail k mu.
Proof.
  intros k mu H. unfold poisson_tail. rewrite (seq_S (S k)), lsum_app, lsum_cons, lsum_nil. pose proof (exp_pos (- mu)).
  assert (0 <= exp (- mu) * mu ^ (0 + S k) / INR (fact (0 + S k))); [|lra].
  apply Rmult_le_pos; [apply Rmult_le_pos; [lra|apply pow_le; exact H]|apply Rlt_le, Rinv_0_lt_compat, INR_fact_lt_0].
Qed.
Definition demo_poisson (k : nat) (mu : num) : num := match mu with Fin m => if reqb m 0 then Fin 0 else if rltb m 0 then NaN else Fin (poisson_tail k m) | _ => NaN end.
Definition demo_exp (l : R) : R := if rltb l (-745) then 0 else exp l.
Definition demo_olib : olib := mkOlib (fun a b x => Fin (if rleb x 0 then 0 else if rleb 1 x then 1 else Rpower x a)) (fun _ => 0) demo_poisson demo_ppf (fun _ => 1/2) (fun p d => p * d) demo_exp.
Theorem olib_instance : olib_ok demo_olib.
Proof.
  split; [|split; [|split; [exact demo_ppf_ok|]]]; cbn [betainc poisson_sf np_exp demo_olib].
  - split.
    + intros a b x Ha Hb Hx. eexists. split; [reflexivity|]. destruct (rleb x 0) eqn:E0; [lra|]. apply rleb_false in E0. destruct (rleb 1 x) eqn:E1; [lra|]. apply rleb_false in E1.
      pose proof (exp_pos (a * ln x)). unfold Rpower. split; [lra|]. rewrite <- exp_0. left. apply exp_increasing. assert (ln x < 0) by (rewrite <- ln_1; apply ln_increasing; lra). nra.
    + intros a a' b x p q Ha Haa Hb Hx Ep Eq. injection Ep as <-. injection Eq as <-. destruct (rleb x 0) eqn:E0; [lra|]. apply rleb_false in E0. destruct (rleb 1 x) eqn:E1; [lra|]. apply rleb_false in E1.
      unfold Rpower. assert (ln x < 0) by (rewrite <- ln_1; apply ln_increasing; lra). destruct (Rle_lt_or_eq_dec _ _ Haa) as [H1| ->]; [|lra]. left. apply exp_increasing. nra.
  - split; [|split; [|split]].
    + intros k mu H. cbn. rewrite (proj2 (reqb_false mu 0)), (proj2 (rltb_false mu 0)) by lra. eexists. split; [reflexivity|]. apply poisson_tail_range. lra.
    + intros k k' mu p q H Hk. cbn. rewrite (proj2 (reqb_false mu 0)), (proj2 (rltb_false mu 0)) by lra. intros Ep Eq. injection Ep as <-. injection Eq as <-.
      induction Hk as [|k' Hk IH]; [lra|]. pose proof (poisson_tail_decr k' mu ltac:(lra)). lra.
    + reflexivity.
    + left. intros k. cbn. rewrite (proj2 (reqb_true 0 0)) by reflexivity. reflexivity.
  - intros l. unfold demo_exp. destruct (rltb l (-745)) eqn:E; [right|left; reflexivity]. apply rltb_true in E. split; [reflexivity|lra].
Qed.
(** non-trivial cases of the hypotheses above *)
Example C59_case : exists p, poisson_obs_mid_p demo_olib 1 (Fin 2) (Fin 0) = Fin p /\ 0 < p < 1.
Proof.
  assert (S0 : err_positive (Fin 0) = None) by (cbn; rewrite (proj2 (rltb_false 0 0)) by lra; reflexivity).
  assert (A : forall k, poisson_obs_p demo_olib (S k) (Fin 2) (Fin 0) = Fin (poisson_tail k 2)).
  { intros k. cbn [poisson_obs_p]. rewrite S0. cbn. rewrite (proj2 (reqb_false 2 0)), (proj2 (rltb_false 2 0)) by lra. reflexivity. }
  eexists. split; [apply mid_p_fin; apply A|]. pose proof (poisson_tail_range 1 2 ltac:(lra)).
  assert (T0 : poisson_tail 0 2 = 1 - exp (- (2))) by (unfold poisson_tail, lsum; simpl; field).
  assert (exp (- (2)) < 1) by (rewrite <- exp_0; apply exp_increasing; lra). pose proof (exp_pos (- (2))). lra.
Qed.
Example C74_case : np_exp demo_olib (-800) = 0.
Proof. cbn. unfold demo_exp. rewrite (proj2 (rltb_true _ _)) by lra. reflexivity. Qed.
