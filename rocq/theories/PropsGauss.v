(** C79, C74, C43: Z-values and the normal distribution. *)
From Coq Require Import String ZArith List Bool Reals Lra Lia Psatz.
From Coquelicot Require Import Coquelicot.
From Verif Require Import F64 Base Cells RSum StatsModel StatsProofs Num SpecPhik BetaModel BetaProofs PropsBeta SpecSig SigModel SigProofs SimModel PropsSig OutModel SpecOut OutProofs PropsOut PropsOut2 SpecGauss CdfProofs Gauss.
Import ListNotations.
Open Scope R_scope.
Open Scope list_scope.

(** * the normal distribution exists and is unique *)
Lemma all_interval : interval (fun _ => True). Proof. intros x y z _ _ _. exact I. Qed.
Lemma gPhi_low : forall e, 0 < e -> exists K, forall x, x <= K -> Rabs (gPhi x) <= e.
Proof.
  intros e He. destruct (gphi_vanish e He) as (K & HK & H). exists (- K). intros x Hx.
  pose proof (gPhi_range x) as R. rewrite Rabs_right by lra. pose proof (gPhi_tail_weak (- x) ltac:(lra)) as T. rewrite gPhi_opp in T.
  pose proof (H (- x) ltac:(lra)) as E. lra.
Qed.
(** the constant of the normal law is 1 / sqrt (2 pi) *)
Theorem C79_normal_exists : normal_cdf gPhi /\ forall x, derivable_pt_lim gPhi x (exp (- x ^ 2 / 2) / sqrt (2 * PI)).
Proof.
  assert (D : forall x, derivable_pt_lim gPhi x (exp (- x ^ 2 / 2) / sqrt (2 * PI))) by (intros x; apply is_derive_Reals; apply gPhi_derive).
  split; [|exact D]. split; [|split].
  - exists (/ sqrt (2 * PI)). split; [apply Rinv_0_lt_compat, sqrt_lt_R0; pose proof PI_RGT_0; lra|]. intros x _. rewrite Rmult_comm. apply D.
  - intros e He. destruct (gPhi_low e He) as (K & H). exists K. split; [exact I|]. intros x _. apply H.
  - intros e He. destruct (gPhi_low e He) as (K & H). exists (- K). split; [exact I|]. intros x _ Hx. pose proof (H (- x) ltac:(lra)) as A. rewrite gPhi_opp in A.
    rewrite <- Rabs_Ropp. replace (- (gPhi x - 1)) with (1 - gPhi x) by ring. exact A.
Qed.
Theorem C79_normal_unique : forall F G, normal_cdf F -> normal_cdf G -> forall x, F x = G x.
Proof. intros F G HF HG x. exact (cdf_unique _ _ F G all_interval HF HG x I). Qed.
Lemma normal_is : forall F, normal_cdf F -> forall x, F x = gPhi x.
Proof. intros F H. apply C79_normal_unique; [exact H|apply C79_normal_exists]. Qed.
(** it is a strictly increasing map onto (0,1), symmetric around 0 *)
Theorem C79_normal_facts : forall F, normal_cdf F ->
  (forall x, 0 < F x < 1) /\ (forall x y, x < y -> F x < F y) /\ (forall x, F (- x) = 1 - F x) /\ (forall p, 0 < p < 1 -> exists z, F z = p).
Proof.
  intros F H. pose proof (normal_is F H) as E. split; [|split; [|split]].
  - intros x. rewrite E. apply gPhi_range.
  - intros x y. rewrite !E. apply gPhi_incr.
  - intros x. rewrite !E. apply gPhi_opp.
  - intros p Hp. destruct (gPhi_onto p Hp) as (z & Hz). exists z. rewrite E. exact Hz.
Qed.

(** * quantiles *)
Definition ppf_exact (x : num) : num :=
  match x with Fin p => if rltb p 0 then NaN else if rltb 1 p then NaN else if reqb p 0 then MInf else if reqb p 1 then PInf else Fin (gquantile p) | _ => NaN end.
Lemma ppf_exact_in : forall p, 0 < p < 1 -> ppf_exact (Fin p) = Fin (gquantile p).
Proof. intros p H. unfold ppf_exact. rewrite (proj2 (rltb_false p 0)), (proj2 (rltb_false 1 p)), (proj2 (reqb_false p 0)), (proj2 (reqb_false p 1)) by lra. reflexivity. Qed.
Lemma ppf_exact_0 : ppf_exact (Fin 0) = MInf.
Proof. unfold ppf_exact. rewrite (proj2 (rltb_false 0 0)), (proj2 (rltb_false 1 0)), (proj2 (reqb_true 0 0)) by lra. reflexivity. Qed.
Lemma ppf_exact_1 : ppf_exact (Fin 1) = PInf.
Proof. unfold ppf_exact. rewrite (proj2 (rltb_false 1 0)), (proj2 (rltb_false 1 1)), (proj2 (reqb_false 1 0)), (proj2 (reqb_true 1 1)) by lra. reflexivity. Qed.
Lemma ppf_exact_ok : forall F, normal_cdf F -> normal_quantile F ppf_exact.
Proof.
  intros F HF. split.
  - unfold norm_ppf_ok. rewrite ppf_exact_0, ppf_exact_1. split; [reflexivity|]. split; [reflexivity|]. split; [reflexivity|]. split; [rewrite ppf_exact_in by lra; rewrite gquantile_half; reflexivity|].
    split; [|split].
    + intros p [H|H]; unfold ppf_exact; [rewrite (proj2 (rltb_true p 0)) by lra; reflexivity|]. rewrite (proj2 (rltb_false p 0)), (proj2 (rltb_true 1 p)) by lra. reflexivity.
    + intros p H. eexists. apply ppf_exact_in, H.
    + intros p q Hp Hpq Hq. destruct Hp as [Hp|<-], Hq as [Hq| ->]; rewrite ?ppf_exact_0, ?ppf_exact_1, ?ppf_exact_in by lra; try reflexivity.
      cbn. destruct (Rlt_dec (gquantile p) (gquantile q)) as [|X]; [reflexivity|]. exfalso. apply X, gquantile_incr; assumption.
  - intros p H. exists (gquantile p). split; [apply ppf_exact_in, H|]. rewrite (normal_is F HF). apply gquantile_spec, H.
Qed.
Theorem C79_quantile_exists : exists ppf, forall F, normal_cdf F -> normal_quantile F ppf.
Proof. exists ppf_exact. exact ppf_exact_ok. Qed.

Section F.
Variable F : R -> R.
Hypothesis HF : normal_cdf F.

Lemma neg_quantile : forall ppf p, normal_quantile F ppf -> 0 < p < 1 -> exists z, nneg (ppf (Fin p)) = Fin z /\ 1 - F z = p.
Proof.
  intros ppf p [_ Q] H. destruct (Q p H) as (z & -> & E). exists (- z). split; [reflexivity|]. destruct (C79_normal_facts F HF) as (_ & _ & S & _). rewrite S, E. ring.
Qed.

(** the Z-value of every p-value strictly between 0 and 1 is the number of one-sided Gaussian standard deviations *)
Theorem C79_hist2d : forall SL St multinomial randint libm_exp libm_log uninit ib0 fuel cpp clamp m nsim l simm sigm w s p z s',
  slib_ok SL -> normal_quantile F (norm_ppf SL) -> proper_shape m ->
  significance_from_hist2d SL St multinomial randint libm_exp libm_log uninit ib0 fuel cpp clamp m nsim l simm sigm w s = (Ok (Fin p, z), s') -> 0 < p < 1 ->
  exists x, z = Fin x /\ 1 - F x = p.
Proof.
  intros SL St mu ri le ll un ib fu cp cl m nsim l simm sigm w s p z s' OK Q PS H Hp.
  destruct (C40_hist2d SL St mu ri le ll un ib fu cp cl m nsim l simm sigm w s (Fin p) z s' OK PS H) as (_ & G & _).
  destruct G as [->|[E _]]; [|injection E as E; lra]. destruct (neg_quantile (norm_ppf SL) p Q Hp) as (x & -> & E). exists x. split; [reflexivity|exact E].
Qed.
Theorem C79_mid_z : forall L n nexp s p, normal_quantile F (o_ppf L) -> poisson_obs_mid_p L n nexp s = Fin p -> 0 < p < 1 ->
  exists z, poisson_obs_mid_z L n nexp s = Ok (Fin z) /\ 1 - F z = p.
Proof.
  intros L n nexp s p Q E Hp. unfold poisson_obs_mid_z. rewrite E, !neqb_fin, (proj2 (reqb_false p 0)), (proj2 (reqb_false p 1)) by lra.
  destruct (neg_quantile (o_ppf L) p Q Hp) as (z & -> & Hz). exists z. split; [reflexivity|exact Hz].
Qed.
Theorem C79_obs_z : forall L n nexp s p, normal_quantile F (o_ppf L) -> poisson_obs_p L n nexp s = Fin p -> 0 < p < 1 ->
  exists z, poisson_obs_z L n nexp s = Ok (Fin z) /\ 1 - F z = p.
Proof.
  intros L n nexp s p Q E Hp. unfold poisson_obs_z. rewrite E, !neqb_fin, (proj2 (reqb_false p 0)), (proj2 (reqb_false p 1)) by lra.
  destruct (neg_quantile (o_ppf L) p Q Hp) as (z & -> & Hz). exists z. split; [reflexivity|exact Hz].
Qed.
(** z_from_logp: log p given, and log (1 - p) with flip_sign *)
Theorem C79_from_logp : forall L l, normal_quantile F (o_ppf L) -> np_exp_ok (np_exp L) -> np_exp L l <> 0 -> l < 0 ->
  (exists z, z_from_logp L (Fin l) false = Fin z /\ 1 - F z = exp l) /\ (exists z, z_from_logp L (Fin l) true = Fin z /\ F z = exp l).
Proof.
  intros L l Q E NZ Hl. assert (X : np_exp L l = exp l) by (destruct (E l) as [X|[X _]]; [exact X|contradiction]).
  assert (P : 0 < exp l < 1) by (split; [apply exp_pos|rewrite <- exp_0; apply exp_increasing; exact Hl]).
  destruct (neg_quantile (o_ppf L) (exp l) Q P) as (z & Ez & Hz).
  assert (R : z_from_logp L (Fin l) false = Fin z). { unfold z_from_logp. rewrite X, (proj2 (reqb_false (exp l) 0)) by lra. exact Ez. }
  split; [exists z; split; [exact R|exact Hz]|]. exists (- z). rewrite C59_flip, R. split; [reflexivity|].
  destruct (C79_normal_facts F HF) as (_ & _ & S & _). rewrite S. exact Hz.
Qed.

(** * the far tail *)
Lemma ln2pi_bounds : 1 < ln (2 * PI) < 7.
Proof.
  pose proof PI2_3_2. pose proof PI_4. split.
  - rewrite <- (ln_exp 1). apply ln_increasing; [apply exp_pos|]. pose proof exp_le_3. lra.
  - pose proof (ln_le_sub1 (PI / 2) ltac:(lra)). replace (2 * PI) with (2 * 2 * (PI / 2)) by field. rewrite !ln_mult by lra. pose proof (ln_le_sub1 2 ltac:(lra)). lra.
Qed.
(** Mills' bounds as bounds on -2 ln p - ln 2 pi *)
Lemma mills_log : forall z l, 0 < z -> 1 - F z = exp l -> z ^ 2 + ln (z ^ 2) < - ln (2 * PI) - 2 * l < z ^ 2 + ln (z ^ 2) + 2 / z ^ 2.
Proof.
  intros z l Hz E. rewrite (normal_is F HF) in E. pose proof (mills_upper z Hz) as U. pose proof (mills_lower z Hz) as D. rewrite E in U, D.
  assert (P : 0 < 2 * PI) by (pose proof PI_RGT_0; lra). assert (SP : 0 < sqrt (2 * PI)) by (apply sqrt_lt_R0; exact P).
  assert (LP : ln (gphi z) = - z ^ 2 / 2 - ln (2 * PI) / 2).
  { unfold gphi. unfold Rdiv at 1. rewrite ln_mult; [|apply exp_pos|apply Rinv_0_lt_compat; exact SP]. rewrite ln_exp, ln_Rinv by exact SP.
    assert (2 * ln (sqrt (2 * PI)) = ln (2 * PI)); [|lra]. rewrite <- (sqrt_sqrt (2 * PI)) at 2 by lra. rewrite ln_mult by exact SP. ring. }
  assert (Z2 : ln (z ^ 2) = 2 * ln z). { simpl. rewrite Rmult_1_r, ln_mult by exact Hz. ring. }
  pose proof (gphi_pos z) as G. assert (V : 0 < z ^ 2) by nra. split.
  - apply ln_increasing in U; [|apply exp_pos]. rewrite ln_exp in U. unfold Rdiv in U. rewrite ln_mult, ln_Rinv in U; [lra|exact Hz|exact G|apply Rinv_0_lt_compat; exact Hz].
  - assert (Q : 0 < 1 + z ^ 2) by lra. apply ln_increasing in D; [|apply Rdiv_lt_0_compat; [apply Rmult_lt_0_compat; assumption|exact Q]]. rewrite ln_exp in D.
    unfold Rdiv in D. rewrite ln_mult, ln_Rinv, ln_mult in D; [|exact G|exact Hz|exact Q|apply Rmult_lt_0_compat; assumption|apply Rinv_0_lt_compat; exact Q].
    assert (B : ln (1 + z ^ 2) < ln (z ^ 2) + 1 / z ^ 2).
    { replace (1 + z ^ 2) with (z ^ 2 * (1 + 1 / z ^ 2)) by (field; lra). assert (I : 0 < 1 / z ^ 2) by (apply Rdiv_lt_0_compat; lra). rewrite ln_mult by lra.
      assert (ln (1 + 1 / z ^ 2) < 1 / z ^ 2); [|lra]. rewrite <- (ln_exp (1 / z ^ 2)) at 2. apply ln_increasing; [lra|]. apply exp_ineq1. lra. }
    replace (2 / z ^ 2) with (2 * (1 / z ^ 2)) by (field; lra). lra.
Qed.

(** the asymptotic inverse used by the chi2 significance, against the true Z-value *)
Theorem C43_asymptotic_inverse : forall z l, 2 <= z -> 1 - F z = exp l ->
  z ^ 2 - ln (z ^ 2) / z ^ 2 <= tail_inverse l ^ 2 < z ^ 2 + 2 / z ^ 2.
Proof.
  intros z l Hz E. destruct (mills_log z l ltac:(lra) E) as [A B]. unfold tail_inverse. cbv zeta. set (u := - ln (2 * PI) - 2 * l) in *.
  set (v := z ^ 2) in *. assert (V : 4 <= v) by (unfold v; nra). assert (I : 0 < 2 / v) by (apply Rdiv_lt_0_compat; lra).
  assert (LV : 1 < ln v). { rewrite <- (ln_exp 1). apply ln_increasing; [apply exp_pos|]. pose proof exp_le_3. lra. }
  clearbody u v. clear E Hz z. rewrite <- Rsqr_pow2, Rsqr_sqrt; [|pose proof (ln_le_sub1 u ltac:(lra)); lra]. split.
  - pose proof (u_ln_u_smono (v + ln v) u ltac:(lra) A) as M. assert (ln (v + ln v) <= ln v + ln v / v); [|lra].
    replace (v + ln v) with (v * (1 + ln v / v)) by (field; lra). assert (0 < ln v / v) by (apply Rdiv_lt_0_compat; lra). rewrite ln_mult by lra.
    pose proof (ln_le_sub1 (1 + ln v / v) ltac:(lra)). lra.
  - pose proof (u_ln_u_smono u (v + ln v + 2 / v) ltac:(lra) B) as M. assert (ln v < ln (v + ln v + 2 / v)); [|lra]. apply ln_increasing; lra.
Qed.

(** ** Chernoff's bound on the chi2 tail *)
Theorem C43_chernoff_bound : forall k c G, chi2_cdf k G -> 0 < k -> k <= c -> 1 - G c <= exp (- (k * (c / k - 1 - ln (c / k))) / 2).
Proof.
  clear F HF. intros k c G HGG Hk Hc.
  assert (R : forall x, 0 < x -> 0 <= G x <= 1) by (apply (cdf_range _ (fun x => Rpower x (k / 2 - 1) * exp (- x / 2)) G interval0); [intros x Hx; apply Rmult_lt_0_compat; apply exp_pos|exact HGG]).
  destruct HGG as ((C & HC & HG) & _ & Lim).
  set (a := k / c). assert (Ha : 0 < a) by (apply Rdiv_lt_0_compat; lra). set (t := (1 - a) / 2).
  assert (Ha1 : a <= 1). { unfold a. apply (Rmult_le_reg_r c); [lra|]. unfold Rdiv. rewrite Rmult_assoc, Rinv_l by lra. lra. }
  assert (Ht : 0 <= t) by (unfold t; lra).
  set (A := Rpower a (- (k / 2))). assert (HA : 0 < A) by apply exp_pos.
  set (D := fun x => A * (1 - G (a * x)) * exp (- t * x) - (1 - G x)).
  set (f := fun x => C * (Rpower x (k / 2 - 1) * exp (- x / 2))).
  assert (Hf : forall x, 0 < x -> A * (a * f (a * x)) * exp (- t * x) = f x).
  { intros x Hx. unfold f. rewrite <- Rpower_mult_distr by assumption.
    assert (E1 : A * a * Rpower a (k / 2 - 1) = 1). { unfold A. rewrite <- (Rpower_1 a Ha) at 2. rewrite <- !Rpower_plus. replace (- (k / 2) + 1 + (k / 2 - 1)) with 0 by field. apply Rpower_O, Ha. }
    assert (E2 : exp (- (a * x) / 2) * exp (- t * x) = exp (- x / 2)). { rewrite <- exp_plus. f_equal. unfold t. field. }
    rewrite <- E2. transitivity (A * a * Rpower a (k / 2 - 1) * (C * Rpower x (k / 2 - 1) * (exp (- (a * x) / 2) * exp (- t * x)))); [ring|]. rewrite E1. ring. }
  assert (Hd : forall x, 0 < x -> is_derive D x (- t * (A * (1 - G (a * x)) * exp (- t * x)))).
  { intros x Hx. assert (G1 : is_derive G x (f x)) by (apply is_derive_Reals, HG, Hx). assert (Hax : 0 < a * x) by (apply Rmult_lt_0_compat; assumption).
    assert (G2 : is_derive G (a * x) (f (a * x))) by (apply is_derive_Reals, HG, Hax).
    unfold D. evar_last.
    - apply (is_derive_minus (fun x => A * (1 - G (a * x)) * exp (- t * x)) (fun x => 1 - G x) x).
      + apply (is_derive_mult (fun x => A * (1 - G (a * x))) (fun x => exp (- t * x)) x); [|auto_derive; [exact I|reflexivity]|intros; apply Rmult_comm].
        apply (is_derive_scal (fun x => 1 - G (a * x)) x A). apply (is_derive_minus (fun _ => 1) (fun x => G (a * x)) x); [apply is_derive_const|].
        apply (is_derive_comp G (fun x => a * x) x); [exact G2|]. auto_derive; [exact I|reflexivity].
      + apply (is_derive_minus (fun _ => 1) G x); [apply is_derive_const|exact G1].
    - unfold minus, plus, opp, zero, one, mult, scal; simpl. unfold mult; simpl. rewrite <- (Hf x Hx). ring. }
  assert (HD : 0 <= D c).
  { apply Rnot_lt_le. intros Neg. destruct (Lim (- D c / 2) ltac:(lra)) as (K & HK & HL0).
    assert (HL : forall x, K <= x -> 1 - (- D c / 2) <= G x). { intros x Hx. pose proof (HL0 x ltac:(lra) Hx) as HAb. apply Rabs_le_between in HAb. lra. } set (y := Rmax K (c + 1)).
    assert (Y : c < y) by (unfold y; pose proof (Rmax_r K (c + 1)); lra). assert (Y0 : 0 < y) by lra.
    destruct (MVT_cor2 D (fun x => - t * (A * (1 - G (a * x)) * exp (- t * x))) c y Y) as (x & E & Hx).
    - intros x Hx. apply is_derive_Reals, Hd. lra.
    - assert (P1 : 0 <= A * (1 - G (a * x)) * exp (- t * x)).
      { apply Rmult_le_pos; [apply Rmult_le_pos; [lra|]|apply Rlt_le, exp_pos]. pose proof (R (a * x) ltac:(apply Rmult_lt_0_compat; lra)). lra. }
      assert (P2 : D y <= D c). { assert (YC : 0 <= y - c) by lra. pose proof (Rmult_le_pos _ _ (Rmult_le_pos _ _ Ht P1) YC). lra. }
      assert (P3 : 0 <= A * (1 - G (a * y)) * exp (- t * y)).
      { apply Rmult_le_pos; [apply Rmult_le_pos; [lra|]|apply Rlt_le, exp_pos]. pose proof (R (a * y) ltac:(apply Rmult_lt_0_compat; lra)). lra. }
      pose proof (HL y (Rmax_l _ _)) as HLy. unfold D at 1 in P2. lra. }
  unfold D in HD. assert (B : A * (1 - G (a * c)) * exp (- t * c) <= A * exp (- t * c)).
  { pose proof (R (a * c) ltac:(apply Rmult_lt_0_compat; lra)). pose proof (exp_pos (- t * c)). assert (A * (1 - G (a * c)) <= A) by nra. nra. }
  assert (E : A * exp (- t * c) = exp (- (k * (c / k - 1 - ln (c / k))) / 2)); [|lra].
  unfold A, Rpower. rewrite <- exp_plus. f_equal. assert (LA : ln a = - ln (c / k)). { rewrite <- ln_Rinv by (apply Rdiv_lt_0_compat; lra). f_equal. unfold a. field. lra. }
  rewrite LA. unfold t, a. field. lra.
Qed.
(** the fallback Z-value of the chi2 significance exceeds the true one by less than 1/Z^3 *)
Theorem C43_conservative : forall SL k c G z Z, chi2_cdf k G -> 0 < k -> k <= c -> slib_ok SL -> 1 <= chernoff_exponent c k ->
  significance_from_chi2_ndof SL c k = Ok (Fin 0, Fin z) -> 3 <= z -> 1 - F Z = 1 - G c -> z < Z + 1 / Z ^ 3.
Proof.
  intros SL k c G z Z HG Hk Hc OK CE1 H Hz EZ. unfold significance_from_chi2_ndof in H. destruct (neqb (chi2_sf SL c k) (Fin 0)) eqn:E.
  2:{ destruct OK as (_ & _ & (P0 & _) & _). injection H as H1 H2. rewrite H1, P0 in H2. discriminate. }
  destruct (chernoff c k 0) as [zz|] eqn:EC; [|discriminate]. cbn [rbind] in H. injection H as H1 ->.
  assert (CE : 0 < chernoff_exponent c k). { rewrite chernoff_ok in EC by lra. cbv zeta in EC. rewrite Rplus_0_r in EC. destruct (rltb 0 (chernoff_exponent c k)) eqn:X; [apply rltb_true, X|discriminate]. }
  rewrite C74_chi2_fallback in EC by lra. set (l := - (k * (c / k - 1 - ln (c / k))) / 2) in *. assert (T : tail_inverse l = z) by congruence. clear EC.
  pose proof (C43_chernoff_bound k c G HG Hk Hc) as B. fold l in B. destruct (C79_normal_facts F HF) as (Rg & Inc & _ & Onto).
  pose proof (Rg Z) as RZ. assert (L0 : exp l < 1).
  { rewrite <- exp_0. apply exp_increasing. unfold chernoff_exponent in CE. pose proof ln2pi_bounds. unfold l. lra. }
  pose proof (exp_pos l). destruct (Onto (1 - exp l) ltac:(lra)) as (Y & HY). assert (EY : 1 - F Y = exp l) by lra.
  assert (YZ : Y <= Z). { apply Rnot_lt_le. intros X. apply Inc in X. lra. }
  assert (Y2 : 2 <= Y).
  { apply Rnot_lt_le. intros X. pose proof (Inc Y 2 X) as I2. pose proof (mills_log 2 (ln (1 - F 2)) ltac:(lra)) as M. pose proof (Rg 2) as R2. rewrite exp_ln in M by lra.
    destruct (M eq_refl) as [_ M2]. assert (Q : ln (1 - F 2) < l). { rewrite <- (ln_exp l). apply ln_increasing; lra. }
    unfold tail_inverse in T. cbv zeta in T. set (u := - ln (2 * PI) - 2 * l) in *. assert (L4 : ln (2 ^ 2) <= 2). { replace (2 ^ 2) with (2 * 2) by ring. rewrite ln_mult by lra. pose proof (ln_le_sub1 2 ltac:(lra)). lra. }
    assert (U : u < 13 / 2) by (unfold u; lra). assert (U0 : 0 < u). { unfold u, l. unfold chernoff_exponent in CE. lra. } assert (W : 9 <= u - ln u).
    { apply Rnot_lt_le. intros X9. assert (sqrt (u - ln u) < 3). { replace 3 with (sqrt 9); [|replace 9 with (3 * 3) by ring; apply sqrt_square; lra]. apply sqrt_lt_1_alt. pose proof (ln_le_sub1 u U0). lra. } lra. }
    assert (V : 1 <= u) by (unfold u, l; unfold chernoff_exponent in CE1; lra).
    assert (0 <= ln u) by (rewrite <- ln_1; destruct V as [V| <-]; [left; apply ln_increasing; lra|lra]). lra. }
  destruct (C43_asymptotic_inverse Y l Y2 EY) as [_ Up]. rewrite T in Up. set (x := Y ^ 2) in *. set (y := Z ^ 2).
  assert (X4 : 4 <= x) by (unfold x; nra). assert (XY : x <= y) by (unfold x, y; apply pow_incr; lra).
  assert (Mono : x + 2 / x <= y + 2 / y).
  { assert (IX : 2 / x - 2 / y = 2 * (y - x) / (x * y)) by (field; lra). assert (2 * (y - x) / (x * y) <= y - x); [|lra].
    apply (Rmult_le_reg_r (x * y)); [nra|]. unfold Rdiv. rewrite Rmult_assoc, Rinv_l by nra. assert (2 <= x * y) by nra. nra. }
  assert (Zp : 2 <= Z) by lra. assert (I3 : 0 < 1 / Z ^ 3) by (apply Rdiv_lt_0_compat; [lra|apply pow_lt; lra]).
  apply Rnot_le_lt. intros Hle. assert (S : (Z + 1 / Z ^ 3) ^ 2 <= z ^ 2) by (apply pow_incr; lra).
  assert (S2 : (Z + 1 / Z ^ 3) ^ 2 = y + 2 / y + (1 / Z ^ 3) ^ 2) by (unfold y; field; lra). nra.
Qed.

(** z_from_logp: the square is too small by ln(2 pi), up to terms that vanish in the tail *)
Theorem C74_below_true_value : forall L l z Z, np_exp_ok (np_exp L) -> np_exp L l = 0 -> z_from_logp L (Fin l) false = Fin z -> 1 - F Z = exp l ->
  z < Z /\ Z ^ 2 - z ^ 2 > ln (2 * PI) - 2 / Z ^ 2 /\ Z ^ 2 - z ^ 2 <= ln (2 * PI) + ln (Z ^ 2) / Z ^ 2.
Proof.
  intros L l z Z OK E Ez EZ. destruct (OK l) as [X|[_ Hl]]; [pose proof (exp_pos l); lra|]. pose proof ln2pi_bounds as C.
  assert (HZ : 2 <= Z).
  { apply Rnot_lt_le. intros H. destruct (C79_normal_facts F HF) as (_ & I & _). pose proof (I Z 2 H) as I2. pose proof (mills_log 2 (ln (1 - F 2)) ltac:(lra)) as M.
    destruct (C79_normal_facts F HF) as (Rg & _). pose proof (Rg 2) as R2. rewrite exp_ln in M by lra. destruct (M eq_refl) as [_ M2].
    assert (ln (1 - F 2) < l). { rewrite <- (ln_exp l). apply ln_increasing; lra. } pose proof (ln_le_sub1 (2 ^ 2) ltac:(lra)). lra. }
  destruct (mills_log Z l ltac:(lra) EZ) as [A B].
  unfold z_from_logp in Ez. rewrite E, (proj2 (reqb_true 0 0)) in Ez by reflexivity. set (w := - 2 * ln (2 * PI) - 2 * l) in *.
  assert (W : 1000 < w) by (unfold w; lra). rewrite nlog_pos in Ez by lra.
  pose proof (ln_le_sub1 w ltac:(lra)) as LW. rewrite (proj2 (rltb_false _ _)) in Ez by lra. injection Ez as <-.
  set (v := Z ^ 2) in *. assert (V0 : 4 <= v) by (unfold v; nra). assert (I : 0 < 2 / v) by (apply Rdiv_lt_0_compat; lra).
  assert (I' : 2 / v <= 1 / 2). { apply (Rmult_le_reg_r v); [lra|]. unfold Rdiv. rewrite Rmult_assoc, Rinv_l by lra. lra. }
  pose proof (ln_le_sub1 v ltac:(lra)) as LV. assert (V : 400 < v) by (unfold w in W; lra). assert (LC : ln (2 * PI) < ln v) by (apply ln_increasing; pose proof PI_4; pose proof PI_RGT_0; lra).
  assert (S2 : sqrt (w - ln w) ^ 2 = w - ln w) by (rewrite <- Rsqr_pow2, Rsqr_sqrt; lra). rewrite S2.
  assert (Lo : v - (w - ln w) > ln (2 * PI) - 2 / v).
  { pose proof (u_ln_u_smono w (v + ln v + 2 / v - ln (2 * PI)) ltac:(lra) ltac:(unfold w; lra)) as M. assert (ln v < ln (v + ln v + 2 / v - ln (2 * PI))); [|lra]. apply ln_increasing; lra. }
  split; [|split; [exact Lo|]].
  - apply Rnot_le_lt. intros H. assert (v <= w - ln w); [|lra]. rewrite <- S2. unfold v. apply pow_incr. lra.
  - pose proof (u_ln_u_smono (v + ln v - ln (2 * PI)) w ltac:(lra) ltac:(unfold w; lra)) as M.
    assert (ln (v + ln v - ln (2 * PI)) <= ln v + ln v / v); [|lra].
    apply Rle_trans with (ln (v + ln v)); [left; apply ln_increasing; lra|].
    replace (v + ln v) with (v * (1 + ln v / v)) by (field; lra). assert (0 < ln v / v) by (apply Rdiv_lt_0_compat; lra). rewrite ln_mult by lra.
    pose proof (ln_le_sub1 (1 + ln v / v) ltac:(lra)). lra.
Qed.
End F.

(** * the hypotheses are met: a library with exact quantiles; two degrees of freedom *)
Definition exact_olib : olib := mkOlib (betainc demo_olib) (gammaln demo_olib) (poisson_sf demo_olib) ppf_exact gPhi (chi2_ppf demo_olib) (np_exp demo_olib).
Definition exact_slib : slib := mkSlib (chi2_sf demo) (norm_sf demo) ppf_exact (chi2_pdf demo) (norm_pdf demo) (least_squares demo) (rank_of_empty demo).
Theorem C79_libraries : olib_ok exact_olib /\ slib_ok exact_slib /\ forall F, normal_cdf F -> normal_quantile F (o_ppf exact_olib) /\ normal_quantile F (norm_ppf exact_slib).
Proof.
  destruct olib_instance as (A & B & _ & C). destruct slib_instance as [(A' & B' & _ & C') _]. pose proof (ppf_exact_ok gPhi (proj1 C79_normal_exists)) as [Q _].
  split; [|split].
  - split; [exact A|]. split; [exact B|]. split; [exact Q|exact C].
  - split; [exact A'|]. split; [exact B'|]. split; [exact Q|exact C'].
  - intros F HF. split; apply ppf_exact_ok, HF.
Qed.
Example C43_chi2_two : chi2_cdf 2 (fun t => 1 - exp (- t / 2)).
Proof.
  pose proof (po_tail_cdf 0) as H. assert (E : forall x, po_tail 1 x = 1 - exp (- x / 2)).
  { intros x. unfold po_tail, poisson_prob. cbn [seq]. rewrite lsum_cons, lsum_nil. simpl. replace (- (x / 2)) with (- x / 2) by field. field. }
  replace 2 with (2 * INR 1) at 1 by (simpl; ring). destruct H as ((C & HC & H1) & H2 & H3). split; [|split].
  - exists C. split; [exact HC|]. intros x Hx. apply is_derive_Reals. apply (is_derive_ext (po_tail 1)); [exact E|]. apply is_derive_Reals, H1, Hx.
  - intros e He. destruct (H2 e He) as (x0 & D0 & HH). exists x0. split; [exact D0|]. intros x Hx Hle. rewrite <- E. apply HH; assumption.
  - intros e He. destruct (H3 e He) as (x0 & D0 & HH). exists x0. split; [exact D0|]. intros x Hx Hle. rewrite <- E. apply HH; assumption.
Qed.
(** both tails of the far-tail theorem are reached *)
Example C74_true_value_case : exists z Z, np_exp exact_olib (-800) = 0 /\ z_from_logp exact_olib (Fin (-800)) false = Fin z /\ 1 - gPhi Z = exp (-800) /\ z < Z.
Proof.
  destruct C79_libraries as (OK & _). destruct (fallback_value exact_olib OK (-800) C74_case) as (_ & E & _).
  assert (P : exp (-800) < 1) by (rewrite <- exp_0; apply exp_increasing; lra). pose proof (exp_pos (-800)).
  destruct (gPhi_onto (1 - exp (-800)) ltac:(lra)) as (Z & HZ). eexists. exists Z. split; [exact C74_case|]. split; [exact E|]. split; [lra|].
  destruct OK as (_ & _ & _ & OE). apply (C74_below_true_value gPhi (proj1 C79_normal_exists) exact_olib (-800) _ Z OE C74_case E). lra.
Qed.
Print Assumptions C79_hist2d. Print Assumptions C74_below_true_value. Print Assumptions C43_conservative.
