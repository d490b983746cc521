(** Properties C40-C45: p-values, significances, the significance matrix. *)
From Coq Require Import String ZArith List Bool Reals Lra Lia Sorting.Permutation.
From Flocq Require Import Core.
Import ListNotations.
From Verif Require Import F64 Base Cells BinModel HistModel SpecHist HistProofs RSum StatsModel SpecStats StatsProofs PropsStats BivModel Num PhikModel SpecPhik OverviewProofs PairMatProofs PhikMatProofs PhikInvProofs PropsPhik ArrayModel BinDataProofs
  SpecRcont RcontModel SimModel SpecSim SimProofs PropsSim SigModel SpecSig SigProofs.
Open Scope list_scope.
Open Scope R_scope.

Section Props.
  Variable SL : slib.
  Hypothesis OK : slib_ok SL.

  (** ** given simulated values *)
  Lemma ppf_sign : forall p, 0 < p <= 1 -> (nlt (Fin 0) (nneg (norm_ppf SL (Fin p))) = true <-> p < 1/2).
  Proof.
    intros p HP. destruct OK as (_ & _ & (P0 & P1 & PN & PH & PO & PF & PM) & _). split.
    - intros H. destruct (Rtotal_order p (1/2)) as [L|[L|L]]; [exact L|exfalso|exfalso].
      + subst p. rewrite PH in H. cbn in H. destruct (Rlt_dec 0 (-0)); [lra|discriminate].
      + pose proof (PM (1/2) p ltac:(lra) L ltac:(lra)) as M. rewrite PH in M. destruct (norm_ppf SL (Fin p)) as [|z| |]; cbn in *; try discriminate. destruct (Rlt_dec 0 z); [|discriminate]. destruct (Rlt_dec 0 (-z)); [lra|discriminate].
    - intros L. pose proof (PM p (1/2) ltac:(lra) L ltac:(lra)) as M. rewrite PH in M. destruct (norm_ppf SL (Fin p)) as [|z| |]; cbn in *; try discriminate; try reflexivity. destruct (Rlt_dec z 0); [|discriminate]. destruct (Rlt_dec 0 (-z)); [reflexivity|lra].
  Qed.
  Lemma ppf_sign0 : nlt (Fin 0) (nneg (norm_ppf SL (Fin 0))) = true.
  Proof. destruct OK as (_ & _ & (-> & _) & _). reflexivity. Qed.

  (** the Z-value returned with a p-value: the normal quantile, except for the fallback at p = 0 *)
  Definition z_goes_with (p z : num) : Prop := z = nneg (norm_ppf SL p) \/ (p = Fin 0 /\ exists x, z = Fin x /\ 1 <= x).
  Lemma goes_with_sign : forall p z, z_goes_with (Fin p) z -> 0 <= p <= 1 -> (nlt (Fin 0) z = true <-> p < 1/2).
  Proof.
    intros p z [->|(E & x & -> & X)] HP.
    - destruct (Req_dec p 0) as [->|N]; [split; [lra|intros _; apply ppf_sign0]|]. apply ppf_sign. lra.
    - injection E as ->. cbn. destruct (Rlt_dec 0 x); split; intros; try lra; reflexivity.
  Qed.
  Lemma sqrt_ge1 : forall u, 0 < u -> 1 <= sqrt (u - ln u).
  Proof. intros u U. rewrite <- sqrt_1 at 1. apply sqrt_le_1_alt. pose proof (ln_le_sub1 u U). lra. Qed.

  (** C43: the fallback when the p-value underflows *)
  Theorem C43_fallback : forall chi2 ndof, 0 < ndof -> chi2_sf SL chi2 ndof = Fin 0 ->
    (0 < chernoff_exponent chi2 ndof -> exists z, significance_from_chi2_ndof SL chi2 ndof = Ok (Fin 0, Fin z) /\ z = sqrt (chernoff_exponent chi2 ndof - ln (chernoff_exponent chi2 ndof)) /\ 1 <= z) /\
    (chernoff_exponent chi2 ndof <= 0 -> significance_from_chi2_ndof SL chi2 ndof = Raise ValueError).
  Proof.
    intros c k K E. assert (C : 0 < c). { destruct (Rlt_dec 0 c) as [H|H]; [exact H|]. destruct OK as ((_ & _ & N & _) & _). rewrite N in E by lra. injection E as E. lra. }
    unfold significance_from_chi2_ndof. rewrite E, (proj2 (neqb_zero (Fin 0)) eq_refl), chernoff_ok by assumption. rewrite Rplus_0_r. split; intros U.
    - rewrite (proj2 (rltb_true _ _) U). cbn [rbind]. eexists. split; [reflexivity|]. split; [reflexivity|]. apply sqrt_ge1, U.
    - rewrite (proj2 (rltb_false _ _)) by lra. reflexivity.
  Qed.
  Theorem C43_monotone : forall chi2 chi2' ndof p z p' z', 0 < ndof -> ndof <= chi2 -> chi2 <= chi2' ->
    chi2_sf SL chi2 ndof = Fin 0 -> chi2_sf SL chi2' ndof = Fin 0 -> 1 <= chernoff_exponent chi2 ndof ->
    significance_from_chi2_ndof SL chi2 ndof = Ok (p, Fin z) -> significance_from_chi2_ndof SL chi2' ndof = Ok (p', Fin z') -> z <= z'.
  Proof.
    intros c c' k p z p' z' K KC CC E E' U H H'. pose proof (exponent_mono k c c' K KC CC) as M. destruct (C43_fallback c k K E) as [A _]. destruct (C43_fallback c' k K E') as [A' _].
    destruct A as (w & A & W & _); [lra|]. destruct A' as (w' & A' & W' & _); [lra|]. assert (z = w) by congruence. assert (z' = w') by congruence. subst. apply sqrt_le_1_alt. apply u_ln_u_mono; lra.
  Qed.

  Lemma ndof_cases : forall chi2 ndof p z, significance_from_chi2_ndof SL chi2 ndof = Ok (p, z) ->
    z_goes_with p z /\ ((0 < ndof /\ is_probability p) \/ (ndof <= 0 /\ p = NaN)).
  Proof.
    intros c k p z H. assert (OK' := OK). destruct OK' as ((SP & SN & S1 & _) & _).
    destruct (Rlt_dec 0 k) as [K|K].
    - split; [|left; split; [exact K|]].
      + destruct (neqb (chi2_sf SL c k) (Fin 0)) eqn:E.
        * apply neqb_zero in E. destruct (C43_fallback c k K E) as [A B]. destruct (Rlt_dec 0 (chernoff_exponent c k)) as [U|U]; [destruct (A U) as (w & A' & _ & W); rewrite A' in H; injection H as <- <-; right; split; [reflexivity|exists w; auto]|]. rewrite B in H by lra. discriminate.
        * unfold significance_from_chi2_ndof in H. rewrite E in H. injection H as <- <-. left. reflexivity.
      + unfold significance_from_chi2_ndof in H. destruct (neqb _ _); [destruct (chernoff c k 0); [|discriminate]|]; injection H as <- <-; apply SP, K.
    - unfold significance_from_chi2_ndof in H. rewrite SN in H by lra. cbn in H. injection H as <- <-. split; [left; reflexivity|right; split; [lra|reflexivity]].
  Qed.

  (** C40 *)
  Theorem C40_asymptotic : forall m chi2 p z, proper_shape m -> significance_from_chi2_asymptotic SL m chi2 = Ok (p, z) -> is_probability p /\ z_goes_with p z.
  Proof.
    intros m c p z [A B] H. apply ndof_cases in H. destruct H as [Z [[_ P]|[N _]]]; [auto|]. pose proof (ndof_pos m A B). lra.
  Qed.
  Theorem C40_MC : forall chi2 chi2s, chi2s <> [] -> is_probability (fst (MC_of_chi2s SL chi2 chi2s)) /\ z_goes_with (fst (MC_of_chi2s SL chi2 chi2s)) (snd (MC_of_chi2s SL chi2 chi2s)).
  Proof.
    intros c l NE. unfold MC_of_chi2s. cbn [fst snd]. rewrite MC_p by exact NE. split; [exists (mc_p c l); split; [reflexivity|apply mc_p_range; exact NE]|left; reflexivity].
  Qed.
  Lemma fit_spec : forall chi2s n f k s bw, fit_test_statistic_distribution SL chi2s n = Ok (f, k, s, bw) ->
    chi2s <> [] /\ k = arithmetic_mean chi2s /\ 0 < k /\ s = sqrt k /\ 0 <= f <= 1.
  Proof.
    intros l n f k s bw H. unfold fit_test_statistic_distribution in H. destruct l as [|x l]; [discriminate|]. cbn [mean] in H. change (lsum _ _ / _) with (arithmetic_mean (x :: l)) in H.
    destruct (rleb (arithmetic_mean (x :: l)) 0) eqn:E; [discriminate|]. apply rleb_false in E. match type of H with (rbind ?L _) = _ => destruct L as [f0|] eqn:LS; [cbn [rbind] in H|discriminate] end. injection H as <- <- <- <-.
    split; [discriminate|]. split; [reflexivity|]. split; [lra|]. split; [reflexivity|]. destruct OK as (_ & _ & _ & LO & _). eapply LO, LS.
  Qed.
  Theorem C40_hybrid : forall chi2 m chi2s p z, hybrid_of_chi2s SL chi2 m chi2s = Ok (p, z) ->
    z_goes_with p z /\ (is_probability p \/ (p = NaN /\ (chi2s = [] \/ arithmetic_mean chi2s <= 0))).
  Proof.
    intros c m l p z H. unfold hybrid_of_chi2s in H. assert (OK' := OK). destruct OK' as ((SP & SN & S1 & _) & (NP & _) & _). destruct (rleb (avg_per_bin m) 4).
    - destruct (fit_test_statistic_distribution SL l 50) as [[[[f k] s] bw]|] eqn:F; [cbn [rbind] in H|discriminate]. apply fit_spec in F. destruct F as (NE & K & KP & -> & F0 & F1).
      destruct (SP c k KP) as (a & EA & A). destruct (NP c k (sqrt k) (sqrt_lt_R0 k KP)) as (b & EB & B). rewrite EA, EB in H. cbn [nmix] in H.
      assert (IP : is_probability (Fin (f * a + (1 - f) * b))) by (exists (f * a + (1 - f) * b); split; [reflexivity|nra]).
      destruct (neqb _ _) eqn:E in H.
      + apply neqb_zero in E. rewrite E in *. destruct (mlog (c / k)); [cbn [rbind] in H|discriminate]. destruct (mlog f) as [lf|] eqn:MF; [cbn [rbind] in H|discriminate].
        assert (FP : 0 < f) by (unfold mlog in MF; destruct (rleb f 0) eqn:R; [discriminate|]; apply rleb_false in R; lra).
        assert (AZ : a = 0) by (injection E as E; nra).
        assert (C : 0 < c). { destruct (Rlt_dec 0 c) as [X|X]; [exact X|]. rewrite S1 in EA by lra. injection EA as EA. lra. }
        rewrite chernoff_ok in H by assumption. destruct (rltb 0 _) eqn:U in H; [|discriminate]. apply rltb_true in U. cbn [rbind] in H. injection H as <- <-. split; [|left; exact IP]. right. split; [reflexivity|]. eexists. split; [reflexivity|]. apply sqrt_ge1, U.
      + injection H as <- <-. split; [left; reflexivity|left; exact IP].
    - destruct l as [|x l]; [cbn in H; injection H as <- <-; split; [left; reflexivity|right; auto]|]. cbn [mean] in H. apply ndof_cases in H. destruct H as [Z [[_ P]|[N P]]]; (split; [exact Z|]); [left; exact P|right]. split; [exact P|right; exact N].
  Qed.

  (** C41 *)
  Theorem C41_exact : forall chi2 chi2s, chi2s <> [] -> exists p, fst (MC_of_chi2s SL chi2 chi2s) = Fin p /\
    (equal_to chi2 chi2s = 0%nat -> p = INR (above chi2 chi2s) / INR (length chi2s)) /\
    ((0 < equal_to chi2 chi2s)%nat -> p = (INR (above chi2 chi2s) + (INR (equal_to chi2 chi2s) - 1) / 2) / INR (length chi2s)).
  Proof.
    intros c l NE. exists (mc_p c l). unfold MC_of_chi2s. cbn [fst]. rewrite MC_p by exact NE. split; [reflexivity|]. unfold mc_p. split; intros H; destruct (Nat.eqb_spec (equal_to c l) 0); try lia; reflexivity.
  Qed.
  Theorem C41_extremes : forall chi2 chi2s, chi2s <> [] ->
    ((forall x, In x chi2s -> x < chi2) -> MC_of_chi2s SL chi2 chi2s = (Fin 0, PInf)) /\
    ((forall x, In x chi2s -> chi2 < x) -> MC_of_chi2s SL chi2 chi2s = (Fin 1, MInf)) /\
    (fst (MC_of_chi2s SL chi2 chi2s) = Fin 0 <-> above chi2 chi2s = 0%nat /\ (equal_to chi2 chi2s <= 1)%nat).
  Proof.
    intros c l NE. assert (L : 0 < INR (length l)) by (apply INR_pos; destruct l; [congruence|simpl; lia]). unfold MC_of_chi2s. cbn [fst]. rewrite MC_p by exact NE. destruct OK as (_ & _ & (P0 & P1 & _) & _).
    assert (NONE : forall (q : R -> bool), (forall x, In x l -> q x = false) -> length (filter q l) = 0%nat) by (intros q; clear; induction l as [|a l IH]; intros H; [reflexivity|]; simpl; rewrite H by (left; reflexivity); apply IH; intros; apply H; right; assumption).
    pose proof (count_parts c l) as CP. split; [|split].
    - intros H. assert (E1 : equal_to c l = 0%nat) by (apply NONE; intros x Hx; specialize (H x Hx); destruct (Req_EM_T c x); [lra|reflexivity]). assert (E2 : above c l = 0%nat) by (apply NONE; intros x Hx; specialize (H x Hx); destruct (Rlt_dec c x); [lra|reflexivity]).
      unfold mc_p. rewrite E1, E2. simpl. unfold Rdiv. rewrite Rmult_0_l. rewrite P0. reflexivity.
    - intros H. assert (E1 : equal_to c l = 0%nat) by (apply NONE; intros x Hx; specialize (H x Hx); destruct (Req_EM_T c x); [lra|reflexivity]). assert (E2 : below c l = 0%nat) by (apply NONE; intros x Hx; specialize (H x Hx); destruct (Rlt_dec x c); [lra|reflexivity]).
      assert (E3 : above c l = length l) by lia. unfold mc_p. rewrite E1, E3. simpl. unfold Rdiv. rewrite Rinv_r by lra. rewrite P1. reflexivity.
    - assert (Z : forall a, a / INR (length l) = 0 <-> a = 0) by (intros a; split; [intros E; apply (Rmult_eq_compat_r (INR (length l))) in E; unfold Rdiv in E; rewrite Rmult_assoc, Rinv_l in E; lra|intros ->; unfold Rdiv; ring]).
      split.
      + intros E. injection E as E. unfold mc_p in E. pose proof (pos_INR (above c l)). destruct (Nat.eqb_spec (equal_to c l) 0) as [Q|Q]; apply (proj1 (Z _)) in E; [split; [apply INR_eq; exact E|lia]|].
        assert (1 <= INR (equal_to c l)) by (apply (le_INR 1); lia). split; [apply INR_eq; simpl; lra|]. apply INR_le. simpl. lra.
      + intros [A B]. f_equal. unfold mc_p. destruct (Nat.eqb_spec (equal_to c l) 0) as [Q|Q]; apply (proj2 (Z _)); rewrite A; [reflexivity|]. replace (equal_to c l) with 1%nat by lia. simpl. lra.
  Qed.
  Theorem C41_monotone : forall chi2 chi2' chi2s p p', chi2s <> [] -> chi2 <= chi2' ->
    fst (MC_of_chi2s SL chi2 chi2s) = Fin p -> fst (MC_of_chi2s SL chi2' chi2s) = Fin p' -> p' <= p.
  Proof. intros c c' l p p' NE H A B. unfold MC_of_chi2s in *. cbn [fst] in *. rewrite MC_p in A, B by exact NE. injection A as <-. injection B as <-. apply mc_p_mono; assumption. Qed.
  Theorem C41_order_free : forall chi2 chi2s chi2s', Permutation chi2s chi2s' -> MC_of_chi2s SL chi2 chi2s = MC_of_chi2s SL chi2 chi2s'.
  Proof.
    intros c l l' P. unfold MC_of_chi2s. assert (E : percentileofscore SL l c = percentileofscore SL l' c); [|rewrite E; reflexivity]. pose proof (Permutation_length P) as LE.
    unfold percentileofscore. rewrite !(length_filter_perm _ _ _ P), LE. destruct l, l'; try discriminate; reflexivity.
  Qed.

  (** C42: which formula is used *)
  Theorem C42_switch : forall chi2 m chi2s p z, (1 <= nr m)%nat -> chi2s <> [] -> hybrid_of_chi2s SL chi2 m chi2s = Ok (p, z) ->
    (matsum m * INR (nc m) <= 4 * INR (nr m) -> exists f, 0 <= f <= 1 /\
       p = nmix f (chi2_sf SL chi2 (arithmetic_mean chi2s)) (1 - f) (norm_sf SL chi2 (arithmetic_mean chi2s) (sqrt (arithmetic_mean chi2s)))) /\
    (4 * INR (nr m) < matsum m * INR (nc m) -> p = chi2_sf SL chi2 (arithmetic_mean chi2s)).
  Proof.
    intros c m l p z R1 NE H. assert (RP : 0 < INR (nr m)) by (apply INR_pos; lia). unfold hybrid_of_chi2s in H.
    assert (AV : avg_per_bin m <= 4 <-> matsum m * INR (nc m) <= 4 * INR (nr m)).
    { unfold avg_per_bin. replace (matsum m / INR (nr m) * INR (nc m)) with (matsum m * INR (nc m) / INR (nr m)) by (field; lra). split; intros X.
      - apply (Rmult_le_compat_r (INR (nr m))) in X; [|lra]. unfold Rdiv in X. rewrite Rmult_assoc, Rinv_l in X by lra. lra.
      - apply (Rmult_le_reg_r (INR (nr m))); [lra|]. unfold Rdiv. rewrite Rmult_assoc, Rinv_l by lra. lra. }
    split; intros D.
    - rewrite (proj2 (rleb_true _ _)) in H by (apply AV; exact D). destruct (fit_test_statistic_distribution SL l 50) as [[[[f k] s] bw]|] eqn:F; [cbn [rbind] in H|discriminate]. apply fit_spec in F. destruct F as (_ & -> & _ & -> & F).
      exists f. split; [exact F|]. destruct (neqb _ _) in H; [|congruence]. destruct (mlog (_ / _)); [cbn [rbind] in H|discriminate]. destruct (mlog f); [cbn [rbind] in H|discriminate]. destruct (chernoff _ _ _); [cbn [rbind] in H|discriminate]. congruence.
    - rewrite (proj2 (rleb_false _ _)) in H. 2:{ apply Rnot_le_lt. intros X. apply AV in X. lra. }
      destruct l as [|x l]; [congruence|]. cbn [mean] in H. change (lsum _ _ / _) with (arithmetic_mean (x :: l)) in H. unfold significance_from_chi2_ndof in H. destruct (neqb _ _) in H; [destruct (chernoff _ _ _); [cbn [rbind] in H|discriminate]|]; congruence.
  Qed.
End Props.

(** the documented rule agrees with the code for all tables of a shape only for one column *)
Theorem C42_agrees_only_one_column : forall r c, (1 <= r)%nat -> (1 <= c)%nat ->
  ((forall m, nr m = r -> nc m = c -> nonneg_table m -> (records_per_cell m <= 4 <-> matsum m * INR c <= 4 * INR r)) <-> c = 1%nat).
Proof.
  intros r c R C. assert (RP : 0 < INR r) by (apply INR_pos; lia). assert (CP : 0 < INR c) by (apply INR_pos; lia). split.
  - intros H. destruct (Nat.eq_dec c 1) as [E|NE]; [exact E|exfalso]. specialize (H (mkMat r c (fun _ _ => 4)) eq_refl eq_refl ltac:(intros i j _ _; cbn; lra)).
    assert (S : matsum (mkMat r c (fun _ _ => 4)) = 4 * (INR r * INR c)).
    { unfold matsum, rowsum. cbn [nr nc el]. rewrite (lsum_ext _ _ (fun _ => 4 * INR c)); [|intros; rewrite lsum_const, seq_length; ring]. rewrite lsum_const, seq_length. ring. }
    unfold records_per_cell in H. cbn [nr nc] in H. rewrite S in H. assert (2 <= INR c) by (apply (le_INR 2); lia). assert (E : 4 * (INR r * INR c) / (INR r * INR c) = 4) by (field; lra). rewrite E in H. destruct H as [H _]. specialize (H ltac:(lra)). assert (0 < INR r * (INR c * INR c - 1)) by (apply Rmult_lt_0_compat; [exact RP|nra]). lra.
  - intros -> m <- M C'. unfold records_per_cell. rewrite M. simpl (INR 1). rewrite !Rmult_1_r. split; intros H.
    + apply (Rmult_le_compat_r (INR (nr m))) in H; [|lra]. unfold Rdiv in H. rewrite Rmult_assoc, Rinv_l in H by lra. lra.
    + apply (Rmult_le_reg_r (INR (nr m))); [lra|]. unfold Rdiv. rewrite Rmult_assoc, Rinv_l by lra. lra.
Qed.

(** ** with simulation *)
Section Sim.
  Variable SL : slib.
  Variable St : Type.
  Variable multinomial : Z -> list R -> St -> res (list Z) * St.
  Variable randint : Z -> Z -> St -> Z * St.
  Variables (libm_exp libm_log : f64 -> f64) (uninit : nat -> list Z) (ib0 : Z) (fuel : nat) (cpp clamp : bool).
  Notation from_hist2d := (significance_from_hist2d SL St multinomial randint libm_exp libm_log uninit ib0 fuel cpp clamp).
  Notation sim := (sim_chi2_distribution St multinomial randint libm_exp libm_log uninit ib0 fuel cpp clamp).
  Notation rebinned := (significance_from_rebinned_df SL St multinomial randint libm_exp libm_log uninit ib0 fuel cpp clamp).
  Notation sig_matrix := (significance_matrix SL St multinomial randint libm_exp libm_log uninit ib0 fuel cpp clamp).

  (** C40, for a contingency table *)
  Theorem C40_hist2d : forall m nsim l simm sigm w s p z s', slib_ok SL -> proper_shape m -> from_hist2d m nsim l simm sigm w s = (Ok (p, z), s') ->
    In sigm significance_methods /\ z_goes_with SL p z /\
    (is_probability p \/ (p = NaN /\ sigm <> "asymptotic"%string /\ exists chi2s, sim m nsim l simm false w s = (Ok chi2s, s') /\ (chi2s = [] \/ (sigm = "hybrid"%string /\ arithmetic_mean chi2s <= 0)))).
  Proof.
    intros m nsim l simm sigm w s p z s' OK PS H. unfold significance_from_hist2d, mbind, lift in H. destruct (get_chi2 clamp m l) as [c|]; [|discriminate].
    destruct (String.eqb_spec sigm "asymptotic") as [->|N1].
    { injection H as H <-. destruct (C40_asymptotic SL OK m c p z PS H) as [A B]. split; [left; reflexivity|]. split; [exact B|left; exact A]. }
    destruct (String.eqb_spec sigm "MC") as [->|N2].
    { unfold significance_from_chi2_MC, get_chi2s, mbind, ret in H. destruct (sim m nsim l simm false w s) as [[chi2s|] s1] eqn:E; [|discriminate]. injection H as <- <- <-. split; [right; left; reflexivity|].
      destruct chi2s as [|x chi2s].
      - split; [left; reflexivity|]. cbn [percentileofscore]. destruct OK as (_ & _ & _ & _ & [->| ->]); cbn [one_minus_percent].
        + left. exists (1 - 100 / 100). split; [reflexivity|lra].
        + right. split; [reflexivity|]. split; [discriminate|]. exists []. auto.
      - destruct (C40_MC SL c (x :: chi2s) ltac:(discriminate)) as [A B]. split; [exact B|left; exact A]. }
    destruct (String.eqb_spec sigm "hybrid") as [->|N3]; [|discriminate].
    unfold significance_from_chi2_hybrid, get_chi2s, mbind, lift in H. destruct (sim m nsim l simm false w s) as [[chi2s|] s1] eqn:E; [|discriminate]. injection H as H <-. split; [right; right; left; reflexivity|].
    destruct (C40_hybrid SL OK c m chi2s p z H) as [B [A|[A1 A2]]]; (split; [exact B|]); [left; exact A|right]. split; [exact A1|]. split; [discriminate|]. exists chi2s. split; [reflexivity|]. destruct A2; [left|right]; auto.
  Qed.
  (** the Z-value is positive exactly when the p-value is below 1/2 *)
  Theorem C40_sign : forall m nsim l simm sigm w s p z s', slib_ok SL -> proper_shape m -> from_hist2d m nsim l simm sigm w s = (Ok (Fin p, z), s') -> 0 <= p <= 1 ->
    (nlt (Fin 0) z = true <-> p < 1/2).
  Proof. intros m nsim l simm sigm w s p z s' OK PS H R. destruct (C40_hist2d _ _ _ _ _ _ _ _ _ _ OK PS H) as (_ & G & _). apply (goes_with_sign SL OK); assumption. Qed.

  (** C44 *)
  Theorem C44_unknown_significance_method : forall m nsim l simm sigm w s, nonneg_table m -> has_records m -> ~ In sigm significance_methods ->
    from_hist2d m nsim l simm sigm w s = (Raise NotImplementedError, s).
  Proof.
    intros m nsim l simm sigm w s HN HR H. unfold significance_from_hist2d, mbind, lift. destruct (C14_chi2_defined_nonneg clamp l m HN HR) as (v & E & _). rewrite E. unfold significance_methods in H. simpl in H.
    repeat match goal with |- context [String.eqb sigm ?x] => destruct (String.eqb_spec sigm x) as [->|_]; [exfalso; tauto|] end. reflexivity.
  Qed.
  Theorem C44_unknown_simulation_method_in_significance : forall m nsim l simm sigm w s, nonneg_table m -> has_records m -> (0 < nsim)%Z -> ~ known_method simm -> In sigm ["MC"; "hybrid"]%string ->
    exists s', from_hist2d m nsim l simm sigm w s = (Raise NotImplementedError, s').
  Proof.
    intros m nsim l simm sigm w s HN HR NS KM H. unfold significance_from_hist2d, mbind, lift. destruct (C14_chi2_defined_nonneg clamp l m HN HR) as (v & E & _). rewrite E.
    assert (SM : exists s', sim m nsim l simm false w s = (Raise NotImplementedError, s')).
    { assert (NZ : Z.to_nat nsim = S (Z.to_nat nsim - 1)) by lia. unfold sim_chi2_distribution. rewrite NZ. cbn [seq]. destruct w as [w|]; cbn [mapM mmap]; unfold mbind, lift, simulate_and_fit, mbind;
        rewrite (C44_unknown_simulation_method St multinomial randint libm_exp libm_log uninit ib0 fuel cpp _ simm _ KM); cbn; eexists; reflexivity. }
    destruct SM as (s' & SM). exists s'. simpl in H. destruct H as [<-|[<-|[]]]; cbn [String.eqb Ascii.eqb Bool.eqb]; [unfold significance_from_chi2_MC|unfold significance_from_chi2_hybrid]; unfold get_chi2s, mbind; rewrite SM; reflexivity.
  Qed.

  (** C45 *)
  Lemma mmap_Forall2 : forall A B (g : A -> SimModel.M St B) l s bs s', mmap St g l s = (Ok bs, s') -> Forall2 (fun a b => exists s0 s1, g a s0 = (Ok b, s1)) l bs.
  Proof.
    induction l as [|a l IH]; intros s bs s' H; cbn in H; [injection H as <- _; constructor|]. unfold mbind in H. destruct (g a s) as [[b|] s1] eqn:E; [|discriminate].
    destruct (mmap St g l s1) as [[bs'|] s2] eqn:E2; [|discriminate]. injection H as <- _. constructor; [exists s, s1; exact E|eapply IH; exact E2].
  Qed.
  Definition calc nsim l simm sigm w := fun pq : (string * col) * (string * col) => calc_signif SL St multinomial randint libm_exp libm_log uninit ib0 fuel cpp clamp nsim l simm sigm w (fst pq) (snd pq).
  (** the values as a function of the pair *)
  Definition lookup (vals : list (string * string * num)) (p q : string * col) : res num :=
    match find (fun v => String.eqb (fst (fst v)) (fst p) && String.eqb (snd (fst v)) (fst q)) vals with Some v => Ok (snd v) | None => Raise KeyError end.
  Definition named (pq : (string * col) * (string * col)) (v : string * string * num) : Prop := fst v = (fst (fst pq), fst (snd pq)).
  Lemma calc_named : forall nsim l simm sigm w pq v s s', calc nsim l simm sigm w pq s = (Ok v, s') -> named pq v.
  Proof.
    intros nsim l simm sigm w [[c0 x] [c1 y]] v s s' H. unfold calc, calc_signif in H. cbn [fst snd] in H. destruct (is01 _ || is01 _); [injection H as <- _; reflexivity|]. unfold mbind in H.
    destruct (significance_from_hist2d _ _ _ _ _ _ _ _ _ _ _ _ _ _ _ _ _ _) as [[pz|] s1]; [|discriminate]. injection H as <- _. reflexivity.
  Qed.
  Lemma lookup_spec : forall cs vals, Forall2 named cs vals -> NoDup (map (fun pq => (fst (fst pq), fst (snd pq))) cs) -> mapM (pair_row col (lookup vals)) cs = Ok vals.
  Proof.
    intros cs vals F N. assert (G : forall cs' vals' pre, Forall2 named cs' vals' -> (forall v pq, In v pre -> In pq cs' -> fst v <> (fst (fst pq), fst (snd pq))) -> NoDup (map (fun pq => (fst (fst pq), fst (snd pq))) cs') ->
      mapM (pair_row col (lookup (pre ++ vals'))) cs' = Ok vals').
    { clear. intros cs' vals' pre F. revert pre. induction F as [|pq v cs' vals' H F IH]; intros pre D N; [reflexivity|]. inversion N as [|x y N1 N2]; subst.
      assert (LK : lookup (pre ++ v :: vals') (fst pq) (snd pq) = Ok (snd v)).
      { unfold lookup. assert (P : forall pre, (forall u, In u pre -> fst u <> (fst (fst pq), fst (snd pq))) -> find (fun v => String.eqb (fst (fst v)) (fst (fst pq)) && String.eqb (snd (fst v)) (fst (snd pq))) (pre ++ v :: vals') = Some v).
        { clear - H. induction pre as [|u pre IH]; intros D; cbn [app find].
          - unfold named in H. rewrite H. cbn [fst snd]. rewrite !String.eqb_refl. reflexivity.
          - destruct (String.eqb_spec (fst (fst u)) (fst (fst pq))) as [E1|E1]; [destruct (String.eqb_spec (snd (fst u)) (fst (snd pq))) as [E2|E2]|]; cbn [andb]; try (apply IH; intros; apply D; right; assumption).
            exfalso. apply (D u (or_introl eq_refl)). rewrite <- E1, <- E2. destruct (fst u); reflexivity. }
        rewrite P; [reflexivity|]. intros u Hu. apply (D u pq Hu). left. reflexivity. }
      cbn [mapM]. unfold pair_row at 1. rewrite LK. cbn [rmap rbind].
      specialize (IH (pre ++ [v])). rewrite <- app_assoc in IH. cbn [app] in IH. rewrite IH; [| |exact N2].
      - cbn [rbind]. f_equal. f_equal. unfold named in H. destruct v as [ab z]. cbn [fst snd] in *. rewrite H. reflexivity.
      - intros u pq' Hu Hp. apply in_app_or in Hu. destruct Hu as [Hu|[<-|[]]]; [apply D; [exact Hu|right; exact Hp]|]. unfold named in H. rewrite H. intros E. apply N1. rewrite E. apply in_map_iff. exists pq'. auto. }
    apply (G cs vals [] F); [intros v pq []|exact N].
  Qed.
  Lemma combos_names_nodup : forall (f : list (string * col)), NoDup (keys f) -> NoDup (map (fun pq => (fst (fst pq), fst (snd pq))) (combos f)).
  Proof.
    induction f as [|a f IH]; intros N; [constructor|]. cbn [combos]. rewrite map_app, map_map. cbn [fst snd].
    assert (K : map (fun x => (fst a, fst x)) (a :: f) = map (fun k => (fst a, k)) (keys (a :: f))) by (unfold keys; rewrite map_map; reflexivity). rewrite K.
    assert (NA : forall (l1 l2 : list (string * string)), NoDup l1 -> NoDup l2 -> (forall x, In x l1 -> ~ In x l2) -> NoDup (l1 ++ l2)).
    { clear. induction l1 as [|x l1 IH]; intros l2 A B D; [exact B|]. inversion A; subst. cbn. constructor; [intros H; apply in_app_or in H; destruct H; [contradiction|apply (D x); [left; reflexivity|assumption]]|apply IH; [assumption..|intros; apply D; right; assumption]]. }
    inversion N as [|x y N1 N2]; subst. apply NA.
    - apply FinFun.Injective_map_NoDup; [intros u v E; congruence|exact N].
    - apply IH, N2.
    - intros x Hx Hy. apply in_map_iff in Hx. destruct Hx as (k & <- & _). apply in_map_iff in Hy. destruct Hy as ([p q] & E & H). cbn in E. injection E as E _. apply combos_In in H. apply N1. rewrite <- E. apply in_map, H.
  Qed.
  Definition before_or_same (f : frame) (p q : string * col) : Prop := exists a b, f = a ++ p :: b /\ In q (p :: b).
  Lemma combos_before : forall (f : frame) p q, before_or_same f p q -> In (p, q) (combos f).
  Proof.
    intros f p q (a & b & -> & H). induction a as [|c a IH]; cbn [app combos]; apply in_or_app; [left; apply in_map_iff; exists q; auto|right; exact IH].
  Qed.
  Lemma rebinned_unfold_sig : forall f l simm nsim sigm d u o w s t s', fst (rebinned f l simm nsim sigm d u o w) s = (Ok t, s') ->
    exists vals, mmap St (calc nsim l simm sigm w) (combos (clean d u o f)) s = (Ok vals, s') /\ t = reindex (overview vals) (keys f).
  Proof.
    intros f l simm nsim sigm d u o w s t s' H. unfold significance_from_rebinned_df in H. cbn [fst] in H. unfold mbind in H. change (fun pq => calc_signif _ _ _ _ _ _ _ _ _ _ _ _ _ _ _ _ (fst pq) (snd pq)) with (calc nsim l simm sigm w) in H.
    destruct (mmap St (calc nsim l simm sigm w) (combos (clean d u o f)) s) as [[vals|] s1] eqn:E; [|discriminate]. unfold ret in H. injection H as H <-. exists vals. split; [reflexivity|]. rewrite keys_clean in H.
    destruct vals as [|v vals]; [|congruence]. rewrite <- H. apply mmap_Forall2 in E. inversion E as [X Y|]. symmetry in X. apply combos_nil in X. assert (K : keys f = []) by (rewrite <- (keys_clean d u o), X; reflexivity). rewrite K. reflexivity.
  Qed.
  Theorem C45_layout : forall f l simm nsim sigm d u o w s t s', NoDup (keys f) -> fst (rebinned f l simm nsim sigm d u o w) s = (Ok t, s') ->
    t_index t = keys f /\ t_columns t = keys f /\ well_formed t /\ (forall a b, tval t a b = tval t b a) /\
    (forall c0 x c1 y h, before_or_same f (c0, x) (c1, y) -> is_table_of (counted_as d u o) (combine (c_cells x) (c_cells y)) h ->
       (~ proper_shape (hmat h) /\ tval t c0 c1 = NaN) \/
       (proper_shape (hmat h) /\ exists s0 p z s1, from_hist2d (hmat h) nsim l simm sigm (w c0 c1) s0 = (Ok (p, z), s1) /\ tval t c0 c1 = z)).
  Proof.
    intros f l simm nsim sigm d u o w s t s' N H. apply rebinned_unfold_sig in H. destruct H as (vals & E & ->).
    assert (N' : NoDup (keys (clean d u o f))) by (rewrite keys_clean; exact N).
    apply mmap_Forall2 in E. assert (F : Forall2 named (combos (clean d u o f)) vals). { clear - E. induction E as [|pq v cs vs (s0 & s1 & X) E IH]; constructor; [eapply calc_named; exact X|exact IH]. }
    pose proof (lookup_spec _ _ F (combos_names_nodup _ N')) as V.
    split; [reflexivity|]. split; [reflexivity|]. split; [apply reindex_wf|]. split; [rewrite <- (keys_clean d u o); apply assembled_sym|].
    intros c0 x c1 y h BS HT. rewrite (is_table_unique _ _ _ _ HT (clean_table d u o _ _)).
    set (cl := fun p : string * col => (fst p, mkCol (c_num (snd p)) (map (clean1 d u o) (c_cells (snd p))))).
    assert (BS' : In (cl (c0, x), cl (c1, y)) (combos (clean d u o f))).
    { change (clean d u o f) with (map cl f). rewrite combos_map. apply in_map_iff. exists ((c0, x), (c1, y)). split; [reflexivity|]. apply combos_before, BS. }
    destruct (assembled _ _ _ N' _ V _ _ BS') as (v & LV & T & _). rewrite keys_clean in T. cbn [cl fst snd] in T. rewrite T.
    assert (FV : exists s0 s1, calc nsim l simm sigm w (cl (c0, x), cl (c1, y)) s0 = (Ok (c0, c1, v), s1)).
    { assert (MV := V). apply Base.mapM_ok in MV. assert (IN : In (c0, c1, v) vals).
      { clear - MV BS' LV. induction MV as [|pq r cs vs X MV IH]; [destruct BS'|]. destruct BS' as [->|B]; [left; unfold pair_row in X; cbn [fst snd] in X; rewrite LV in X; cbn [rmap] in X; injection X as <-; reflexivity|right; apply IH; assumption]. }
      assert (NN := combos_names_nodup _ N').
      clear - E IN F BS' NN. revert NN F. induction E as [|pq r cs vs (s0 & s1 & X) E IH]; intros NN F; [destruct IN|]. inversion F as [|? ? ? ? N1 F']; subst. inversion NN as [|? ? N2 NN']; subst.
      assert (NV : named (cl (c0, x), cl (c1, y)) (c0, c1, v)) by reflexivity.
      assert (MEM : forall cs vs r, Forall2 named cs vs -> In r vs -> exists pq, In pq cs /\ named pq r) by (clear; intros cs vs r F; induction F as [|a b cs vs H F IH]; intros I; [destruct I|destruct I as [<-|I]; [exists a; split; [left; reflexivity|exact H]|destruct (IH I) as (pq & A & B); exists pq; split; [right; exact A|exact B]]]).
      destruct BS' as [->|B].
      - destruct IN as [->|I]; [exists s0, s1; exact X|]. exfalso. destruct (MEM _ _ _ F' I) as (pq & A & B). apply N2. apply in_map_iff. exists pq. split; [|exact A]. unfold named in B, NV. cbn [fst snd cl] in *. congruence.
      - destruct IN as [->|I]; [|apply IH; assumption]. exfalso. apply N2. apply in_map_iff. exists (cl (c0, x), cl (c1, y)). split; [|exact B]. unfold named in N1. cbn [fst snd cl] in *. congruence. }
    destruct FV as (s0 & s1 & C). unfold calc, calc_signif in C. cbn [fst snd cl c_cells] in C. set (h2 := crosstab _) in *.
    destruct (is01 (length (h_rows h2)) || is01 (length (h_cols h2))) eqn:B.
    - left. split; [apply is01_proper; exact B|]. unfold ret in C. congruence.
    - right. assert (PS : proper_shape (hmat h2)).
      { destruct (le_dec 2 (nr (hmat h2))), (le_dec 2 (nc (hmat h2))); try (split; assumption); exfalso; assert (X : ~ proper_shape (hmat h2)) by (intros [? ?]; contradiction); apply is01_proper in X; congruence. }
      split; [exact PS|]. unfold mbind in C. destruct (from_hist2d (hmat h2) nsim l simm sigm (w c0 c1) s0) as [[[p z]|] s2] eqn:FH; [|discriminate]. exists s0, p, z, s2. split; [exact FH|]. unfold ret in C. cbn [snd] in C. congruence.
  Qed.

  (** the same for raw data; the quantile binning option does not exist here *)
  Theorem C45_significance_matrix : forall npq df interval_cols l simm nsim sigm bins d u o w s t s', NoDup (keys df) ->
    let ic := match interval_cols with Some c => c | None => guess_interval_cols df end in
    let survives (p : string * col) := Nat.leb 2 (nunique (snd p)) || (Nat.eqb (nunique (snd p)) 1 && negb d && negb (mem (fst p) ic)) in
    let kept := filter survives df in
    sig_matrix npq df interval_cols l simm nsim sigm bins d u o w s = (Ok t, s') ->
    exists f dict, bin_data npq kept (filter (fun c => mem c (keys kept)) ic) bins false = Ok (f, dict) /\ keys f = keys kept /\
      fst (rebinned f l simm nsim sigm d u o w) s = (Ok t, s') /\ t_index t = keys kept /\ t_columns t = keys kept.
  Proof.
    intros npq df icol l simm nsim sigm bins d u o w s t s' N ic survives kept H. unfold significance_matrix in H. fold ic in H. destruct (dq_nunique_spec df ic d N) as [E1 E2]. fold survives in E1, E2. fold kept in E1, E2.
    destruct (dq_check_nunique_values df ic d) as [cdf ic'] eqn:E. cbn [fst snd] in E1, E2. subst cdf ic'. unfold mbind, lift in H. destruct (bin_data npq kept _ bins false) as [[f dict]|] eqn:B; [|discriminate]. cbn [fst] in H.
    exists f, dict. split; [reflexivity|]. pose proof (bin_data_spec _ _ _ _ _ _ _ B) as (K & _). split; [exact K|]. split; [exact H|].
    assert (NF : NoDup (keys f)) by (rewrite K; apply nodup_keys_filter; exact N). destruct (C45_layout f l simm nsim sigm d u o w s t s' NF H) as (A1 & A2 & _). rewrite A1, A2, K. auto.
  Qed.

  (** when the matrix is returned at all *)
  Lemma table_positive : forall seen recs h, is_table_of seen recs h -> positive_rowsums (hmat h) /\ positive_colsums (hmat h).
  Proof.
    intros seen recs h (_ & _ & _ & _ & _ & _ & _ & A8 & A9 & _). split.
    - intros i Hi. cbn [nr hmat] in Hi. destruct (A8 i Hi) as (j & Hj & E). unfold rowsum. cbn [nc hmat]. apply lsum_pos with (a := j); [intros k _; apply pos_INR|apply in_seq; lia|]. cbn [el hmat]. apply lt_0_INR. exact E.
    - intros j Hj. cbn [nc hmat] in Hj. destruct (A9 j Hj) as (i & Hi & E). unfold colsum. cbn [nr hmat]. apply lsum_pos with (a := i); [intros k _; apply pos_INR|apply in_seq; lia|]. cbn [el hmat]. apply lt_0_INR. exact E.
  Qed.
  Lemma whole_sum : forall (f : nat -> nat) l, whole (lsum (fun k => INR (f k)) l).
  Proof. intros f. induction l as [|a l IH]; [exists 0%nat; reflexivity|]. rewrite lsum_cons. apply whole_plus; [exists (f a); reflexivity|exact IH]. Qed.
  Lemma table_whole : forall h, whole_totals (hmat h).
  Proof. intros h. split; intros i _; [apply (whole_sum (fun j => nth j (nth i (h_cnt h) []) 0%nat))|apply (whole_sum (fun k => nth i (nth k (h_cnt h) []) 0%nat))]. Qed.
  Definition underflows_far_out : Prop := forall x k, 0 < k -> chi2_sf SL x k = Fin 0 -> 0 < chernoff_exponent x k.
  Lemma hist2d_asymptotic_ok : forall m nsim l simm w s, slib_ok SL -> underflows_far_out -> nonneg_table m -> has_records m -> proper_shape m ->
    exists pz, from_hist2d m nsim l simm "asymptotic" w s = (Ok pz, s).
  Proof.
    intros m nsim l simm w s OK UF HN HR [A B]. unfold significance_from_hist2d, mbind, lift. destruct (C14_chi2_defined_nonneg clamp l m HN HR) as (c & E & _). rewrite E. cbn [String.eqb Ascii.eqb Bool.eqb]. pose proof (ndof_pos m A B) as K.
    unfold significance_from_chi2_asymptotic. set (k := IZR (theoretical_ndof m)) in *. destruct (neqb (chi2_sf SL c k) (Fin 0)) eqn:Z.
    - apply neqb_zero in Z. destruct (C43_fallback SL OK c k K Z) as [F _]. destruct (F (UF c k K Z)) as (z & -> & _). eexists; reflexivity.
    - unfold significance_from_chi2_ndof. rewrite Z. eexists; reflexivity.
  Qed.
  Lemma hist2d_MC_ok : forall m nsim l simm w s, multinomial_ok multinomial -> known_method simm -> has_records m -> nonneg_table m -> good_for St randint libm_exp libm_log uninit fuel cpp simm m ->
    exists pz s', from_hist2d m nsim l simm "MC" w s = (Ok pz, s').
  Proof.
    intros m nsim l simm w s MO KM HR HN G. unfold significance_from_hist2d, mbind, lift. destruct (C14_chi2_defined_nonneg clamp l m HN HR) as (c & E & _). rewrite E. cbn [String.eqb Ascii.eqb Bool.eqb].
    destruct (C54_distribution St multinomial randint libm_exp libm_log uninit ib0 fuel clamp cpp simm m nsim l false w s MO KM) as (chi2s & s' & D & _); [apply C54_estimates_keep_totals, G|].
    unfold significance_from_chi2_MC, get_chi2s, mbind. rewrite D. eexists _, _. reflexivity.
  Qed.
  Theorem C45_returns : forall f l simm nsim sigm d u o w s, slib_ok SL ->
    (sigm = "asymptotic"%string /\ underflows_far_out) \/ (sigm = "MC"%string /\ multinomial_ok multinomial /\ known_method simm /\ simm <> "hypergeometric"%string) ->
    exists t s', fst (rebinned f l simm nsim sigm d u o w) s = (Ok t, s').
  Proof.
    intros f l simm nsim sigm d u o w s OK C. unfold significance_from_rebinned_df. cbn [fst]. unfold mbind.
    destruct (mmap_ok St _ _ (fun pq => calc_signif SL St multinomial randint libm_exp libm_log uninit ib0 fuel cpp clamp nsim l simm sigm w (fst pq) (snd pq)) (fun _ _ => True) (combos (clean d u o f))) with (s := s) as (vals & s' & E & _).
    - intros [[c0 x] [c1 y]] _ s0. unfold calc_signif. cbn [fst snd]. pose proof (crosstab_table (combine (c_cells x) (c_cells y))) as HT. set (h := crosstab _) in *.
      destruct (is01 (length (h_rows h)) || is01 (length (h_cols h))) eqn:B; [exists (c0, c1, NaN), s0; auto|].
      assert (PS : proper_shape (hmat h)).
      { destruct (le_dec 2 (nr (hmat h))), (le_dec 2 (nc (hmat h))); try (split; assumption); exfalso; assert (X : ~ proper_shape (hmat h)) by (intros [? ?]; contradiction); apply is01_proper in X; congruence. }
      pose proof (hmat_nonneg h) as HN. assert (HR : has_records (hmat h)) by (eapply hmat_records; [exact HT|destruct PS; lia]). unfold mbind.
      destruct C as [[-> UF]|(-> & MO & KM & NH)].
      + destruct (hist2d_asymptotic_ok (hmat h) nsim l simm (w c0 c1) s0 OK UF HN HR PS) as (pz & ->). eexists _, _. split; [reflexivity|exact I].
      + destruct (hist2d_MC_ok (hmat h) nsim l simm (w c0 c1) s0 MO KM HR HN) as (pz & s1 & ->).
        * destruct PS as [P1 P2]. destruct (table_positive _ _ _ HT) as [PR PC]. split; [exact P1|]. split; [exact P2|]. split; [exact HN|]. split; [apply table_whole|]. split; [exact PR|]. split; [exact PC|]. intros; contradiction.
        * eexists _, _. split; [reflexivity|exact I].
    - rewrite E. eexists _, _. reflexivity.
  Qed.

  (** C72: the asymptotic significance does not depend on the orientation or on the order of rows and columns ... *)
  Theorem C72_transpose : forall m nsim l simm w s, fst (from_hist2d (transp m) nsim l simm "asymptotic" w s) = fst (from_hist2d m nsim l simm "asymptotic" w s).
  Proof.
    intros m nsim l simm w s. unfold significance_from_hist2d, mbind, lift. rewrite C15_transpose. destruct (get_chi2 clamp m l); [|reflexivity]. cbn [String.eqb Ascii.eqb Bool.eqb fst].
    unfold significance_from_chi2_asymptotic, theoretical_ndof. cbn [transp nr nc]. rewrite (Nat.mul_comm (nc m)), (Nat.add_comm (nc m)). reflexivity.
  Qed.
  Theorem C72_permutation : forall m I J nsim l simm w s, permutes m I J -> fst (from_hist2d (submat m I J) nsim l simm "asymptotic" w s) = fst (from_hist2d m nsim l simm "asymptotic" w s).
  Proof.
    intros m I J nsim l simm w s (NI & NJ & HI & HJ). assert (RA : rearrangement m I J) by (split; [exact NI|]; split; [exact NJ|]; split; [intros; apply HI; assumption|]; split; [intros; apply HJ; assumption|]; intros i j Hi Hj _; split; [apply HI|apply HJ]; assumption).
    unfold significance_from_hist2d, mbind, lift. rewrite C15_rearrange by exact RA. destruct (get_chi2 clamp m l); [|reflexivity]. cbn [String.eqb Ascii.eqb Bool.eqb fst].
    assert (LEN : forall L n, NoDup L -> (forall i, In i L <-> (i < n)%nat) -> length L = n).
    { intros L n NL HL. rewrite <- (seq_length n 0). apply Nat.le_antisymm; apply NoDup_incl_length; auto; [intros i Hi; apply in_seq; apply HL in Hi; lia|apply seq_NoDup|intros i Hi; apply HL; apply in_seq in Hi; lia]. }
    unfold significance_from_chi2_asymptotic, theoretical_ndof. cbn [submat nr nc]. rewrite (LEN I (nr m) NI HI), (LEN J (nc m) NJ HJ). reflexivity.
  Qed.
  (** ... but an empty row, which leaves the statistic unchanged, is counted in the degrees of freedom *)
  Definition add_empty_row (m : mat) : mat := mkMat (S (nr m)) (nc m) (fun i j => if Nat.ltb i (nr m) then el m i j else 0).
  Theorem C72_empty_row_counts : forall m l chi2, get_chi2 clamp m l = Ok chi2 ->
    get_chi2 clamp (add_empty_row m) l = Ok chi2 /\
    significance_from_chi2_asymptotic SL (add_empty_row m) chi2 = significance_from_chi2_ndof SL chi2 (IZR (theoretical_ndof m) + (INR (nc m) - 1)).
  Proof.
    intros m l c E. split.
    - rewrite <- (C15_rearrange clamp (add_empty_row m) l (seq 0 (nr m)) (seq 0 (nc m))).
      + rewrite <- E. apply get_chi2_eq. split; [cbn; rewrite seq_length; reflexivity|]. split; [cbn; rewrite seq_length; reflexivity|]. intros i j Hi Hj. cbn [submat nr nc el add_empty_row] in *. rewrite seq_length in Hi, Hj.
        rewrite !seq_nth by assumption. cbn [plus]. rewrite (proj2 (Nat.ltb_lt _ _) Hi). reflexivity.
      + split; [apply seq_NoDup|]. split; [apply seq_NoDup|]. split; [intros i Hi; apply in_seq in Hi; cbn; lia|]. split; [intros i Hi; apply in_seq in Hi; cbn; lia|]. intros i j Hi Hj H. cbn [add_empty_row el nr nc] in *. destruct (Nat.ltb_spec i (nr m)); [|congruence]. split; apply in_seq; lia.
    - unfold significance_from_chi2_asymptotic. f_equal. rewrite INR_IZR_INZ, <- minus_IZR, <- plus_IZR. f_equal. unfold theoretical_ndof, add_empty_row. cbn [nr nc]. nia.
  Qed.

  (** C73: arrays *)
  Notation binned_array := (significance_from_binned_array SL St multinomial randint libm_exp libm_log uninit ib0 fuel cpp clamp).
  Theorem C73_binned_array : forall str x y l sigm nsim simm d u o w s h, is_table_of seen0 (combine (clean_array str d u o x) (clean_array str d u o y)) h ->
    (~ proper_shape (hmat h) -> binned_array str x y l sigm nsim simm d u o w s = (Ok (NaN, NaN), s)) /\
    (proper_shape (hmat h) -> binned_array str x y l sigm nsim simm d u o w s = from_hist2d (hmat h) nsim l simm sigm w s).
  Proof.
    intros str x y l sigm nsim simm d u o w s h HT. unfold significance_from_binned_array. rewrite (is_table_unique _ _ _ _ HT (crosstab_table _)). set (h2 := crosstab _).
    assert (D : fst (dq_check_hist2d (length (h_rows h2)) (length (h_cols h2))) = true <-> proper_shape (hmat h2)).
    { apply dq_hist_accepts. }
    destruct (fst (dq_check_hist2d _ _)); cbn [negb]; split; intros H; try reflexivity; exfalso; [apply H, D; reflexivity|apply D in H; discriminate].
  Qed.
End Sim.

(** C71: the fit of the simulated distribution *)
Theorem C71_fit_result : forall SL chi2s f k sigma bw, slib_ok SL -> fit_test_statistic_distribution SL chi2s 50 = Ok (f, k, sigma, bw) ->
  0 <= f <= 1 /\ k = arithmetic_mean chi2s /\ 0 < k /\ sigma * sigma = k /\ 0 < bw.
Proof.
  intros SL l f k s bw OK H. pose proof (fit_spec SL OK l 50 f k s bw H) as (NE & K & KP & S & F). split; [exact F|]. split; [exact K|]. split; [exact KP|]. split; [rewrite S; apply sqrt_sqrt; lra|].
  unfold fit_test_statistic_distribution in H. destruct (mean l); try discriminate. destruct (rleb r 0); [discriminate|]. destruct (least_squares SL _ 1); [|discriminate]. cbn [rbind] in H. injection H as _ _ _ <-. pose proof (hbound_lt l 50 0 NE ltac:(lia)). lra.
Qed.
(** the histogram counts every simulated value exactly once *)
Theorem C71_histogram : forall chi2s n, chi2s <> [] -> (0 < n)%nat -> list_sum (hcounts chi2s n) = length chi2s /\ length (hcounts chi2s n) = n.
Proof.
  intros l n NE N. split; [|unfold hcounts; rewrite map_length, seq_length; reflexivity]. apply sum_count. intros x Hx. apply in_one_bin; assumption.
Qed.
(** and the residuals of the fit are numbers whenever the fitted density is positive: no square root of a negative number *)
Theorem C71_residuals : forall f y, 0 < f -> exists r, residual f y = Fin r /\ 0 <= r.
Proof.
  intros f y F. unfold residual. rewrite (proj2 (rltb_false f 0)) by lra. rewrite (proj2 (reqb_false f 0)) by lra. destruct (Nat.eqb y 0); [eexists; split; [reflexivity|apply sqrt_pos]|].
  rewrite (proj2 (rltb_false _ _)) by (pose proof (poisson_nonneg y f F); lra). eexists; split; [reflexivity|apply sqrt_pos].
Qed.
(** the fit refuses an empty or all-zero list *)
Theorem C71_fit_rejects : forall SL chi2s n, chi2s = [] \/ arithmetic_mean chi2s <= 0 -> fit_test_statistic_distribution SL chi2s n = Raise ValueError.
Proof.
  intros SL l n H. unfold fit_test_statistic_distribution. destruct l as [|x l]; [reflexivity|]. cbn [mean]. change (lsum _ _ / _) with (arithmetic_mean (x :: l)). destruct H as [H|H]; [discriminate|]. rewrite (proj2 (rleb_true _ _) H). reflexivity.
Qed.

(** ** Instances *)
Definition logit (p : R) : R := ln (p / (1 - p)).
Definition demo_ppf (x : num) : num :=
  match x with Fin p => if rltb p 0 then NaN else if rltb 1 p then NaN else if reqb p 0 then MInf else if reqb p 1 then PInf else Fin (logit p) | _ => NaN end.
Lemma logit_lt : forall p q, 0 < p -> p < q -> q < 1 -> logit p < logit q.
Proof.
  intros p q P L Q. unfold logit. apply ln_increasing; [apply Rdiv_lt_0_compat; lra|]. apply (Rmult_lt_reg_r (1 - p)); [lra|]. apply (Rmult_lt_reg_r (1 - q)); [lra|]. unfold Rdiv.
  replace (p * / (1 - p) * (1 - p) * (1 - q)) with (p * (1 - q)) by (field; lra). replace (q * / (1 - q) * (1 - p) * (1 - q)) with (q * (1 - p)) by (field; lra). nra.
Qed.
Lemma demo_ppf_in : forall p, 0 < p < 1 -> demo_ppf (Fin p) = Fin (logit p).
Proof. intros p H. unfold demo_ppf. rewrite (proj2 (rltb_false p 0)), (proj2 (rltb_false 1 p)), (proj2 (reqb_false p 0)), (proj2 (reqb_false p 1)) by lra. reflexivity. Qed.
Lemma demo_ppf_0 : demo_ppf (Fin 0) = MInf. Proof. unfold demo_ppf. rewrite (proj2 (rltb_false 0 0)), (proj2 (rltb_false 1 0)), (proj2 (reqb_true 0 0)) by lra. reflexivity. Qed.
Lemma demo_ppf_1 : demo_ppf (Fin 1) = PInf. Proof. unfold demo_ppf. rewrite (proj2 (rltb_false 1 0)), (proj2 (rltb_false 1 1)), (proj2 (reqb_false 1 0)), (proj2 (reqb_true 1 1)) by lra. reflexivity. Qed.
Lemma demo_ppf_ok : norm_ppf_ok demo_ppf.
Proof.
  split; [exact demo_ppf_0|]. split; [exact demo_ppf_1|]. split; [reflexivity|]. split; [rewrite demo_ppf_in by lra; f_equal; unfold logit; replace (1/2 / (1 - 1/2)) with 1 by field; apply ln_1|]. split; [|split].
  - intros p [H|H]; unfold demo_ppf; [rewrite (proj2 (rltb_true p 0)) by lra; reflexivity|]. rewrite (proj2 (rltb_false p 0)), (proj2 (rltb_true 1 p)) by lra. reflexivity.
  - intros p H. exists (logit p). apply demo_ppf_in, H.
  - intros p q P L Q. destruct P as [P|<-], Q as [Q| ->]; rewrite ?demo_ppf_0, ?demo_ppf_1, ?demo_ppf_in by lra; try reflexivity. cbn. destruct (Rlt_dec (logit p) (logit q)) as [|X]; [reflexivity|]. exfalso. apply X, logit_lt; assumption.
Qed.
(** a survival function that underflows far out in the tail *)
Definition far_out (x k : R) : bool := rleb k x && rltb 1 (chernoff_exponent x k).
Definition demo_sf (x k : R) : num := if rleb k 0 then NaN else if rleb x 0 then Fin 1 else if far_out x k then Fin 0 else Fin (1/2).
Definition demo : slib := mkSlib demo_sf (fun _ _ _ => Fin (1/4)) demo_ppf (fun _ _ => 1) (fun _ _ _ => 1) (fun _ _ => Ok 0) NaN.
Theorem slib_instance : slib_ok demo /\ underflows_far_out demo.
Proof.
  split; [|intros x k K E; cbn [demo chi2_sf] in E; unfold demo_sf in E; destruct (rleb k 0); [discriminate|]; destruct (rleb x 0); [injection E as E; lra|]; destruct (far_out x k) eqn:F; [|injection E as E; lra]; unfold far_out in F; apply andb_true_iff in F; destruct F as [_ F]; apply rltb_true in F; lra].
  split; [|split; [|split; [exact demo_ppf_ok|split; [intros g x0 f E; cbn in E; injection E as <-; lra|right; reflexivity]]]].
  - split; [|split; [|split]]; cbn [demo chi2_sf]; unfold demo_sf.
    + intros x k K. rewrite (proj2 (rleb_false k 0)) by lra. destruct (rleb x 0); [exists 1; split; [reflexivity|lra]|]. destruct (far_out x k); [exists 0|exists (1/2)]; (split; [reflexivity|lra]).
    + intros x k K. rewrite (proj2 (rleb_true k 0)) by lra. reflexivity.
    + intros x k K X. rewrite (proj2 (rleb_false k 0)), (proj2 (rleb_true x 0)) by lra. reflexivity.
    + intros x y k p q XY EP EQ. destruct (rleb k 0) eqn:K; [discriminate|]. apply rleb_false in K. destruct (rleb y 0) eqn:Y; [apply rleb_true in Y; rewrite (proj2 (rleb_true x 0)) in EP by lra; congruence + (injection EP as <-; injection EQ as <-; lra)|].
      destruct (rleb x 0); [destruct (far_out y k); injection EP as <-; injection EQ as <-; lra|]. destruct (far_out x k) eqn:FX.
      * assert (FY : far_out y k = true). { unfold far_out in *. apply andb_true_iff in FX. destruct FX as [A B]. apply rleb_true in A. apply rltb_true in B. apply andb_true_iff. split; [apply rleb_true; lra|]. apply rltb_true. pose proof (exponent_mono k x y ltac:(lra) A XY). lra. }
        rewrite FY in EQ. injection EP as <-. injection EQ as <-. lra.
      * destruct (far_out y k); injection EP as <-; injection EQ as <-; lra.
  - split; [intros; exists (1/4); split; [reflexivity|lra]|]. intros x y m s p q _ A B. cbn in A, B. injection A as <-. injection B as <-. lra.
Qed.
(** the fallback is reached with its hypotheses: one degree of freedom, chi2 = 100 *)
Example C43_case : exists z, significance_from_chi2_ndof demo 100 1 = Ok (Fin 0, Fin z) /\ 1 <= z.
Proof.
  assert (LP : ln (2 * PI) <= 8) by (pose proof (ln_le_sub1 (2 * PI) ltac:(pose proof two_pi; lra)); pose proof PI_4; lra).
  assert (L100 : ln 100 <= 8). { replace 100 with (10 * 10) by ring. rewrite ln_mult by lra. replace 10 with (2 * 5) by ring. rewrite ln_mult by lra. pose proof (ln_le_sub1 2 ltac:(lra)). replace 5 with (2 * (5/2)) by field. rewrite ln_mult by lra. pose proof (ln_le_sub1 (5/2) ltac:(lra)). lra. }
  assert (U : 1 < chernoff_exponent 100 1) by (unfold chernoff_exponent; replace (100 / 1) with 100 by field; lra).
  assert (E : chi2_sf demo 100 1 = Fin 0). { cbn [demo chi2_sf]. unfold demo_sf. rewrite (proj2 (rleb_false 1 0)), (proj2 (rleb_false 100 0)) by lra. unfold far_out. rewrite (proj2 (rleb_true 1 100)), (proj2 (rltb_true _ _) U) by lra. reflexivity. }
  destruct slib_instance as [OK _]. destruct (C43_fallback demo OK 100 1 ltac:(lra) E) as [A _]. destruct (A ltac:(lra)) as (z & H & _ & Z). exists z. auto.
Qed.

(** C42: the documented rule and independence of the orientation are refuted *)
Definition ones (r c : nat) : mat := mkMat r c (fun _ _ => 1).
Lemma matsum_const : forall r c x, matsum (mkMat r c (fun _ _ => x)) = x * (INR r * INR c).
Proof. intros r c x. unfold matsum, rowsum. cbn [nr nc el]. rewrite (lsum_ext _ _ (fun _ => x * INR c)); [|intros; rewrite lsum_const, seq_length; ring]. rewrite lsum_const, seq_length. ring. Qed.
Lemma demo_mean1 : arithmetic_mean [1] = 1. Proof. unfold arithmetic_mean, lsum. simpl. field. Qed.
Lemma demo_sf_11 : demo_sf 1 1 = Fin (1/2).
Proof.
  unfold demo_sf. rewrite !(proj2 (rleb_false 1 0)) by lra. unfold far_out. rewrite (proj2 (rltb_false _ _)); [rewrite andb_false_r; reflexivity|]. unfold chernoff_exponent. replace (1/1) with 1 by field. rewrite ln_1.
  assert (0 < ln (2 * PI)) by (rewrite <- ln_1; apply ln_increasing; [lra|apply two_pi]). lra.
Qed.
Lemma demo_high : forall m, 4 < avg_per_bin m -> fst (match hybrid_of_chi2s demo 1 m [1] with Ok r => r | Raise _ => (NaN, NaN) end) = Fin (1/2).
Proof.
  intros m H. unfold hybrid_of_chi2s. rewrite (proj2 (rleb_false _ _)) by lra. cbn [mean]. change (lsum _ _ / _) with (arithmetic_mean [1]). rewrite demo_mean1. unfold significance_from_chi2_ndof. cbn [demo chi2_sf]. rewrite demo_sf_11. cbn [neqb]. destruct (Req_EM_T (1/2) 0); [lra|]. reflexivity.
Qed.
Lemma demo_low : forall m, avg_per_bin m <= 4 -> fst (match hybrid_of_chi2s demo 1 m [1] with Ok r => r | Raise _ => (NaN, NaN) end) = Fin (1/4).
Proof.
  intros m H. unfold hybrid_of_chi2s. rewrite (proj2 (rleb_true _ _)) by lra. unfold fit_test_statistic_distribution. cbn [mean]. change (lsum _ _ / _) with (arithmetic_mean [1]). rewrite demo_mean1, (proj2 (rleb_false 1 0)) by lra. cbn [demo least_squares rbind chi2_sf norm_sf].
  rewrite demo_sf_11. cbn [nmix]. replace (0 * (1/2) + (1 - 0) * (1/4)) with (1/4) by field. cbn [neqb]. destruct (Req_EM_T (1/4) 0); [lra|]. reflexivity.
Qed.
Theorem C42_documented_rule_refuted : exists SL m chi2s p z, slib_ok SL /\ records_per_cell m <= 4 /\ hybrid_of_chi2s SL 1 m chi2s = Ok (p, z) /\
  forall f k sigma bw, fit_test_statistic_distribution SL chi2s 50 = Ok (f, k, sigma, bw) -> p <> nmix f (chi2_sf SL 1 k) (1 - f) (norm_sf SL 1 k sigma).
Proof.
  set (m := mkMat 2 2 (fun _ _ => 3)). assert (A : 4 < avg_per_bin m) by (unfold avg_per_bin, m; rewrite matsum_const; simpl; lra). pose proof (demo_high m A) as H. destruct (hybrid_of_chi2s demo 1 m [1]) as [[p z]|] eqn:E; [|discriminate]. cbn [fst] in H. subst p.
  exists demo, m, [1], (Fin (1/2)), z. split; [apply slib_instance|]. split; [unfold records_per_cell, m; rewrite matsum_const; simpl; lra|]. split; [exact E|].
  intros f k s bw F. unfold fit_test_statistic_distribution in F. cbn [mean] in F. change (lsum _ _ / _) with (arithmetic_mean [1]) in F. rewrite demo_mean1, (proj2 (rleb_false 1 0)) in F by lra. cbn [demo least_squares rbind] in F. injection F as <- <- _ _. cbn [demo chi2_sf norm_sf]. rewrite demo_sf_11. cbn [nmix]. intros X. injection X as X. lra.
Qed.
Theorem C42_depends_on_orientation : exists SL m chi2s, slib_ok SL /\ hybrid_of_chi2s SL 1 m chi2s <> hybrid_of_chi2s SL 1 (transp m) chi2s.
Proof.
  exists demo, (ones 10 2), [1]. split; [apply slib_instance|]. intros E. pose proof (demo_low (ones 10 2)) as L. pose proof (demo_high (transp (ones 10 2))) as H. rewrite E in L. rewrite L in H.
  - assert (X : Fin (1/4) = Fin (1/2)); [apply H|injection X as X; lra]. unfold avg_per_bin, ones. change (transp _) with (mkMat 2 10 (fun _ _ : nat => 1)). rewrite matsum_const. simpl. lra.
  - unfold avg_per_bin, ones. rewrite matsum_const. simpl. lra.
Qed.
(** non-vacuity of C40/C41/C45 *)
Example C41_case : fst (MC_of_chi2s demo 3 [1; 3; 2; 5]) = Fin (1/4).
Proof.
  unfold MC_of_chi2s. cbn [fst]. rewrite MC_p by discriminate. f_equal. unfold mc_p, above, equal_to. simpl.
  repeat match goal with |- context [Req_EM_T ?a ?b] => destruct (Req_EM_T a b); try (exfalso; lra) | |- context [Rlt_dec ?a ?b] => destruct (Rlt_dec a b); try (exfalso; lra) end. simpl. field.
Qed.
Definition frame45 : frame := [("a", mkCol false [CStr "p"; CStr "p"; CStr "q"; CStr "q"]); ("b", mkCol false [CStr "u"; CStr "v"; CStr "v"; CStr "v"]); ("c", mkCol false [CStr "k"; CStr "k"; CStr "k"; CStr "k"])]%string.
Example C45_case : NoDup (keys frame45) /\ exists t s', 
  fst (significance_from_rebinned_df demo Z first_cell state_int some_exp some_log (fun n => repeat 0%Z n) 0 2 true true frame45 LogLikelihood "multinominal" 10 "MC" true true true (fun _ _ => None)) 5%Z = (Ok t, s') /\ tval t "a" "c" = NaN.
Proof.
  assert (ND : NoDup (keys frame45)) by (apply mem_nodup || (repeat constructor; simpl; intuition discriminate)). split; [exact ND|].
  destruct (C45_returns demo Z first_cell state_int some_exp some_log (fun n => repeat 0%Z n) 0 2 true true frame45 LogLikelihood "multinominal" 10 "MC" true true true (fun _ _ => None) 5%Z) as (t & s' & E).
  - apply slib_instance.
  - right. split; [reflexivity|]. split; [exact first_cell_ok|]. split; [left; reflexivity|discriminate].
  - exists t, s'. split; [exact E|]. destruct (C45_layout _ _ _ _ _ _ _ _ _ _ _ _ _ _ _ _ _ _ _ _ _ _ _ ND E) as (_ & _ & _ & _ & H).
    destruct (H "a"%string _ "c"%string _ _ (ex_intro _ [] (ex_intro _ _ (conj eq_refl (or_intror (or_intror (or_introl eq_refl))))))  (clean_table true true true _ _)) as [[_ T]|[[_ P] _]]; [exact T|]. exfalso. vm_compute in P. lia.
Qed.
Print Assumptions C40_hist2d. Print Assumptions C40_sign. Print Assumptions C41_exact. Print Assumptions C41_extremes. Print Assumptions C41_monotone. Print Assumptions C41_order_free.
Print Assumptions C42_switch. Print Assumptions C42_agrees_only_one_column. Print Assumptions C42_documented_rule_refuted. Print Assumptions C42_depends_on_orientation.
Print Assumptions C43_fallback. Print Assumptions C43_monotone. Print Assumptions C44_unknown_significance_method. Print Assumptions C45_layout. Print Assumptions C45_significance_matrix. Print Assumptions C45_returns.
Print Assumptions C71_fit_result. Print Assumptions C71_histogram. Print Assumptions C71_residuals. Print Assumptions C72_transpose. Print Assumptions C72_permutation. Print Assumptions C72_empty_row_counts. Print Assumptions C73_binned_array.
