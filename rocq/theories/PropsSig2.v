(** C40, C41, C43, C71: the values themselves.  C73: raw arrays. *)
From Coq Require Import String ZArith List Bool Reals Lra Lia Sorting.Permutation.
From Flocq Require Import Core.
Import ListNotations.
From Verif Require Import F64 Base Cells BinModel HistModel SpecHist HistProofs RSum StatsModel SpecStats StatsProofs PropsStats BivModel Num PhikModel SpecPhik PhikMatProofs PropsPhik ArrayModel BinDataProofs
  SpecRcont RcontModel SimModel SpecSim SimProofs PropsSim SigModel SpecSig SigProofs PropsSig PropsPhik2.
Open Scope list_scope.
Open Scope R_scope.

(** the Z-value that belongs to p: minus the normal quantile, and at p = 0 the root of u - ln u for the Chernoff bound [u] *)
Definition z_value_of (SL : slib) (p : num) (u : R) (z : num) : Prop :=
  (p <> Fin 0 /\ z = nneg (norm_ppf SL p)) \/ (p = Fin 0 /\ 0 < u /\ z = Fin (sqrt (u - ln u))).

Lemma Ok_inj : forall A (a b : A), Ok a = Ok b -> a = b. Proof. intros A a b H. congruence. Qed.

Section Val.
  Variable SL : slib.
  Hypothesis OK : slib_ok SL.

  Lemma ndof_value : forall c k p z, significance_from_chi2_ndof SL c k = Ok (p, z) -> p = chi2_sf SL c k /\ z_value_of SL p (chernoff_exponent c k) z.
  Proof.
    intros c k p z H. destruct (neqb (chi2_sf SL c k) (Fin 0)) eqn:E.
    - apply neqb_zero in E. assert (OK' := OK). destruct OK' as ((_ & SN & _) & _). destruct (Rlt_dec 0 k) as [K|K]; [|rewrite SN in E by lra; discriminate].
      destruct (C43_fallback SL OK c k K E) as [A B]. destruct (Rlt_dec 0 (chernoff_exponent c k)) as [U|U]; [|rewrite B in H by lra; discriminate].
      destruct (A U) as (w & A' & W & _). rewrite A' in H. apply Ok_inj in H. assert (p = Fin 0) by congruence. assert (z = Fin w) by congruence. subst p z. split; [congruence|]. right. rewrite <- W. auto.
    - unfold significance_from_chi2_ndof in H. rewrite E in H. apply Ok_inj in H. assert (p = chi2_sf SL c k) by congruence. subst p. split; [reflexivity|]. left. split; [|congruence].
      intros C. apply neqb_zero in C. congruence.
  Qed.

  (** C43 for the hybrid method in its low-statistics form *)
  Theorem C43_hybrid_fallback : forall chi2 m chi2s f k sigma bw, matsum m * INR (nc m) <= 4 * INR (nr m) -> (1 <= nr m)%nat ->
    fit_test_statistic_distribution SL chi2s 50 = Ok (f, k, sigma, bw) ->
    nmix f (chi2_sf SL chi2 k) (1 - f) (norm_sf SL chi2 k sigma) = Fin 0 -> 0 < chi2 ->
    let u := chernoff_exponent chi2 k - 2 * ln f in
    (0 < f -> 0 < u -> hybrid_of_chi2s SL chi2 m chi2s = Ok (Fin 0, Fin (sqrt (u - ln u)))) /\
    (f = 0 \/ u <= 0 -> hybrid_of_chi2s SL chi2 m chi2s = Raise ValueError).
  Proof.
    intros c m l f k s bw LOW R1 F Z C u. assert (RP : 0 < INR (nr m)) by (apply INR_pos; lia). pose proof (fit_spec SL OK _ _ _ _ _ _ F) as (NE & EK & KP & -> & F0 & F1).
    assert (AV : rleb (avg_per_bin m) 4 = true).
    { apply rleb_true. unfold avg_per_bin. replace (matsum m / INR (nr m) * INR (nc m)) with (matsum m * INR (nc m) / INR (nr m)) by (field; lra).
      apply (Rmult_le_reg_r (INR (nr m))); [lra|]. unfold Rdiv. rewrite Rmult_assoc, Rinv_l by lra. lra. }
    assert (CK : mlog (c / k) = Ok (ln (c / k))) by (unfold mlog; rewrite (proj2 (rleb_false _ _)); [reflexivity|apply Rdiv_lt_0_compat; assumption]).
    unfold hybrid_of_chi2s. rewrite AV, F. cbn [rbind]. rewrite Z, (proj2 (neqb_zero _) eq_refl), CK. cbn [rbind]. split.
    - intros FP U. unfold mlog at 1. rewrite (proj2 (rleb_false _ _)) by lra. cbn [rbind]. rewrite chernoff_ok by assumption.
      replace (chernoff_exponent c k + - (2 * ln f)) with u by (unfold u; ring). rewrite (proj2 (rltb_true _ _) U). reflexivity.
    - intros H. unfold mlog at 1. destruct (rleb f 0) eqn:E; [reflexivity|]. apply rleb_false in E. cbn [rbind]. destruct H as [H|H]; [lra|]. rewrite chernoff_ok by assumption.
      replace (chernoff_exponent c k + - (2 * ln f)) with u by (unfold u; ring). rewrite (proj2 (rltb_false _ _)) by lra. reflexivity.
  Qed.

  Lemma hybrid_value : forall c m l p z, (1 <= nr m)%nat -> l <> [] -> hybrid_of_chi2s SL c m l = Ok (p, z) ->
    (4 * INR (nr m) < matsum m * INR (nc m) -> p = chi2_sf SL c (arithmetic_mean l) /\ z_value_of SL p (chernoff_exponent c (arithmetic_mean l)) z) /\
    (matsum m * INR (nc m) <= 4 * INR (nr m) -> exists f bw, fit_test_statistic_distribution SL l 50 = Ok (f, arithmetic_mean l, sqrt (arithmetic_mean l), bw) /\
      p = nmix f (chi2_sf SL c (arithmetic_mean l)) (1 - f) (norm_sf SL c (arithmetic_mean l) (sqrt (arithmetic_mean l))) /\
      z_value_of SL p (chernoff_exponent c (arithmetic_mean l) - 2 * ln f) z).
  Proof.
    intros c m l p z R1 NE H. assert (RP : 0 < INR (nr m)) by (apply INR_pos; lia).
    assert (AV : avg_per_bin m <= 4 <-> matsum m * INR (nc m) <= 4 * INR (nr m)).
    { unfold avg_per_bin. replace (matsum m / INR (nr m) * INR (nc m)) with (matsum m * INR (nc m) / INR (nr m)) by (field; lra). split; intros X.
      - apply (Rmult_le_compat_r (INR (nr m))) in X; [|lra]. unfold Rdiv in X. rewrite Rmult_assoc, Rinv_l in X by lra. lra.
      - apply (Rmult_le_reg_r (INR (nr m))); [lra|]. unfold Rdiv. rewrite Rmult_assoc, Rinv_l by lra. lra. }
    assert (OK' := OK). destruct OK' as ((SP & SN & S1 & _) & (NP & _) & _).
    split; intros D.
    - unfold hybrid_of_chi2s in H. rewrite (proj2 (rleb_false _ _)) in H by (apply Rnot_le_lt; intros X; apply AV in X; lra).
      destruct l as [|x l]; [congruence|]. cbn [mean] in H. apply ndof_value in H. exact H.
    - assert (HH := H). unfold hybrid_of_chi2s in H. rewrite (proj2 (rleb_true _ _) (proj2 AV D)) in H.
      destruct (fit_test_statistic_distribution SL l 50) as [[[[f k] s] bw]|] eqn:F; [cbn [rbind] in H|discriminate]. pose proof (fit_spec SL OK _ _ _ _ _ _ F) as (_ & EK & KP & ES & F0 & F1). subst s. rewrite EK in *. set (k' := arithmetic_mean l) in *.
      exists f, bw. split; [reflexivity|]. set (q := nmix f (chi2_sf SL c k') (1 - f) (norm_sf SL c k' (sqrt k'))) in *.
      destruct (neqb q (Fin 0)) eqn:E.
      + apply neqb_zero in E. assert (PQ : p = q) by (destruct (mlog (c / k')); [cbn [rbind] in H|discriminate]; destruct (mlog f); [cbn [rbind] in H|discriminate]; destruct (chernoff _ _ _); [cbn [rbind] in H|discriminate]; congruence).
        split; [exact PQ|]. destruct (SP c k' KP) as (a & EA & A). destruct (NP c k' (sqrt k') (sqrt_lt_R0 k' KP)) as (b & EB & B).
        assert (FP : 0 < f). { destruct (mlog (c / k')); [cbn [rbind] in H|discriminate]. destruct (mlog f) eqn:MF; [|discriminate]. unfold mlog in MF. destruct (rleb f 0) eqn:RF; [discriminate|]. apply rleb_false in RF. exact RF. }
        assert (AZ : a = 0) by (unfold q in E; rewrite EA, EB in E; cbn [nmix] in E; injection E as E; nra).
        assert (C : 0 < c). { destruct (Rlt_dec 0 c) as [X|X]; [exact X|]. rewrite S1 in EA by lra. injection EA as EA. lra. }
        assert (QZ : nmix f (chi2_sf SL c k') (1 - f) (norm_sf SL c k' (sqrt k')) = Fin 0) by exact E.
        destruct (C43_hybrid_fallback c m l f k' (sqrt k') bw D R1 F QZ C) as [X1 X2]. destruct (Rlt_dec 0 (chernoff_exponent c k' - 2 * ln f)) as [U|U].
        * rewrite (X1 FP U) in HH. apply Ok_inj in HH. right. split; [congruence|]. split; [exact U|]. congruence.
        * rewrite X2 in HH by (right; lra). discriminate.
      + apply Ok_inj in H. assert (p = q) by congruence. subst p. split; [reflexivity|]. left. split; [intros C; apply neqb_zero in C; congruence|congruence].
  Qed.
End Val.

Section Sim.
  Variable SL : slib.
  Variable St : Type.
  Variable multinomial : Z -> list R -> St -> res (list Z) * St.
  Variable randint : Z -> Z -> St -> Z * St.
  Variables (libm_exp libm_log : f64 -> f64) (uninit : nat -> list Z) (ib0 : Z) (fuel : nat) (cpp clamp : bool).
  Notation from_hist2d := (significance_from_hist2d SL St multinomial randint libm_exp libm_log uninit ib0 fuel cpp clamp).
  Notation sim := (sim_chi2_distribution St multinomial randint libm_exp libm_log uninit ib0 fuel cpp clamp).

  (** C40, C41, C42: the p-value and Z-value of a contingency table, method by method.  The simulations use the expected
      (dependent-frequency) table of the null hypothesis: [sim ... false]. *)
  Theorem C40_value : forall m nsim l simm sigm w s p z s', slib_ok SL -> proper_shape m -> from_hist2d m nsim l simm sigm w s = (Ok (p, z), s') ->
    exists c, get_chi2 clamp m l = Ok c /\
    (sigm = "asymptotic"%string -> s' = s /\
       let ndof := (INR (nr m) - 1) * (INR (nc m) - 1) in p = chi2_sf SL c ndof /\ z_value_of SL p (chernoff_exponent c ndof) z) /\
    (sigm = "MC"%string -> exists chi2s, sim m nsim l simm false w s = (Ok chi2s, s') /\ z = nneg (norm_ppf SL p) /\
       (chi2s <> [] -> p = Fin (if Nat.eqb (equal_to c chi2s) 0 then INR (above c chi2s) / INR (length chi2s)
                                else (INR (above c chi2s) + (INR (equal_to c chi2s) - 1) / 2) / INR (length chi2s)))) /\
    (sigm = "hybrid"%string -> exists chi2s, sim m nsim l simm false w s = (Ok chi2s, s') /\ (chi2s <> [] ->
       let k := arithmetic_mean chi2s in
       (4 * INR (nr m) < matsum m * INR (nc m) -> p = chi2_sf SL c k /\ z_value_of SL p (chernoff_exponent c k) z) /\
       (matsum m * INR (nc m) <= 4 * INR (nr m) -> exists f bw, fit_test_statistic_distribution SL chi2s 50 = Ok (f, k, sqrt k, bw) /\
          p = nmix f (chi2_sf SL c k) (1 - f) (norm_sf SL c k (sqrt k)) /\ z_value_of SL p (chernoff_exponent c k - 2 * ln f) z))).
  Proof.
    intros m nsim l simm sigm w s p z s' OK PS H. unfold significance_from_hist2d, mbind, lift in H. destruct (get_chi2 clamp m l) as [c|]; [|discriminate]. exists c. split; [reflexivity|].
    destruct PS as [R1 C1].
    destruct (String.eqb_spec sigm "asymptotic") as [->|N1].
    { split; [intros _|split; discriminate]. unfold significance_from_chi2_asymptotic in H. assert (EV : s' = s) by congruence. split; [exact EV|].
      assert (E : significance_from_chi2_ndof SL c (IZR (theoretical_ndof m)) = Ok (p, z)) by congruence. apply (ndof_value SL OK) in E.
      assert (ND : IZR (theoretical_ndof m) = (INR (nr m) - 1) * (INR (nc m) - 1)).
      { unfold theoretical_ndof. rewrite !INR_IZR_INZ, <- !minus_IZR, <- mult_IZR. f_equal; try lia. }
      rewrite ND in E. exact E. }
    split; [intros C; contradiction|].
    destruct (String.eqb_spec sigm "MC") as [->|N2].
    { split; [intros _|discriminate]. unfold significance_from_chi2_MC, get_chi2s, mbind, ret in H. destruct (sim m nsim l simm false w s) as [[chi2s|] s1] eqn:E; [|discriminate].
      exists chi2s. assert (E1 : s1 = s') by congruence. subst s1. split; [reflexivity|]. assert (E2 : MC_of_chi2s SL c chi2s = (p, z)) by congruence. unfold MC_of_chi2s in E2.
      assert (EP : p = one_minus_percent (percentileofscore SL chi2s c)) by congruence. split; [congruence|]. intros NE. rewrite EP, MC_p by exact NE. unfold mc_p. destruct (Nat.eqb (equal_to c chi2s) 0); reflexivity. }
    split; [intros C; contradiction|].
    destruct (String.eqb_spec sigm "hybrid") as [->|N3]; [|discriminate]. intros _.
    unfold significance_from_chi2_hybrid, get_chi2s, mbind, lift in H. destruct (sim m nsim l simm false w s) as [[chi2s|] s1] eqn:E; [|discriminate].
    exists chi2s. assert (E1 : s1 = s') by congruence. subst s1. split; [reflexivity|]. intros NE. apply (hybrid_value SL OK c m chi2s p z ltac:(lia) NE). congruence.
  Qed.

  (** C73: raw arrays; without numeric variables the arrays are used as they are *)
  Notation binned_array := (significance_from_binned_array SL St multinomial randint libm_exp libm_log uninit ib0 fuel cpp clamp).
  Notation from_array := (significance_from_array SL St multinomial randint libm_exp libm_log uninit ib0 fuel cpp clamp).
  Theorem C73_from_array : forall npq str x y num_vars bins q l nsim sigm simm d u o w s,
    let xn := match a_name x with Some s => s | None => "x"%string end in let yn := match a_name y with Some s => s | None => "y"%string end in
    (num_vars = [] -> from_array npq str x y num_vars bins q l nsim sigm simm d u o w s = binned_array str (a_cells x) (a_cells y) l sigm nsim simm d u o w s) /\
    (num_vars <> [] -> match bin_data npq (array_like_to_dataframe str x y) num_vars bins q with
       | Raise e => from_array npq str x y num_vars bins q l nsim sigm simm d u o w s = (Raise e, s)
       | Ok (f, _) => exists bx by', f = [(xn, bx); (yn, by')] /\
          from_array npq str x y num_vars bins q l nsim sigm simm d u o w s = binned_array str (c_cells bx) (c_cells by') l sigm nsim simm d u o w s
       end).
  Proof.
    intros npq str x y nv bins q l nsim sigm simm d u o w s xn yn. unfold significance_from_array. split; [intros ->; reflexivity|]. intros NE. destruct nv as [|v nv]; [congruence|].
    destruct (C35_array_frame str x y) as (cx & cy & EF & _). fold xn yn in EF. rewrite EF. unfold mbind, lift.
    destruct (bin_data npq _ (v :: nv) bins q) as [[f dict]|e] eqn:E; [|reflexivity]. cbn [fst].
    apply BinDataProofs.bin_data_spec in E. destruct E as (K & _). cbn [keys map fst] in K. destruct f as [|[a bx] [|[b by'] [|]]]; try discriminate. cbn in K. injection K as -> ->.
    exists bx, by'. split; reflexivity.
  Qed.
End Sim.
Print Assumptions C43_hybrid_fallback.
Print Assumptions C40_value.
Print Assumptions C73_from_array.

(** ** C71: what the fit minimises *)
Definition poisson_pmf (mu : R) (y : nat) : R := exp (- mu) * mu ^ y / INR (fact y).
(** the range of the histogram: smallest and largest value, or half a unit around a single value *)
Definition histogram_range (l : list R) (a b : R) : Prop :=
  (In a l /\ In b l /\ a < b /\ forall x, In x l -> a <= x <= b) \/ (l <> [] /\ exists c, (forall x, In x l -> x = c) /\ a = c - 1/2 /\ b = c + 1/2).
(** number of values in bin [lo, hi), the last bin being [lo, hi] *)
Definition count_bin (last : bool) (lo hi : R) (l : list R) : nat :=
  length (filter (fun x => if Rle_dec lo x then (if Rlt_dec x hi then true else if last then (if Req_EM_T x hi then true else false) else false) else false) l).

Lemma residual_pmf : forall mu y, 0 < mu -> exists r, residual mu y = Fin r /\ 0 <= r /\ r * r = - ln (poisson_pmf mu y).
Proof.
  intros mu y M. assert (FP : 0 < INR (fact y)) by (apply lt_0_INR, lt_O_fact). assert (PP : 0 < mu ^ y) by (apply pow_lt, M).
  assert (E : - ln (poisson_pmf mu y) = mu - INR y * ln mu + ln (INR (fact y))).
  { unfold poisson_pmf. rewrite ln_quot, ln_mult, ln_exp, ln_power by (try apply Rmult_lt_0_compat; try apply exp_pos; assumption). ring. }
  pose proof (poisson_nonneg y mu M) as N. rewrite E. unfold residual. rewrite (proj2 (rltb_false mu 0)) by lra. rewrite (proj2 (reqb_false mu 0)) by lra.
  destruct (Nat.eqb_spec y 0) as [->|Y].
  - eexists. split; [reflexivity|]. split; [apply sqrt_pos|]. rewrite sqrt_sqrt by lra. simpl. rewrite ln_1. ring.
  - rewrite (proj2 (rltb_false _ _)) by lra. eexists. split; [reflexivity|]. split; [apply sqrt_pos|]. apply sqrt_sqrt. exact N.
Qed.
Lemma fold_min_in : forall l a, In (fold_left Rmin l a) (a :: l).
Proof. induction l as [|b l IH]; intros a; cbn [fold_left]; [left; reflexivity|]. destruct (IH (Rmin a b)) as [H|H]; [|right; right; exact H]. rewrite <- H. unfold Rmin. destruct (Rle_dec a b); [left|right; left]; reflexivity. Qed.
Lemma fold_max_in : forall l a, In (fold_left Rmax l a) (a :: l).
Proof. induction l as [|b l IH]; intros a; cbn [fold_left]; [left; reflexivity|]. destruct (IH (Rmax a b)) as [H|H]; [|right; right; exact H]. rewrite <- H. unfold Rmax. destruct (Rle_dec a b); [right; left|left]; reflexivity. Qed.
Lemma hrange_range : forall l, l <> [] -> histogram_range l (fst (hrange l)) (snd (hrange l)).
Proof.
  intros l NE. unfold hrange. assert (I1 : In (lmin l) l) by (destruct l; [congruence|apply fold_min_in]). assert (I2 : In (lmax l) l) by (destruct l; [congruence|apply fold_max_in]).
  destruct (reqb (lmin l) (lmax l)) eqn:E; cbn [fst snd].
  - apply reqb_true in E. right. split; [exact NE|]. exists (lmin l). split; [|split; [reflexivity|rewrite E; reflexivity]].
    intros x Hx. pose proof (lmin_le l x Hx). pose proof (lmax_ge l x Hx). lra.
  - apply reqb_false in E. left. split; [exact I1|]. split; [exact I2|]. split; [pose proof (lmax_ge l _ I1); lra|]. intros x Hx. split; [apply lmin_le|apply lmax_ge]; exact Hx.
Qed.

Theorem C71_objective : forall SL chi2s n f k sigma bw, (0 < n)%nat -> fit_test_statistic_distribution SL chi2s n = Ok (f, k, sigma, bw) ->
  exists a b residuals, histogram_range chi2s a b /\ bw = (b - a) / INR n /\ sigma = sqrt k /\
    least_squares SL residuals 1 = Ok f /\
    forall g, length (residuals g) = n /\ forall i, (i < n)%nat ->
      let x := a + (INR i + 1/2) * bw in
      let mu := INR (length chi2s) * bw * (g * chi2_pdf SL x k + (1 - g) * norm_pdf SL x k sigma) in
      let y := count_bin (Nat.eqb (S i) n) (a + INR i * bw) (a + INR (S i) * bw) chi2s in
      0 < mu -> exists r, nth i (residuals g) NaN = Fin r /\ 0 <= r /\ r * r = - ln (poisson_pmf mu y).
Proof.
  intros SL l n f k s bw N H. unfold fit_test_statistic_distribution in H. destruct l as [|x0 l0] eqn:EL; [discriminate|]. rewrite <- EL in *. assert (NE : l <> []) by (rewrite EL; discriminate). clear EL.
  destruct (mean l) as [|k0| |]; try discriminate. destruct (rleb k0 0) eqn:K0; [discriminate|].
  match type of H with rbind (least_squares SL ?G 1) _ = _ => set (res := G) in H; destruct (least_squares SL res 1) as [f0|] eqn:LS; [cbn [rbind] in H|discriminate] end.
  apply Ok_inj in H. assert (EF : f0 = f) by congruence. assert (EK : k0 = k) by congruence. assert (ES : s = sqrt k0) by congruence. assert (EB : bw = hbound l n 1 - hbound l n 0) by congruence. clear H. subst f0 k0 s.
  assert (NP : 0 < INR n) by (apply INR_pos; exact N).
  exists (fst (hrange l)), (snd (hrange l)), res. split; [apply hrange_range; exact NE|].
  set (a := fst (hrange l)) in *. set (b := snd (hrange l)) in *.
  assert (HB : forall i, hbound l n i = a + INR i * ((b - a) / INR n)) by (intros i; unfold hbound, a, b; destruct (hrange l); reflexivity).
  assert (EW : bw = (b - a) / INR n) by (rewrite EB, !HB; simpl; ring). split; [exact EW|]. split; [reflexivity|]. split; [exact LS|].
  intros g. unfold res. rewrite map_length, combine_length, map_length, seq_length. unfold hcounts at 1. rewrite map_length, seq_length, Nat.min_id. split; [reflexivity|].
  intros i Hi. set (x := a + (INR i + 1 / 2) * bw). set (mu := INR (length l) * bw * (g * chi2_pdf SL x k + (1 - g) * norm_pdf SL x k (sqrt k))). set (y := count_bin (S i =? n)%nat (a + INR i * bw) (a + INR (S i) * bw) l). intros M.
  match goal with |- context [map ?F ?L] => assert (EN : nth i (map F L) NaN = residual mu y) end.
  { rewrite nth_indep with (d' := residual (hfunc SL (fst (0, 0%nat)) (INR (length l) * (hbound l n 1 - hbound l n 0)) g k (sqrt k)) (snd (0, 0%nat))) by (rewrite map_length, combine_length, map_length, seq_length; unfold hcounts; rewrite map_length, seq_length, Nat.min_id; exact Hi).
    match goal with |- nth i (map ?F ?L) (residual (hfunc SL (fst ?D) _ _ _ _) (snd ?D)) = _ => rewrite (map_nth F L D i) end.
    rewrite combine_nth by (unfold hcounts; rewrite !map_length, !seq_length; reflexivity). cbn [fst snd]. f_equal.
    - unfold hfunc, mu. rewrite <- EB. f_equal. rewrite nth_indep with (d' := (fun i => hbound l n i + (hbound l n (S i) - hbound l n i) / 2) 0%nat) by (rewrite map_length, seq_length; exact Hi).
      rewrite (map_nth (fun i => hbound l n i + (hbound l n (S i) - hbound l n i) / 2)), seq_nth by exact Hi. cbn [plus].
      assert (EX : hbound l n i + (hbound l n (S i) - hbound l n i) / 2 = x) by (unfold x; rewrite !HB, S_INR, EW; field; lra). rewrite EX. reflexivity.
    - unfold hcounts. rewrite nth_indep with (d' := (fun i => length (filter (in_hbin l n i) l)) 0%nat) by (rewrite map_length, seq_length; exact Hi).
      rewrite (map_nth (fun i => length (filter (in_hbin l n i) l))), seq_nth by exact Hi. cbn [plus]. unfold y, count_bin. f_equal. apply filter_ext. intros v. unfold in_hbin. rewrite !HB, <- EW. unfold rleb, rltb.
      destruct (Rle_dec (a + INR i * bw) v); cbn [andb]; [|reflexivity]. destruct (Rlt_dec v (a + INR (S i) * bw)); cbn [orb]; [reflexivity|]. destruct (Nat.eqb (S i) n); cbn [andb]; [|reflexivity].
      destruct (Rle_dec v (a + INR (S i) * bw)), (Req_EM_T v (a + INR (S i) * bw)); try reflexivity; lra. }
  cbv beta in EN |- *. rewrite EN. apply residual_pmf, M.
Qed.
Print Assumptions C71_objective.
Example C71_objective_case : exists f k sigma bw, fit_test_statistic_distribution demo [1] 50 = Ok (f, k, sigma, bw) /\ (forall x g, 0 < INR 1 * 1 * (g * chi2_pdf demo x k + (1 - g) * norm_pdf demo x k sigma)).
Proof.
  unfold fit_test_statistic_distribution. cbn [mean]. change (lsum _ _ / _) with (arithmetic_mean [1]). rewrite demo_mean1, (proj2 (rleb_false 1 0)) by lra. cbn [demo least_squares rbind].
  eexists _, _, _, _. split; [reflexivity|]. intros x g. cbn. lra.
Qed.
