(** C111: the hybrid method, the default, from the tables to the p-value and the Z-value in binary64. *)
From Coq Require Import ZArith List Bool Reals Lia Lra Permutation.
Import ListNotations.
From Flocq Require Import Core BinarySingleNaN.
From Verif Require Import PhikMatProofs PropsStats F64 Base RSum Num StatsModel SpecStats StatsProofs LinspaceProofs BrentFModel BrentFProofs Chi2FModel SpecChi2F Chi2FProofs Chi2FProofs2 Chi2FProofs3 PropsChi2F GStatModel SpecGStat GStatProofs GStatProofs2 PropsGStat SigFModel PropsSigF MCFModel SpecMCF PropsMCF GlobFModel PropsGlobF ZTailModel SpecZTail SimFModel PropsSimF PropsChernF HybFModel SpecHybF HybFProofs.
Open Scope R_scope.

(** The comparison that selects the method is not affected by rounding: for every observed table of up to 2^46 records and 2^20 cells and
    every order of the additions, the computed comparison is that of N * (number of columns) with 4 * (number of rows) - which, as C42 says,
    is not the average number of records per bin. *)
Theorem C111_switch : forall add_up m, any_order add_up -> fit_for_mc m ->
  fle (avg_per_bin64 add_up m) (ofZ 4) = true <-> matsum (real_table m) * INR (fc m) <= 4 * INR (fr m).
Proof. exact switch_ok. Qed.
Print Assumptions C111_switch.

(** The effective number of degrees of freedom is the mean of the exact statistics up to the rounding errors. *)
Theorem C111_endof : forall add_up add_mean flog lam ms, any_order add_up -> (forall l, added l (add_mean l)) -> good_log flog -> (forall m, In m ms -> fit_for_mc m) -> (1 <= Z.of_nat (length ms) <= 2 ^ 40)%Z ->
  exists cs, sim_chi2s64 add_up flog lam ms = Ok cs /\ length cs = length ms /\ ffin (estimate_ndof64 add_mean cs) = true /\
    Rabs (f2R (estimate_ndof64 add_mean cs) - exact_endof lam ms) <= endof_tol lam ms.
Proof. exact endof_ok. Qed.
Print Assumptions C111_endof.

Section Main.
  Variable add_up : site -> list f64 -> f64.
  Variable add_mean : list f64 -> f64.
  Variables flog fppf : f64 -> f64.
  Variable fsf : f64 -> f64 -> f64.
  Variable fnsf : f64 -> f64 -> f64 -> f64.
  Variable ffit : list f64 -> f64.
  Hypothesis AO : any_order add_up.
  Hypothesis AM : forall l, added l (add_mean l).
  Hypothesis GL : good_log flog.
  Hypothesis SO : chi2_sf_ok fsf.
  Hypothesis NO : norm_sf_ok fnsf.
  Hypothesis FO : fit_ok ffit.
  Let run := hybrid_from_tables64 add_up add_mean flog fppf fsf fnsf ffit.

  Lemma hybrid_main : forall lam m ms, fit_for_mc m -> (forall m', In m' ms -> fit_for_mc m') -> (1 <= Z.of_nat (length ms) <= 2 ^ 40)%Z -> endof_tol lam ms < exact_endof lam ms ->
    exists c cs, stat64 add_up flog lam m = Ok c /\ sim_chi2s64 add_up flog lam ms = Ok cs /\ let k := estimate_ndof64 add_mean cs in let s := fsqrt k in let f := ffit cs in
      ffin c = true /\ Rabs (f2R c - exact_stat lam m) <= stat_tol lam m /\ ffin k = true /\ 0 < f2R k /\ Rabs (f2R k - exact_endof lam ms) <= endof_tol lam ms /\ f2R s = rnd (sqrt (f2R k)) /\
      exists p, ffin p = true /\ 0 <= f2R p <= 1 /\
        (matsum (real_table m) * INR (fc m) <= 4 * INR (fr m) -> Rabs (f2R p - (f2R f * f2R (fsf c k) + (1 - f2R f) * f2R (fnsf c k s))) <= b2 (-51)) /\
        (4 * INR (fr m) < matsum (real_table m) * INR (fc m) -> p = fsf c k) /\
        (f2R p <> 0 -> run lam m ms = Ok (p, fopp (fppf p))) /\
        (f2R p = 0 -> run lam m ms = rbind (chernoff64 flog c k (if Rle_dec (matsum (real_table m) * INR (fc m)) (4 * INR (fr m)) then Some f else None)) (fun z => Ok (p, z))).
  Proof.
    intros lam m ms HM HS HL HE. destruct (stat_ok add_up flog lam m AO GL HM) as (c & E & FC & EC). destruct (endof_ok add_up add_mean flog lam ms AO AM GL HS HL) as (cs & ES & _ & FK & EK).
    set (k := estimate_ndof64 add_mean cs) in *. assert (KP : 0 < f2R k) by (pose proof EK as EK'; apply Rabs_le_inv in EK'; lra). set (f := ffit cs) in *. destruct (FO cs) as [FF F1]. fold f in FF, F1.
    destruct (fsqrt_spec k FK ltac:(lra)) as [VS FS]. destruct (SO c k FC FK KP) as [SF S1].
    assert (SP : 0 < f2R (fsqrt k)).
    { rewrite VS. assert (P : 0 < b2 (-538)) by apply bpow_gt_0. apply Rlt_le_trans with (1 := P). apply rnd_lb; [apply fmt_bpow; lia|]. rewrite <- (sqrt_square (b2 (-538))) by lra. apply sqrt_le_1_alt. rewrite <- bpow_plus. change (-538 + -538)%Z with (-1076)%Z.
      apply Rle_trans with (b2 (-1074)); [apply Flocq.Core.Raux.bpow_le; lia|]. rewrite <- (Rabs_pos_eq (f2R k)) by lra. apply (abs_B2R_ge_emin 53 1024 k). destruct k as [s|s| |s mm e pf]; try discriminate; [unfold f2R, B2R in KP; lra|reflexivity]. }
    destruct (NO c k (fsqrt k) FC FK FS SP) as [NF N1]. set (low := fle (avg_per_bin64 add_up m) (ofZ 4)). pose proof (switch_ok add_up m AO HM) as SW. fold low in SW.
    destruct (C91_mixture f _ _ FF SF NF F1 S1 N1) as (MF & M1 & ME). set (p := if low then mix64 f (fsf c k) (fnsf c k (fsqrt k)) else fsf c k).
    assert (PF : ffin p = true /\ 0 <= f2R p <= 1) by (unfold p; destruct low; split; assumption). destruct PF as [PF P1].
    exists c, cs. split; [exact E|]. split; [exact ES|]. cbv zeta. fold k f. repeat (split; [assumption|]). exists p. repeat (split; [assumption|]). assert (RUN : run lam m ms = if feqb p fzero then rbind (chernoff64 flog c k (if low then Some f else None)) (fun z => Ok (p, z)) else Ok (p, fopp (fppf p))).
    { unfold run, hybrid_from_tables64. rewrite E, ES. reflexivity. }
    rewrite RUN, (zero_test p PF). split; [|split; [|split]].
    - intros X. unfold p. rewrite (proj2 SW X). exact ME.
    - intros X. unfold p. destruct low; [|reflexivity]. pose proof (proj1 SW eq_refl). lra.
    - intros X. destruct (reqb (f2R p) 0) eqn:Q; [apply reqb_true in Q; contradiction|reflexivity].
    - intros X. rewrite X. replace (reqb 0 0) with true by (symmetry; apply reqb_true; reflexivity). destruct (Rle_dec _ _) as [Y|Y]; [rewrite (proj2 SW Y); reflexivity|]. destruct low; [pose proof (proj1 SW eq_refl); contradiction|reflexivity].
  Qed.
End Main.

(** The whole computation, for every observed table and every list of 1 to 2^40 simulated tables (with an effective number of degrees of freedom
    that is not lost in the rounding): it starts from the statistic of the observed table and the mean of those of the simulated tables, both
    right up to the rounding errors; with few records the p-value is, up to 2^-51, the mixture of the two survival functions with the fitted
    fraction, otherwise it is chi2.sf itself; it is a number in [0, 1], and the Z-value is -norm.ppf of it unless it is zero, when the
    Chernoff formula (C104) is used, with the term for the fraction exactly if the mixture was. *)
Theorem C111_hybrid : forall add_up add_mean flog fppf fsf fnsf ffit lam m ms, any_order add_up -> (forall l, added l (add_mean l)) -> good_log flog ->
  chi2_sf_ok fsf -> norm_sf_ok fnsf -> fit_ok ffit ->
  fit_for_mc m -> (forall m', In m' ms -> fit_for_mc m') -> (1 <= Z.of_nat (length ms) <= 2 ^ 40)%Z -> endof_tol lam ms < exact_endof lam ms ->
    exists c cs, stat64 add_up flog lam m = Ok c /\ sim_chi2s64 add_up flog lam ms = Ok cs /\ let k := estimate_ndof64 add_mean cs in let s := fsqrt k in let f := ffit cs in
      ffin c = true /\ Rabs (f2R c - exact_stat lam m) <= stat_tol lam m /\ ffin k = true /\ 0 < f2R k /\ Rabs (f2R k - exact_endof lam ms) <= endof_tol lam ms /\ f2R s = rnd (sqrt (f2R k)) /\
      exists p, ffin p = true /\ 0 <= f2R p <= 1 /\
        (matsum (real_table m) * INR (fc m) <= 4 * INR (fr m) -> Rabs (f2R p - (f2R f * f2R (fsf c k) + (1 - f2R f) * f2R (fnsf c k s))) <= b2 (-51)) /\
        (4 * INR (fr m) < matsum (real_table m) * INR (fc m) -> p = fsf c k) /\
        (f2R p <> 0 -> hybrid_from_tables64 add_up add_mean flog fppf fsf fnsf ffit lam m ms = Ok (p, fopp (fppf p))) /\
        (f2R p = 0 -> hybrid_from_tables64 add_up add_mean flog fppf fsf fnsf ffit lam m ms = rbind (chernoff64 flog c k (if Rle_dec (matsum (real_table m) * INR (fc m)) (4 * INR (fr m)) then Some f else None)) (fun z => Ok (p, z))).
Proof. intros add_up add_mean flog fppf fsf fnsf ffit lam m ms AO AM GL SO NO FO. exact (hybrid_main add_up add_mean flog fppf fsf fnsf ffit AO AM GL SO NO FO lam m ms). Qed.
Print Assumptions C111_hybrid.

(** whatever scipy returns, the only error is ValueError (math.log or math.sqrt in the Chernoff formula, or a table without records) *)
Theorem C111_errors : forall add_up add_mean flog fppf fsf fnsf ffit lam m ms e, any_order add_up -> good_log flog ->
  (forall m', In m' (m :: ms) -> fit_for_mc m' \/ count_table64 m' /\ ~ has_records (real_table m')) ->
  (hybrid_from_tables64 add_up add_mean flog fppf fsf fnsf ffit lam m ms = Raise e -> e = ValueError) /\
  ((exists m', In m' (m :: ms) /\ ~ has_records (real_table m')) -> hybrid_from_tables64 add_up add_mean flog fppf fsf fnsf ffit lam m ms = Raise ValueError).
Proof.
  intros add_up add_mean flog fppf fsf fnsf ffit lam m ms e AO GL H. split.
  - unfold hybrid_from_tables64. assert (V : forall x e', In x (m :: ms) -> stat64 add_up flog lam x = Raise e' -> e' = ValueError).
    { intros x e' Hx. destruct (H x Hx) as [F|[CT NR]]; [destruct (stat_ok add_up flog lam x AO GL F) as (c & -> & _); discriminate|rewrite stat_raise by assumption; congruence]. }
    destruct (stat64 add_up flog lam m) as [c|e0] eqn:E; [|intros X; injection X as ->; apply (V m e (or_introl eq_refl) E)].
    destruct (sim_chi2s64 add_up flog lam ms) as [cs|e0] eqn:ES.
    + unfold hybrid64. cbv zeta. destruct (feqb _ fzero); [|discriminate]. match goal with |- rbind (chernoff64 ?l ?a ?b ?o) _ = _ -> _ => destruct (chernoff64 l a b o) as [z|e'] eqn:C end; cbn [rbind]; [discriminate|]. intros X. injection X as ->.
      destruct (C104_only_value_error flog fppf fsf c (estimate_ndof64 add_mean cs) (if fle (avg_per_bin64 add_up m) (ofZ 4) then Some (ffit cs) else None) e) as [Q _]. exact (Q C).
    + intros X. injection X as ->. assert (V' : forall x e', In x ms -> stat64 add_up flog lam x = Raise e' -> e' = ValueError) by (intros; eapply V; [right; eassumption|eassumption]). clear - ES V'. unfold sim_chi2s64, simulate_and_fit64 in ES. revert ES. induction ms as [|x ms IH]; cbn [mapM]; [discriminate|].
      destruct (stat64 add_up flog lam x) as [c|e'] eqn:E; cbn [rbind]; [|intros X; injection X as ->; apply (V' x e (or_introl eq_refl) E)]. destruct (mapM _ ms) as [cs|e'] eqn:EM; cbn [rbind]; [discriminate|]. intros X. injection X as ->. apply IH; [intros; eapply V'; [right; eassumption|eassumption]|reflexivity].
  - intros X. pose proof (C107_no_records percentile_old add_up flog lam m ms AO GL H X) as Y. unfold hybrid_from_tables64. unfold mc_from_tables64 in Y. destruct (stat64 add_up flog lam m); [|exact (f_equal (fun r => match r with Ok _ => Raise ValueError | Raise e => Raise e end) Y)]. destruct (sim_chi2s64 add_up flog lam ms); [discriminate|]. exact (f_equal (fun r => match r with Ok _ => Raise ValueError | Raise e => Raise e end) Y).
Qed.
Print Assumptions C111_errors.

(** The order of the simulations changes the effective number of degrees of freedom by rounding errors at most ... *)
Lemma mean_perm : forall f ms ms', Permutation ms ms' -> mean_of f ms = mean_of f ms'.
Proof. intros f ms ms' H. unfold mean_of. rewrite (Permutation_length H). f_equal. apply lsum_perm. exact H. Qed.
Theorem C111_order : forall add_up add_mean flog lam ms ms', any_order add_up -> (forall l, added l (add_mean l)) -> good_log flog -> (forall m, In m ms -> fit_for_mc m) -> (1 <= Z.of_nat (length ms) <= 2 ^ 40)%Z -> Permutation ms ms' ->
  exists cs cs', sim_chi2s64 add_up flog lam ms = Ok cs /\ sim_chi2s64 add_up flog lam ms' = Ok cs' /\ Rabs (f2R (estimate_ndof64 add_mean cs) - f2R (estimate_ndof64 add_mean cs')) <= 2 * endof_tol lam ms.
Proof.
  intros add_up add_mean flog lam ms ms' AO AM GL HS HL HP. destruct (endof_ok add_up add_mean flog lam ms AO AM GL HS HL) as (cs & E & _ & _ & B).
  destruct (endof_ok add_up add_mean flog lam ms' AO AM GL) as (cs' & E' & _ & _ & B'); [intros m Hm; apply HS; apply (Permutation_in m (Permutation_sym HP)); exact Hm|rewrite <- (Permutation_length HP); exact HL|].
  exists cs, cs'. split; [exact E|]. split; [exact E'|]. unfold exact_endof, endof_tol in B'. rewrite <- !(mean_perm _ ms ms' HP), <- (Permutation_length HP) in B'. fold (exact_endof lam ms) in B'. fold (endof_tol lam ms) in B'. apply Rabs_le_inv in B. apply Rabs_le_inv in B'. apply Rabs_le. lra.
Qed.
Print Assumptions C111_order.
(** ... but it does change it, unlike the p-value of the MC method (C107): three 2x3 tables of 14, 13 and 18 records, added up in two orders *)
Definition sim_a : fmat := ftab [[4; 1; 3]; [2; 3; 1]]%Z 3.
Definition sim_b : fmat := ftab [[2; 3; 3]; [1; 2; 2]]%Z 3.
Definition sim_c : fmat := ftab [[3; 2; 3]; [3; 4; 3]]%Z 3.
Theorem C111_order_refuted : forall flog, exists cs cs', sim_chi2s64 ltr flog Pearson [sim_a; sim_b; sim_c] = Ok cs /\ sim_chi2s64 ltr flog Pearson [sim_c; sim_b; sim_a] = Ok cs' /\
  feqb (estimate_ndof64 left_to_right cs) (estimate_ndof64 left_to_right cs') = false.
Proof.
  intros flog. unfold sim_chi2s64, simulate_and_fit64. cbn [mapM stat64]. destruct (get_chi2_64 ltr sim_a) as [a|] eqn:A; [|exfalso; assert (X : match get_chi2_64 ltr sim_a with Ok _ => true | Raise _ => false end = true) by (vm_compute; reflexivity); rewrite A in X; discriminate].
  destruct (get_chi2_64 ltr sim_b) as [b|] eqn:B; [|exfalso; assert (X : match get_chi2_64 ltr sim_b with Ok _ => true | Raise _ => false end = true) by (vm_compute; reflexivity); rewrite B in X; discriminate].
  destruct (get_chi2_64 ltr sim_c) as [c|] eqn:C; [|exfalso; assert (X : match get_chi2_64 ltr sim_c with Ok _ => true | Raise _ => false end = true) by (vm_compute; reflexivity); rewrite C in X; discriminate].
  cbn [rbind]. exists [a; b; c], [c; b; a]. split; [reflexivity|]. split; [reflexivity|].
  assert (X : feqb (estimate_ndof64 left_to_right [chi_of sim_a; chi_of sim_b; chi_of sim_c]) (estimate_ndof64 left_to_right [chi_of sim_c; chi_of sim_b; chi_of sim_a]) = false) by (vm_compute; reflexivity).
  unfold chi_of in X. rewrite A, B, C in X. exact X.
Qed.
Print Assumptions C111_order_refuted.

(** If every simulated table is exactly independent - always so when the observed table has a single row or column - the effective number of
    degrees of freedom is exactly zero, and the p-value is what chi2.sf returns for zero degrees of freedom (in scipy: NaN). *)
Theorem C111_degenerate : forall add_up add_mean flog lam ms, any_order add_up -> (forall l, added l (add_mean l)) -> good_log flog -> (1 <= Z.of_nat (length ms) <= 2 ^ 40)%Z ->
  (forall m, In m ms -> fit_for_mc m /\ independent_table (real_table m) /\ matsum (real_table m) <= 94906265) ->
  exists cs, sim_chi2s64 add_up flog lam ms = Ok cs /\ ffin (estimate_ndof64 add_mean cs) = true /\ f2R (estimate_ndof64 add_mean cs) = 0.
Proof.
  intros add_up add_mean flog lam ms AO AM GL HL H.
  assert (X : exists cs, sim_chi2s64 add_up flog lam ms = Ok cs /\ length cs = length ms /\ forall c, In c cs -> ffin c = true /\ f2R c = 0).
  { clear HL. unfold sim_chi2s64, simulate_and_fit64. induction ms as [|m ms IH]; [exists []; split; [reflexivity|]; split; [reflexivity|intros c []]|]. destruct IH as (cs & E & L & Z); [intros; apply H; right; assumption|].
    destruct (H m (or_introl eq_refl)) as ((CT & HR & MS & MK) & IT & B). cbn [nr nc real_table] in MK.
    assert (Y : exists c, stat64 add_up flog lam m = Ok c /\ ffin c = true /\ f2R c = 0) by (destruct lam; [apply C88_independent|apply C102_independent]; assumption).
    destruct Y as (c & EC & FC & VC). exists (c :: cs). cbn [mapM]. rewrite EC. cbn [rbind]. rewrite E. cbn [rbind length]. split; [reflexivity|]. split; [congruence|]. intros d [<- | Hd]; [split; assumption|apply Z; exact Hd]. }
  destruct X as (cs & E & L & Z). exists cs. split; [exact E|]. assert (SA : lsum (fun x => Rabs (f2R x)) cs = 0) by (apply lsum_0; intros x Hx; rewrite (proj2 (Z x Hx)); apply Rabs_R0). assert (SS : lsum f2R cs = 0) by (apply lsum_0; intros x Hx; apply (Z x Hx)).
  destruct (added_signed cs (add_mean cs) (AM cs)) as [FS ER]; [intros x Hx; apply (Z x Hx)| |rewrite SA; apply bpow_ge_0|].
  - rewrite L, INR_IZR_INZ. assert (IZR (Z.of_nat (length ms)) <= 1099511627776) by (apply IZR_le; lia). unfold u53. lra.
  - rewrite SA, SS, Rmult_0_r, Rminus_0_r in ER. assert (S0 : f2R (add_mean cs) = 0) by (destruct (Req_dec (f2R (add_mean cs)) 0) as [Q|Q]; [exact Q|pose proof (Rabs_pos_lt _ Q); lra]).
    destruct (ofZ_spec (Z.of_nat (length cs)) ltac:(rewrite L; lia)) as [VN FN]. assert (N1 : 1 <= IZR (Z.of_nat (length cs))) by (apply IZR_le; lia).
    destruct (fdiv_spec (add_mean cs) (ofZ (Z.of_nat (length cs))) 0 FS ltac:(rewrite VN; lra) ltac:(lia)) as [VD FD]; [rewrite S0; unfold Rdiv; rewrite Rmult_0_l, Rabs_R0; apply bpow_ge_0|]. unfold estimate_ndof64. split; [exact FD|]. rewrite VD, S0. unfold Rdiv. rewrite Rmult_0_l. apply rnd_0.
Qed.
Print Assumptions C111_degenerate.

(** The hypotheses are met: simulated tables with statistic 3 (C107), both branches of the switch, a fit, survival functions *)
Example C111_hypotheses_met : fit_for_mc tie_a /\ endof_tol Pearson [tie_a; tie_a] < exact_endof Pearson [tie_a; tie_a] /\ matsum (real_table tie_a) * INR (fc tie_a) > 4 * INR (fr tie_a) /\
  matsum (real_table (ftransp tie_a)) * INR (fc (ftransp tie_a)) <= 4 * INR (fr (ftransp tie_a)) /\ chi2_sf_ok (fun _ _ => fone) /\ norm_sf_ok (fun _ _ _ => fone) /\ fit_ok (fun _ => fone).
Proof.
  pose proof tie_a_fit as TF. split; [exact TF|]. destruct TF as (CT & HR & MS & MK). destruct fone_val as [OV OF].
  assert (MT : matsum (real_table tie_a) = 3). { destruct (ftab_ok [[1; 0; 0]; [0; 1; 1]]%Z 3) as [_ ME]; try reflexivity. fold tie_a in ME. rewrite (matsum_eq _ _ ME). unfold matsum, rowsum, lsum, tab. cbn [nr nc el length seq fold_right nth]. lra. }
  split; [|split; [|split; [|split; [|split]]]].
  - unfold endof_tol, exact_endof, mean_of. rewrite !lsum_cons, !lsum_nil. unfold stat_tol, chi2_tol. rewrite tie_three, MT. cbn [nr nc real_table tie_a ftab fr fc length Nat.mul Nat.add]. unfold u53. simpl. lra.
  - rewrite MT. cbn [fr fc tie_a ftab length]. simpl. lra.
  - change (real_table (ftransp tie_a)) with (transp (real_table tie_a)). rewrite matsum_transp, MT. cbn [fr fc ftransp tie_a ftab length]. simpl. lra.
  - intros x k _ _ _. split; [exact OF|lra].
  - intros x k s _ _ _ _. split; [exact OF|lra].
  - intros l. split; [exact OF|lra].
Qed.
