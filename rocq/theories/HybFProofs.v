(** Rounding errors of the low-statistics switch and of the effective number of degrees of freedom (C111). *)
From Coq Require Import ZArith List Bool Reals Lia Lra Permutation.
Import ListNotations.
From Flocq Require Import Core BinarySingleNaN Relative.
From Verif Require Import PhikMatProofs PropsStats F64 Base RSum Num StatsModel SpecStats StatsProofs LinspaceProofs BrentFModel BrentFProofs Chi2FModel SpecChi2F Chi2FProofs Chi2FProofs2 Chi2FProofs3 PropsChi2F GStatModel SpecGStat GStatProofs GStatProofs2 PropsGStat PropsGMax SigFModel MCFModel SpecMCF PropsMCF GlobFModel HybFModel SpecHybF.
Open Scope R_scope.

(** ** the switch *)
Lemma rel_err : forall x, / 1048576 <= x -> Rabs (rnd x - x) <= u53 * x.
Proof.
  intros x H. assert (P : 0 < / 1048576) by (apply Rinv_0_lt_compat; lra).
  pose proof (relative_error_N_FLT radix2 (-1074) 53 ltac:(lia) (fun z => negb (Z.even z)) x) as E. rewrite (Rabs_pos_eq x) in E by lra.
  replace (/ 2 * b2 (- (53) + 1)) with u53 in E by (rewrite <- u53_b2; change (b2 (- (53) + 1)) with (b2 (-53 + 1)); rewrite bpow_plus; change (b2 1) with 2; lra). apply E. apply Rle_trans with (2 := H). change (/ 1048576) with (b2 (-20)). apply Flocq.Core.Raux.bpow_le. lia.
Qed.
Lemma four_up : rnd (4 + 4 * u53) = 4.
Proof.
  destruct (ofZ_spec 4 ltac:(lia)) as [V4 F4]. destruct (flit_spec 1 (-51) ltac:(lia) ltac:(lia)) as [VE FE]; [lia|]. change (bpow radix2 (-51)) with (/ 2251799813685248) in VE. replace (IZR 1 * / 2251799813685248) with (4 * u53) in VE by (unfold u53; lra).
  destruct (fplus_spec (ofZ 4) (flit 1 (-51)) 3 F4 FE ltac:(lia)) as [V F]; [rewrite V4, VE, Rabs_pos_eq by (unfold u53; lra); change (bpow radix2 3) with 8; unfold u53; lra|]. rewrite V4, VE in V. rewrite <- V.
  assert (X : fle (fplus (ofZ 4) (flit 1 (-51))) (ofZ 4) = true) by (vm_compute; reflexivity). assert (Y : fle (ofZ 4) (fplus (ofZ 4) (flit 1 (-51))) = true) by (vm_compute; reflexivity).
  apply (proj1 (fle_spec _ _ F F4)) in X. apply (proj1 (fle_spec _ _ F4 F)) in Y. rewrite V4 in *. lra.
Qed.
Lemma int_gap : forall (a b : nat), ~ INR a <= INR b -> INR b + 1 <= INR a.
Proof. intros a b H. assert (b < a)%nat by (apply Nat.nle_gt; intros K; apply H, le_INR, K). rewrite <- S_INR. apply le_INR. lia. Qed.
Lemma switch_real : forall N r c : nat, (1 <= r)%nat -> (1 <= c)%nat -> (1 <= N)%nat -> INR r <= 1048576 -> INR c <= 1048576 -> INR N <= 70368744177664 ->
  let t := rnd (INR N / INR r) in 0 <= t <= 2 * INR N /\ 0 <= t * INR c <= b2 80 /\ (rnd (t * INR c) <= 4 <-> INR N * INR c <= 4 * INR r).
Proof.
  intros N r c Hr Hc HN Br Bc BN t. apply le_INR in Hr, Hc, HN. change (INR 1) with 1 in *. pose proof u53_pos as U.
  assert (XP : / 1048576 <= INR N / INR r).
  { apply Rmult_le_reg_r with (INR r); [lra|]. unfold Rdiv. rewrite Rmult_assoc, Rinv_l by lra. lra. }
  assert (XL : INR N / INR r <= INR N). { apply Rmult_le_reg_r with (INR r); [lra|]. unfold Rdiv. rewrite Rmult_assoc, Rinv_l by lra. assert (INR N * 1 <= INR N * INR r) by (apply Rmult_le_compat_l; lra). lra. }
  pose proof (rel_err _ XP) as E. fold t in E. apply Rabs_le_inv in E. set (x := INR N / INR r) in *. assert (UX : u53 * x <= / 2 * x) by (apply Rmult_le_compat_r; [lra|unfold u53; lra]).
  assert (X0 : 0 < x) by lra. split; [lra|]. assert (TC : 0 <= t * INR c <= b2 80).
  { split; [apply Rmult_le_pos; lra|]. apply Rle_trans with ((2 * 70368744177664) * 1048576); [apply Rmult_le_compat; lra|]. change (b2 80) with (IZR (2 ^ 80)). rewrite <- mult_IZR. apply Rle_trans with (IZR (2 * 70368744177664 * 1048576)); [rewrite !mult_IZR; lra|apply IZR_le; vm_compute; discriminate]. }
  split; [exact TC|].
  assert (XC : x * INR c * INR r = INR N * INR c) by (unfold x; field; lra).
  split.
  - intros H. destruct (Rle_dec (INR N * INR c) (4 * INR r)) as [Y|Y]; [exact Y|]. exfalso. rewrite <- mult_INR in Y. replace (4 * INR r) with (INR (4 * r)) in Y by (rewrite mult_INR; simpl; lra). apply int_gap in Y. rewrite !mult_INR in Y. replace (INR 4) with 4 in Y by (simpl; lra).
    assert (V : 4 + / 1048576 <= x * INR c). { apply Rmult_le_reg_r with (INR r); [lra|]. rewrite XC. assert (/ 1048576 * INR r <= 1) by lra. lra. }
    assert (W : 4 + / 2097152 <= t * INR c). { assert (W1 : (x - u53 * x) * INR c <= t * INR c) by (apply Rmult_le_compat_r; lra). replace ((x - u53 * x) * INR c) with ((1 - u53) * (x * INR c)) in W1 by ring. assert ((1 - u53) * (4 + / 1048576) <= (1 - u53) * (x * INR c)) by (apply Rmult_le_compat_l; [unfold u53; lra|exact V]). unfold u53 in *. lra. }
    assert (FM : fmt (4 + / 2097152)). { replace (4 + / 2097152) with (IZR 8388609 * b2 (-21)) by (change (b2 (-21)) with (/ 2097152); lra). apply fmt_F2R; lia. }
    pose proof (rnd_lb _ _ FM W). assert (0 < / 2097152) by (apply Rinv_0_lt_compat; lra). lra.
  - intros H. rewrite <- four_up. apply rnd_le. assert (V : x * INR c <= 4). { apply Rmult_le_reg_r with (INR r); [lra|]. rewrite XC. lra. }
    assert (W1 : t * INR c <= (x + u53 * x) * INR c) by (apply Rmult_le_compat_r; lra). replace ((x + u53 * x) * INR c) with ((1 + u53) * (x * INR c)) in W1 by ring.
    assert ((1 + u53) * (x * INR c) <= (1 + u53) * 4) by (apply Rmult_le_compat_l; lra). lra.
Qed.
Lemma shape_small : forall m, has_records (real_table m) -> INR (fr m * fc m) <= 1048576 -> (1 <= fr m)%nat /\ (1 <= fc m)%nat /\ INR (fr m) <= 1048576 /\ INR (fc m) <= 1048576.
Proof.
  intros m (i & j & Hi & Hj & _) H. cbn [nr nc real_table] in Hi, Hj. assert (A : (1 <= fr m)%nat) by lia. assert (B : (1 <= fc m)%nat) by lia. split; [exact A|]. split; [exact B|].
  rewrite mult_INR in H. apply le_INR in A, B. change (INR 1) with 1 in *. assert (INR (fr m) * 1 <= INR (fr m) * INR (fc m)) by (apply Rmult_le_compat_l; lra). assert (1 * INR (fc m) <= INR (fr m) * INR (fc m)) by (apply Rmult_le_compat_r; lra). lra.
Qed.
Lemma small_int : forall n : nat, INR n <= 1048576 -> f2R (ofZ (Z.of_nat n)) = INR n /\ ffin (ofZ (Z.of_nat n)) = true.
Proof. intros n H. rewrite INR_IZR_INZ in *. apply le_IZR in H. apply ofZ_spec. lia. Qed.
Lemma switch_ok : forall add_up m, any_order add_up -> fit_for_mc m ->
  fle (avg_per_bin64 add_up m) (ofZ 4) = true <-> matsum (real_table m) * INR (fc m) <= 4 * INR (fr m).
Proof.
  intros add_up m AO (CT & HR & MS & MK). cbn [nr nc real_table] in MK. destruct (shape_small m HR MK) as (R1 & C1 & RB & CB). pose proof (records_one m CT HR) as N1.
  destruct (ftot_val add_up AO m CT ltac:(lra)) as [[TF (N & TV)] TM]. rewrite TM in TV. destruct (small_int _ RB) as [VR FR]. destruct (small_int _ CB) as [VC FC]. rewrite TV in *.
  assert (NN : (1 <= N)%nat). { apply INR_le. exact N1. }
  destruct (switch_real N (fr m) (fc m) R1 C1 NN RB CB MS) as (T1 & T2 & T3). unfold avg_per_bin64. apply le_INR in R1. change (INR 1) with 1 in R1. assert (0 <= INR N / INR (fr m)) by (apply Rmult_le_pos; [lra|left; apply Rinv_0_lt_compat; lra]).
  destruct (fdiv_spec (ftot add_up m) (ofZ (Z.of_nat (fr m))) 46 TF ltac:(rewrite VR; lra) ltac:(lia)) as [VD FD].
  { rewrite VR, TM, Rabs_pos_eq by assumption. change (b2 46) with 70368744177664. apply Rle_trans with (2 := MS). apply Rmult_le_reg_r with (INR (fr m)); [lra|]. unfold Rdiv. rewrite Rmult_assoc, Rinv_l by lra. assert (INR N * 1 <= INR N * INR (fr m)) by (apply Rmult_le_compat_l; lra). lra. }
  rewrite VR, TM in VD. destruct (fmult_spec _ (ofZ (Z.of_nat (fc m))) 80 FD FC ltac:(lia)) as [VM FM]; [rewrite VD, VC, Rabs_pos_eq by lra; lra|]. rewrite VD, VC in VM.
  destruct (ofZ_spec 4 ltac:(lia)) as [V4 F4]. rewrite (fle_spec _ _ FM F4), VM, V4. exact T3.
Qed.

(** ** sizes *)
Lemma stat_range : forall lam m, fit_for_mc m -> 0 <= exact_stat lam m <= 147573952589676412928 /\ 51 * u53 <= stat_tol lam m <= 1099511627776.
Proof.
  intros lam m (CT & HR & MS & MK). pose proof (T_nonneg m CT) as NN. pose proof (records_one m CT HR) as N1. pose proof u53_pos as U. destruct (shape_small m HR MK) as (R1 & C1 & RB & CB). apply le_INR in R1, C1. change (INR 1) with 1 in *.
  assert (E : 0 <= exact_stat lam m <= 147573952589676412928).
  { unfold exact_stat. destruct (C14_chi2_defined_nonneg true lam (real_table m) NN HR) as (v & V & P). rewrite V. split; [apply P; auto|]. destruct lam.
    - pose proof (C16_chi2_max _ _ NN HR V) as Q. eapply Rle_trans; [exact Q|]. apply Rle_trans with (70368744177664 * 1048576); [apply Rmult_le_compat; [lra| |exact MS|]|lra].
      + apply Rmin_glb; cbn [nr nc real_table]; lra.
      + eapply Rle_trans; [apply Rmin_l|]. cbn [nr real_table]. lra.
    - destruct (C16_g_max _ _ NN HR V) as [_ Q]. eapply Rle_trans; [exact Q|]. cbn [nr nc real_table]. assert (M1 : 1 <= Rmin (INR (fr m)) (INR (fc m))) by (apply Rmin_glb; lra). assert (M2 : Rmin (INR (fr m)) (INR (fc m)) <= 1048576) by (eapply Rle_trans; [apply Rmin_l|lra]).
      pose proof (PropsGMax.ln_le1 (Rmin (INR (fr m)) (INR (fc m))) ltac:(lra)). assert (0 <= ln (Rmin (INR (fr m)) (INR (fc m)))) by (rewrite <- ln_1; apply PropsGMax.ln_le_ln; lra).
      apply Rle_trans with ((2 * 70368744177664) * 1048576); [apply Rmult_le_compat; lra|lra]. }
  split; [exact E|]. set (s := exact_stat lam m) in *. set (N := matsum (real_table m)) in *. set (K := INR (nr (real_table m) * nc (real_table m))) in *. assert (K1 : 1 <= K). { unfold K. cbn [nr nc real_table]. rewrite mult_INR. apply Rle_trans with (1 * 1); [lra|apply Rmult_le_compat; lra]. }
  assert (KS : 0 <= K * s <= 1048576 * 147573952589676412928) by (split; [apply Rmult_le_pos; lra|apply Rmult_le_compat; lra]). assert (KN : 0 <= K * N <= 1048576 * 70368744177664) by (split; [apply Rmult_le_pos; lra|apply Rmult_le_compat; lra]).
  unfold stat_tol. destruct lam; unfold chi2_tol, g_tol; fold s N K.
  - replace ((2 * K + 30) * s) with (2 * (K * s) + 30 * s) by ring. split; [rewrite Rmult_comm; apply Rmult_le_compat_l; lra|]. apply Rle_trans with (u53 * 9007199254740992000000000000); [apply Rmult_le_compat_l; lra|unfold u53; lra].
  - replace ((8 * K + 190) * N + (2 * K + 32) * s) with (8 * (K * N) + 190 * N + (2 * (K * s) + 32 * s)) by ring. split; [rewrite Rmult_comm; apply Rmult_le_compat_l; lra|]. apply Rle_trans with (u53 * 9007199254740992000000000000); [apply Rmult_le_compat_l; lra|unfold u53; lra].
Qed.

(** ** the mean *)
Lemma f2_sums : forall lam ms cs, Forall2 (fun m c => ffin c = true /\ Rabs (f2R c - exact_stat lam m) <= stat_tol lam m) ms cs -> (forall m, In m ms -> fit_for_mc m) ->
  Rabs (lsum f2R cs - lsum (exact_stat lam) ms) <= lsum (stat_tol lam) ms /\ lsum (fun x => Rabs (f2R x)) cs <= lsum (fun m => exact_stat lam m + stat_tol lam m) ms /\
  lsum (fun m => exact_stat lam m + stat_tol lam m) ms <= INR (length ms) * 147573960000000000000 /\ INR (length ms) * (51 * u53) <= lsum (stat_tol lam) ms.
Proof.
  intros lam ms cs F. induction F as [|m c ms cs [FC HC] _ IH]; intros H; [rewrite !lsum_nil, Rminus_0_r, Rabs_R0; cbn [length INR]; lra|].
  destruct IH as (A & B & C & D); [intros; apply H; right; assumption|]. destruct (stat_range lam m (H m (or_introl eq_refl))) as (E1 & E2). rewrite !lsum_cons. cbn [length]. rewrite S_INR.
  apply Rabs_le_inv in A. apply Rabs_le_inv in HC. split; [apply Rabs_le; lra|]. split; [assert (Rabs (f2R c) <= exact_stat lam m + stat_tol lam m) by (apply Rabs_le; lra); lra|split; lra].
Qed.
Lemma endof_ok : forall add_up add_mean flog lam ms, any_order add_up -> (forall l, added l (add_mean l)) -> good_log flog -> (forall m, In m ms -> fit_for_mc m) -> (1 <= Z.of_nat (length ms) <= 2 ^ 40)%Z ->
  exists cs, sim_chi2s64 add_up flog lam ms = Ok cs /\ length cs = length ms /\ ffin (estimate_ndof64 add_mean cs) = true /\ Rabs (f2R (estimate_ndof64 add_mean cs) - exact_endof lam ms) <= endof_tol lam ms.
Proof.
  intros add_up add_mean flog lam ms AO AM GL HS HL. destruct (stats_ok add_up flog lam ms AO GL HS) as (cs & ES & F). exists cs. split; [exact ES|].
  pose proof (f2_len _ _ _ _ _ F) as LE. split; [congruence|]. destruct (f2_sums lam ms cs F HS) as (A & B & C & D). pose proof u53_pos as U.
  assert (FC : forall x, In x cs -> ffin x = true) by (apply (f2_right _ _ _ (fun x => ffin x = true) _ _ F); intros a b [X _]; exact X).
  assert (NR : INR (length ms) = IZR (Z.of_nat (length ms))) by apply INR_IZR_INZ. assert (N1 : 1 <= INR (length ms) <= 1099511627776) by (rewrite NR; split; apply IZR_le; lia).
  set (n := INR (length ms)) in *. unfold endof_tol, exact_endof, mean_of. fold n. set (M := lsum (exact_stat lam) ms) in *. set (D0 := lsum (stat_tol lam) ms) in *. set (MD := lsum (fun m => exact_stat lam m + stat_tol lam m) ms) in *.
  set (S := lsum f2R cs) in *. set (SA := lsum (fun x => Rabs (f2R x)) cs) in *.
  assert (M0 : 0 <= M) by (unfold M; apply lsum_nonneg; intros m Hm; apply (stat_range lam m (HS m Hm))). assert (D1 : MD = M + D0) by (unfold MD, M, D0; apply lsum_plus).
  destruct (added_signed cs (add_mean cs) (AM cs) FC) as [FS ER].
  { rewrite <- LE. fold n. unfold u53. lra. }
  { fold SA. apply Rle_trans with (1 := B). apply Rle_trans with (1 := C). apply Rle_trans with (1099511627776 * 147573960000000000000); [apply Rmult_le_compat_r; lra|]. change (b2 500) with (IZR (2 ^ 500)). rewrite <- mult_IZR. apply IZR_le. vm_compute. discriminate. }
  rewrite <- LE in ER. fold n S SA in ER.
  assert (ER2 : Rabs (f2R (add_mean cs) - S) <= 2 * n * u53 * MD). { eapply Rle_trans; [exact ER|]. apply Rmult_le_compat_l; [apply Rmult_le_pos; lra|exact B]. }
  set (s := f2R (add_mean cs)) in *. unfold estimate_ndof64. destruct (ofZ_spec (Z.of_nat (length cs)) ltac:(rewrite <- LE; lia)) as [VN FN]. rewrite <- LE in VN at 2. rewrite <- NR in VN.
  assert (NU : n * u53 <= / 4096) by (unfold u53; lra). assert (MD0 : 0 <= MD) by (assert (0 <= n * (51 * u53)) by (apply Rmult_le_pos; lra); lra).
  assert (E2 : 2 * n * u53 * MD <= / 2048 * MD) by (apply Rmult_le_compat_r; lra).
  apply Rabs_le_inv in ER2. apply Rabs_le_inv in A. assert (SB : Rabs s <= 2 * MD) by (apply Rabs_le; lra).
  assert (IN : 0 < / n) by (apply Rinv_0_lt_compat; lra). assert (IN1 : / n <= 1) by (rewrite <- Rinv_1; apply Rinv_le_contravar; lra).
  assert (QB : Rabs (s / n) <= 2 * (MD / n)). { unfold Rdiv. rewrite Rabs_mult, (Rabs_pos_eq (/ n)) by lra. replace (2 * (MD * / n)) with (2 * MD * / n) by ring. apply Rmult_le_compat_r; lra. }
  assert (MC : MD / n <= 147573960000000000000). { apply Rmult_le_reg_r with n; [lra|]. unfold Rdiv. rewrite Rmult_assoc, Rinv_l by lra. lra. }
  destruct (fdiv_spec (add_mean cs) (ofZ (Z.of_nat (length cs))) 100 FS ltac:(rewrite VN; lra) ltac:(lia)) as [VD FD].
  { rewrite VN. fold s. apply Rle_trans with (1 := QB). change (b2 100) with (IZR (2 ^ 100)). apply Rle_trans with (2 * 147573960000000000000); [lra|]. rewrite <- mult_IZR. apply IZR_le. vm_compute. discriminate. }
  split; [exact FD|]. rewrite VD, VN. fold s.
  (* the rounding of the quotient, sharper: |s/n| <= 1.001 MD/n *)
  assert (QB2 : Rabs (s / n) <= (1 + / 2048) * (MD / n)). { unfold Rdiv. rewrite Rabs_mult, (Rabs_pos_eq (/ n)) by lra. rewrite <- Rmult_assoc. apply Rmult_le_compat_r; [lra|]. apply Rabs_le. lra. }
  pose proof (rnd_err (s / n)) as RE. pose proof (Rmult_le_compat_l u53 _ _ ltac:(lra) QB2) as UQ.
  assert (DN : 51 * u53 <= D0 / n). { apply Rmult_le_reg_r with n; [lra|]. replace (D0 / n * n) with D0 by (field; lra). lra. }
  assert (MDN : MD / n = M / n + D0 / n) by (rewrite D1; field; lra). assert (MN : 0 <= M / n) by (apply Rmult_le_pos; lra).
  assert (ET : eta0 <= u53 * (D0 / n)). { apply Rle_trans with (u53 * (51 * u53)); [|apply Rmult_le_compat_l; lra]. unfold eta0. apply Rle_trans with (b2 (-106)); [apply Flocq.Core.Raux.bpow_le; lia|]. change (-106)%Z with (-53 + -53)%Z. rewrite (bpow_plus radix2 (-53) (-53)), u53_b2. assert (0 <= u53 * u53) by (apply Rmult_le_pos; lra). lra. }
  assert (SN : Rabs (s / n - M / n) <= D0 / n + 2 * n * u53 * (MD / n)).
  { replace (s / n - M / n) with ((s - M) / n) by (field; lra). replace (D0 / n + 2 * n * u53 * (MD / n)) with ((D0 + 2 * n * u53 * MD) / n) by (field; lra). unfold Rdiv. rewrite Rabs_mult, (Rabs_pos_eq (/ n)) by lra. apply Rmult_le_compat_r; [lra|]. apply Rabs_le. lra. }
  apply Rabs_le_inv in RE. apply Rabs_le_inv in SN. assert (U1 : u53 * (D0 / n) <= u53 * (MD / n)) by (apply Rmult_le_compat_l; lra). assert (U2 : 0 <= u53 * (MD / n)) by (apply Rmult_le_pos; lra).
  replace ((2 * n + 3) * u53 * (MD / n)) with (2 * n * u53 * (MD / n) + 3 * (u53 * (MD / n))) by ring. replace (u53 * ((1 + / 2048) * (MD / n))) with ((1 + / 2048) * (u53 * (MD / n))) in UQ by ring. apply Rabs_le. lra.
Qed.
