(** C103: z_from_logp in floating-point arithmetic, where the p-value underflows. *)
From Coq Require Import ZArith List Bool Reals Lia Lra Psatz.
Import ListNotations.
From Flocq Require Import Core BinarySingleNaN.
From Verif Require Import F64 Base StatsModel StatsProofs Num LinspaceProofs BrentFModel BrentFProofs GlobFModel PropsGlobF SpecChi2F Chi2FProofs SpecGStat GStatProofs SpecOut OutModel PropsOut2 SpecGauss PropsGauss PropsGStat PiBound ZTailModel SpecZTail ZTailProofs.
Open Scope R_scope.

(** the real formula of [OutModel.z_from_logp] (which C74 compares with the true Z-value) *)
Theorem C103_real_formula : forall L l, olib_ok L -> np_exp L l = 0 -> z_from_logp L (Fin l) false = Fin (exact_tail l).
Proof. intros L l OK E. exact (proj1 (proj2 (fallback_value L OK l E))). Qed.

(** a library whose exponential underflows from -740 on *)
Definition olib_740 : olib := mkOlib (betainc exact_olib) (gammaln exact_olib) (poisson_sf exact_olib) (o_ppf exact_olib) (norm_cdf exact_olib) (chi2_ppf exact_olib) (fun l => if rleb l (-740) then 0 else exp l).
Lemma olib_740_ok : olib_ok olib_740.
Proof.
  destruct (proj1 C79_libraries) as (A & B & C & _). split; [exact A|]. split; [exact B|]. split; [exact C|]. intros l. cbn [np_exp olib_740]. destruct (rleb l (-740)) eqn:E; [right; apply rleb_true in E; split; [reflexivity|lra]|left; reflexivity].
Qed.
Section Lib.
Variables flog fexpo fppf : f64 -> f64.
Hypothesis G : good_log flog.
Hypothesis UL : underflows_late fexpo.
Notation zf := (z_from_logp64 flog fexpo fppf).

Lemma tail_branch : forall l, ffin l = true -> feqb (fexpo l) fzero = true -> zf l false = fsqrt (fminus (ftail flog l) (flog (ftail flog l))).
Proof.
  intros l F E. unfold z_from_logp64. assert (X : feqb l fminf = false) by (destruct l as [s|s| |[|] mm e p]; try discriminate; reflexivity). rewrite X, E. reflexivity.
Qed.
(** the computed Z-value is finite and within 3 * 2^-53 of the exact formula, relatively *)
Theorem C103_accuracy : forall l, ffin l = true -> feqb (fexpo l) fzero = true -> - b2 1022 <= f2R l ->
  ffin (zf l false) = true /\ Rabs (f2R (zf l false) - exact_tail (f2R l)) <= 3 * u53 * exact_tail (f2R l) /\ 30 < exact_tail (f2R l).
Proof. intros l F E B. rewrite tail_branch by assumption. apply tail_close; [exact G|exact F|]. split; [exact B|]. apply UL; assumption. Qed.
(** rounding never makes the Z-value drop as the p-value gets smaller: no tolerance *)
Theorem C103_monotone : forall l l', ffin l = true -> ffin l' = true -> feqb (fexpo l) fzero = true -> feqb (fexpo l') fzero = true -> - b2 1022 <= f2R l' -> f2R l' <= f2R l ->
  f2R (zf l false) <= f2R (zf l' false).
Proof.
  intros l l' F F' E E' B LL. pose proof (UL l F E) as U. pose proof (UL l' F' E') as U'. rewrite !tail_branch by assumption. destruct (tail_u flog G) as (c & _ & _ & H).
  destruct (H l F ltac:(lra)) as (VF & VE & VB). destruct (H l' F' ltac:(lra)) as (VF' & VE' & VB').
  assert (VV : f2R (ftail flog l) <= f2R (ftail flog l')) by (rewrite VE, VE'; apply rnd_le; lra).
  pose proof (tail_mono flog _ _ G VF VF' (proj1 VB) VV (proj2 VB')) as M. destruct (tail_w flog _ G VF VB) as (WF & WE & _ & WB & _). destruct (tail_w flog _ G VF' VB') as (WF' & WE' & _ & WB' & _).
  assert (P : 0 <= f2R (fminus (ftail flog l) (flog (ftail flog l)))). { rewrite WE. apply rnd_lb; [apply generic_format_0|lra]. }
  rewrite (proj1 (fsqrt_spec _ WF P)), (proj1 (fsqrt_spec _ WF' ltac:(lra))). apply rnd_le. apply sqrt_le_1; lra.
Qed.
(** and, down to log p = -10^14, it stays below the true Z-value *)
Theorem C103_below_true_value : forall F l Z, normal_cdf F -> ffin l = true -> feqb (fexpo l) fzero = true -> -100000000000000 <= f2R l -> 1 - F Z = exp (f2R l) -> f2R (zf l false) < Z.
Proof.
  intros F l Z HF Fl E B EZ. pose proof (UL l Fl E) as U. destruct (C103_accuracy l Fl E) as (_ & A & T30). { assert (b2 60 <= b2 1022) by (apply Flocq.Core.Raux.bpow_le; lia). change (b2 60) with 1152921504606846976 in *. lra. }
  set (x := f2R l) in *. set (t := exact_tail x) in *.
  assert (E740 : np_exp olib_740 x = 0) by (cbn [np_exp olib_740]; rewrite (proj2 (rleb_true x (-740)) U); reflexivity).
  destruct (C74_below_true_value F HF olib_740 x t Z (proj2 (proj2 (proj2 olib_740_ok))) E740 (C103_real_formula olib_740 x olib_740_ok E740) EZ) as (ZT & ZQ & _).
  pose proof ln2pi_12 as L2. pose proof u53_pos as UP. assert (Z2 : 2 / Z ^ 2 <= / 100). { apply Rmult_le_reg_r with (Z ^ 2); [nra|]. unfold Rdiv. rewrite Rmult_assoc, Rinv_l by nra. nra. }
  assert (TT : t * t <= 200000000000000). { unfold t, exact_tail. cbv zeta. set (UU := - 2 * ln (2 * PI) - 2 * x). assert (UB : 1000 <= UU <= 200000000000000) by (unfold UU; lra). pose proof (ln_sqrt_bound UU (proj1 UB)). assert (0 < ln UU) by (rewrite <- ln_1; apply ln_increasing; lra). rewrite sqrt_sqrt; lra. }
  apply Rabs_le_inv in A. apply Rnot_le_lt. intros ZL. assert (D : Z - t <= 3 * u53 * t) by lra.
  assert (S1 : 99 / 100 < (Z - t) * (Z + t)) by (replace ((Z - t) * (Z + t)) with (Z ^ 2 - t ^ 2) by ring; lra).
  assert (UT : u53 * t <= / 1000000 * t) by (apply Rmult_le_compat_r; unfold u53; lra).
  assert (S2 : (Z - t) * (Z + t) <= 3 * u53 * t * (3 * t)) by (apply Rmult_le_compat; lra).
  assert (S3 : u53 * (t * t) <= u53 * 200000000000000) by (apply Rmult_le_compat_l; lra). unfold u53 in S3 at 2. lra.
Qed.
End Lib.

(** multiplying by -1.0 is changing the sign *)
Lemma minus_one : forall z, fmult z (ofZ (-1)) = fopp z.
Proof.
  intros z. destruct z as [s|s| |s m e p]; [destruct s; reflexivity|destruct s; reflexivity|reflexivity|].
  set (z := B754_finite s m e p : f64). destruct (ofZ_spec (-1) ltac:(lia)) as [OV OF]. generalize (Bmult_correct 53 1024 _ _ mode_NE z (ofZ (-1))). change (B2R (ofZ (-1))) with (f2R (ofZ (-1))). rewrite OV.
  change (round radix2 (SpecFloat.fexp 53 1024) (round_mode mode_NE) (B2R z * -1)) with (rnd (f2R z * -1)). replace (f2R z * -1) with (- f2R z) by ring. rewrite rnd_id by (apply fmt_opp, fmt_B2R).
  rewrite Rabs_Ropp, Rlt_bool_true by exact (abs_B2R_lt_emax 53 1024 z). intros (A & B & C).
  assert (NZ : f2R z <> 0) by (unfold f2R, z; cbn [B2R]; destruct s; cbn [cond_Zopp]; [apply Rlt_not_eq, F2R_lt_0; reflexivity|apply Rgt_not_eq, F2R_gt_0; reflexivity]).
  change (Bmult mode_NE z (ofZ (-1))) with (fmult z (ofZ (-1))) in *. apply (B2R_inj 53 1024).
  - destruct (fmult z (ofZ (-1))) as [a|a| |a b c d]; try reflexivity; exfalso; cbn [B2R] in A; lra.
  - reflexivity.
  - rewrite A. symmetry. exact (proj1 (fopp_val z)).
Qed.
(** flip_sign negates the value, bit for bit, in every case (including infinities and NaN) *)
Theorem C103_flip : forall flog fexpo fppf l, z_from_logp64 flog fexpo fppf l true = fopp (z_from_logp64 flog fexpo fppf l false).
Proof. intros flog fexpo fppf l. unfold z_from_logp64. destruct (feqb l fminf); [reflexivity|]. apply minus_one. Qed.
Theorem C103_zero_p : forall flog fexpo fppf, z_from_logp64 flog fexpo fppf fminf false = fpinf /\ z_from_logp64 flog fexpo fppf fminf true = fminf.
Proof. intros. split; reflexivity. Qed.
(** but beyond -2^1023 doubling log p overflows, and the Z-value is NaN *)
Lemma double_overflow : forall l, ffin l = true -> f2R l <= - b2 1023 -> fmult (ofZ 2) l = fminf.
Proof.
  intros l F B. destruct (ofZ_spec 2 ltac:(lia)) as [T TF]. generalize (Bmult_correct 53 1024 _ _ mode_NE (ofZ 2) l). change (B2R (ofZ 2)) with (f2R (ofZ 2)). rewrite T.
  change (round radix2 (SpecFloat.fexp 53 1024) (round_mode mode_NE) (2 * B2R l)) with (rnd (2 * f2R l)).
  assert (X : bpow radix2 1024 <= Rabs (rnd (2 * f2R l))).
  { replace 1024%Z with (1 + 1023)%Z by lia. rewrite bpow_plus. change (bpow radix2 1) with 2. change (bpow radix2 1023) with (b2 1023). assert (Y : rnd (2 * f2R l) <= - (2 * b2 1023)).
    { apply rnd_ub; [|lra]. apply fmt_opp. replace (2 * b2 1023) with (bpow radix2 1024) by (replace 1024%Z with (1 + 1023)%Z by lia; rewrite bpow_plus; reflexivity). apply fmt_bpow. lia. }
    assert (0 < b2 1023) by apply bpow_gt_0. rewrite Rabs_left by lra. lra. }
  rewrite Rlt_bool_false by exact X. change (Bsign (ofZ 2)) with false. assert (S1 : Bsign l = true).
  { destruct l as [s|s| |s m e p]; try discriminate; unfold f2R in B; cbn [B2R] in B; assert (0 < b2 1023) by apply bpow_gt_0; [lra|]. destruct s; [reflexivity|]. assert (0 < F2R (Float radix2 (cond_Zopp false (Zpos m)) e)) by (apply F2R_gt_0; reflexivity). lra. }
  rewrite S1. cbn [xorb]. intros A. apply B2SF_inj. exact A.
Qed.
Theorem C103_overflow : forall flog fexpo fppf l, good_log flog -> flog fpinf = fpinf -> ffin l = true -> feqb (fexpo l) fzero = true -> f2R l <= - b2 1023 -> forall flip, z_from_logp64 flog fexpo fppf l flip = fnan.
Proof.
  intros flog fexpo fppf l G LI F E B. assert (X : z_from_logp64 flog fexpo fppf l false = fnan).
  { rewrite tail_branch by assumption. unfold ftail. rewrite double_overflow by assumption. destruct (log_2pi flog G) as (LF & _ & LB).
    assert (M : fminus (fmult (ofZ (-2)) (flog f2pi)) fminf = fpinf).
    { destruct (ofZ_spec (-2) ltac:(lia)) as [T TF]. destruct (fmult_spec (ofZ (-2)) (flog f2pi) 10 TF LF ltac:(lia)) as [_ MF]. { rewrite T. change (bpow radix2 10) with 1024. apply Rabs_le. lra. }
      destruct (fmult (ofZ (-2)) (flog f2pi)); try discriminate; reflexivity. }
    rewrite M, LI. reflexivity. }
  intros [|]; [rewrite C103_flip, X; reflexivity|exact X].
Qed.
(** an exponential as assumed: exp rounded to nearest *)
Lemma ln2_069 : 69 / 100 <= ln 2.
Proof.
  rewrite <- (ln_exp (69 / 100)). apply Rcomplements.ln_le; [apply exp_pos|]. assert (H : 1 / 2 <= exp (- (69 / 100))).
  { assert (sq : forall x y a, 0 <= a -> x = y + y -> a <= exp y -> a * a <= exp x) by (intros x y a A -> B; rewrite exp_plus; nra).
    assert (A0 : (9973046 / 10000000) <= exp (- (69 / 25600))) by (pose proof (exp_ineq1_le (- (69 / 25600))); lra).
    pose proof (sq (- (69 / 12800)) (- (69 / 25600)) (9973046 / 10000000) ltac:(lra) ltac:(lra) A0) as A1. assert (B1 : (9946164 / 10000000) <= exp (- (69 / 12800))) by lra.
    pose proof (sq (- (69 / 6400)) (- (69 / 12800)) (9946164 / 10000000) ltac:(lra) ltac:(lra) B1) as A2. assert (B2 : (9892617 / 10000000) <= exp (- (69 / 6400))) by lra.
    pose proof (sq (- (69 / 3200)) (- (69 / 6400)) (9892617 / 10000000) ltac:(lra) ltac:(lra) B2) as A3. assert (B3 : (9786387 / 10000000) <= exp (- (69 / 3200))) by lra.
    pose proof (sq (- (69 / 1600)) (- (69 / 3200)) (9786387 / 10000000) ltac:(lra) ltac:(lra) B3) as A4. assert (B4 : (9577337 / 10000000) <= exp (- (69 / 1600))) by lra.
    pose proof (sq (- (69 / 800)) (- (69 / 1600)) (9577337 / 10000000) ltac:(lra) ltac:(lra) B4) as A5. assert (B5 : (9172538 / 10000000) <= exp (- (69 / 800))) by lra.
    pose proof (sq (- (69 / 400)) (- (69 / 800)) (9172538 / 10000000) ltac:(lra) ltac:(lra) B5) as A6. assert (B6 : (8413545 / 10000000) <= exp (- (69 / 400))) by lra.
    pose proof (sq (- (69 / 200)) (- (69 / 400)) (8413545 / 10000000) ltac:(lra) ltac:(lra) B6) as A7. assert (B7 : (7078773 / 10000000) <= exp (- (69 / 200))) by lra.
    pose proof (sq (- (69 / 100)) (- (69 / 200)) (7078773 / 10000000) ltac:(lra) ltac:(lra) B7) as A8. lra. }
  rewrite exp_Ropp in H. pose proof (exp_pos (69 / 100)) as P. apply Rmult_le_reg_r with (/ exp (69 / 100)); [apply Rinv_0_lt_compat; exact P|]. rewrite Rinv_r by lra. lra.
Qed.
Lemma exp_mono : forall x y, x <= y -> exp x <= exp y.
Proof. intros x y [H| ->]; [apply Rlt_le, exp_increasing, H|lra]. Qed.
Lemma exp_b2 : forall x k, x <= IZR k * ln 2 -> exp x <= b2 k.
Proof.
  intros x k H. change (b2 k) with (bpow radix2 k). rewrite bpow_exp. apply exp_mono. change (IZR radix2) with 2. lra.
Qed.
Lemma b2_exp : forall x k, IZR k * ln 2 <= x -> b2 k <= exp x.
Proof. intros x k H. change (b2 k) with (bpow radix2 k). rewrite bpow_exp. apply exp_mono. change (IZR radix2) with 2. lra. Qed.
Definition exp64 (x : f64) : f64 := if fle x (ofZ (-746)) then fzero else if fle (ofZ 700) x then fpinf else float_of (exp (f2R x)).
Theorem C103_exp_exists : underflows_late exp64 /\ forall x, ffin x = true -> f2R x <= -746 -> feqb (exp64 x) fzero = true.
Proof.
  assert (V : f2R (ofZ (-746)) = -746 /\ ffin (ofZ (-746)) = true) by (apply ofZ_spec; lia). destruct V as [V VF]. assert (W : f2R (ofZ 700) = 700 /\ ffin (ofZ 700) = true) by (apply ofZ_spec; lia). destruct W as [W WF]. pose proof ln2_069 as L2. split.
  - intros x F. unfold exp64. destruct (fle x (ofZ (-746))) eqn:E; [intros _; apply fle_spec in E; try assumption; rewrite V in E; lra|]. destruct (fle (ofZ 700) x) eqn:E2; [discriminate|].
    intros Z. apply Rnot_lt_le. intros X. assert (X7 : f2R x < 700). { apply Rnot_le_lt. intros Y. rewrite <- W in Y. apply (proj2 (fle_spec (ofZ 700) x WF F)) in Y. congruence. }
    destruct (float_of_spec (exp (f2R x)) 1023 ltac:(lia)) as [A B]. { rewrite Rabs_right by (apply Rle_ge, Rlt_le, exp_pos). apply exp_b2. lra. }
    assert (P : b2 (-1074) <= f2R (float_of (exp (f2R x)))). { rewrite A. apply rnd_lb; [apply fmt_bpow; lia|]. apply b2_exp. lra. }
    assert (Q : f2R (float_of (exp (f2R x))) = 0). { unfold feqb in Z. rewrite Beqb_correct in Z; [|exact B|reflexivity]. (revert Z; case Req_bool_spec; [intros H _; exact H|intros _ H; discriminate H]). }
    assert (0 < b2 (-1074)) by apply bpow_gt_0. lra.
  - intros x F H. unfold exp64. assert (E : fle x (ofZ (-746)) = true) by (apply fle_spec; try assumption; rewrite V; exact H). rewrite E. reflexivity.
Qed.
(** log p = -1000: Z is about 44.6 *)
Example C103_case : let l := ofZ (-1000) in let z := z_from_logp64 (fun x => float_of (ln (f2R x))) exp64 (fun x => x) l false in
  ffin l = true /\ feqb (exp64 l) fzero = true /\ - b2 1022 <= f2R l /\ ffin z = true /\ 44 < f2R z < 45.
Proof.
  intros l z. destruct (ofZ_spec (-1000) ltac:(lia)) as [V VF]. destruct C103_exp_exists as [UL UZ]. assert (E : feqb (exp64 l) fzero = true) by (apply UZ; [exact VF|unfold l; rewrite V; lra]).
  assert (B : - b2 1022 <= f2R l). { unfold l. rewrite V. assert (b2 10 <= b2 1022) by (apply Flocq.Core.Raux.bpow_le; lia). change (b2 10) with 1024 in *. lra. }
  split; [exact VF|]. split; [exact E|]. split; [exact B|]. destruct (C103_accuracy _ _ (fun x => x) C102_log_exists UL l VF E B) as (F & A & _). fold z in F, A. split; [exact F|].
  unfold exact_tail in A. cbv zeta in A. unfold l in A. rewrite V in A. pose proof ln2pi_12 as L. set (u := - 2 * ln (2 * PI) - 2 * -1000) in *. assert (UB : 1996 < u < 1998) by (unfold u; lra).
  assert (LU : 0 < ln u) by (rewrite <- ln_1; apply ln_increasing; lra). assert (LU2 : ln u < 50). { pose proof (ln_sub1 (u / 50) ltac:(lra)) as H. unfold Rdiv in H. rewrite ln_mult in H by lra. rewrite ln_Rinv in H by lra. pose proof (ln_sub1 50 ltac:(lra)) as H5. assert (ln 50 <= 10). { replace 50 with (5 * 10) by lra. rewrite ln_mult by lra. pose proof (ln_sub1 5 ltac:(lra)). replace 10 with (5 * 2) by lra. rewrite ln_mult by lra. pose proof (ln_sub1 2 ltac:(lra)). lra. } lra. }
  assert (S1 : 44.1 < sqrt (u - ln u)). { apply Rsqr_incrst_0; [|lra|apply sqrt_pos]. rewrite Rsqr_sqrt by lra. unfold Rsqr. lra. }
  assert (S2 : sqrt (u - ln u) < 44.9). { apply Rsqr_incrst_0; [|apply sqrt_pos|lra]. rewrite Rsqr_sqrt by lra. unfold Rsqr. lra. }
  pose proof u53_pos as U. assert (T : 3 * u53 * sqrt (u - ln u) <= / 1000000 * sqrt (u - ln u)) by (apply Rmult_le_compat_r; unfold u53; lra). apply Rabs_le_inv in A. lra.
Qed.
Print Assumptions C103_below_true_value. Print Assumptions C103_overflow.
