(** Rounding errors of the Chernoff fallback (C104). *)
From Coq Require Import ZArith List Bool Reals Lia Lra Psatz.
Import ListNotations.
From Flocq Require Import Core BinarySingleNaN.
From Verif Require Import F64 Base LinspaceProofs BrentFModel BrentFProofs GlobFModel PropsGlobF SpecChi2F Chi2FProofs SpecGStat GStatProofs PiBound ZTailModel SpecZTail ZTailProofs.
Open Scope R_scope.

(** products with a small factor *)
Lemma scale : forall e x y, 0 <= e -> x <= y -> e * x <= e * y.
Proof. intros e x y E H. apply Rmult_le_compat_l; assumption. Qed.

Lemma ln_mono : forall x y, 0 < x -> x <= y -> ln x <= ln y.
Proof. intros x y P [H| ->]; [apply Rlt_le, ln_increasing; assumption|lra]. Qed.

(** ** the exponent, in real numbers with a unit roundoff e *)
Lemma exponent_err : forall e c k zh lz A dh B lp L s u, 0 < e <= / 1000000000 -> 0 < k <= c -> 1 <= c -> 0 <= lp <= 2 ->
  Rabs (zh - c / k) <= e * (c / k) * (1 + / 1000000) -> 1 <= zh -> Rabs (lz - ln zh) <= 2 * e * ln zh -> Rabs (A - k * lz) <= e * (Rabs (k * lz) + / 1000000) ->
  Rabs (dh - (zh - 1)) <= e * Rabs (zh - 1) -> Rabs (B - k * dh) <= e * (Rabs (k * dh) + / 1000000) -> Rabs (L - lp) <= 6 * e ->
  Rabs (s - (- L - A)) <= e * Rabs (- L - A) -> Rabs (u - (s + B)) <= e * Rabs (s + B) ->
  Rabs (u - (k * (c / k - 1 - ln (c / k)) - lp)) <= 22 * e * c.
Proof.
  intros e c k zh lz A dh B lp L s u He Hk Hc Hlp HZ Z1 HL HA HD HB HLp HS HU. set (z := c / k) in *. assert (KZ : k * z = c) by (unfold z; field; lra).
  assert (ZZ : 1 <= z). { apply Rmult_le_reg_l with k; [lra|]. rewrite KZ. lra. } assert (LZ0 : 0 <= ln z) by (rewrite <- ln_1; apply ln_mono; lra). assert (LH0 : 0 <= ln zh) by (rewrite <- ln_1; apply ln_mono; lra).
  pose proof (ln_sub1 z ltac:(lra)) as LS. set (N := k * ln z) in *. assert (N0 : 0 <= N) by (apply Rmult_le_pos; lra). assert (NC : N <= c - k). { unfold N. rewrite <- KZ. replace (k * z - k) with (k * (z - 1)) by ring. apply scale; lra. }
  (* ln zh against ln z *)
  assert (EZ : e * z <= / 1000000000 * z) by (apply Rmult_le_compat_r; lra). apply Rabs_le_inv in HZ.
  assert (LN : - (11 / 10 * e) <= ln zh - ln z <= 11 / 10 * e).
  { pose proof (ln_lip z zh ltac:(lra) ltac:(lra)) as P. pose proof (ln_lip zh z ltac:(lra) ltac:(lra)) as Q.
    assert (P1 : (zh - z) / z <= 11 / 10 * e). { apply Rmult_le_reg_r with z; [lra|]. unfold Rdiv. rewrite Rmult_assoc, Rinv_l by lra. lra. }
    assert (Q1 : (z - zh) / zh <= 11 / 10 * e). { apply Rmult_le_reg_r with zh; [lra|]. unfold Rdiv. rewrite Rmult_assoc, Rinv_l by lra. assert (11 / 10 * e * (z * (1 - / 100000000)) <= 11 / 10 * e * zh) by (apply scale; lra). lra. }
    lra. }
  assert (EE : e * e <= / 1000000000 * e) by (apply Rmult_le_compat_r; lra).
  assert (HL2 : - (e * (2 * ln z + 11 / 10 + / 100)) <= lz - ln z <= e * (2 * ln z + 11 / 10 + / 100)).
  { apply Rabs_le_inv in HL. assert (e * ln zh <= e * (ln z + 11 / 10 * e)) by (apply scale; lra). lra. }
  (* times k *)
  set (t := e * N) in *. set (p := e * k) in *. set (q := e * c) in *. assert (T0 : 0 <= t) by (apply Rmult_le_pos; lra). assert (P0 : 0 <= p) by (apply Rmult_le_pos; lra).
  assert (TQ : t <= q - p). { unfold t, p, q. rewrite <- Rmult_minus_distr_l. apply scale; lra. } assert (EQ : e <= q) by (unfold q; rewrite <- (Rmult_1_r e) at 1; apply scale; lra).
  assert (TN : t <= / 1000000000 * N) by (apply Rmult_le_compat_r; lra). assert (PK : p <= / 1000000000 * k) by (apply Rmult_le_compat_r; lra). assert (QC : q <= / 1000000000 * c) by (apply Rmult_le_compat_r; lra).
  assert (KL : - (2 * t + 12 / 10 * p) <= k * lz - N <= 2 * t + 12 / 10 * p).
  { assert (K1 : k * (lz - ln z) <= k * (e * (2 * ln z + 11 / 10 + / 100))) by (apply scale; lra). assert (K2 : k * (- (e * (2 * ln z + 11 / 10 + / 100))) <= k * (lz - ln z)) by (apply scale; lra).
    replace (k * (lz - ln z)) with (k * lz - N) in * by (unfold N; ring). replace (k * (e * (2 * ln z + 11 / 10 + / 100))) with (2 * t + (11 / 10 + / 100) * p) in * by (unfold t, p, N; ring).
    replace (k * - (e * (2 * ln z + 11 / 10 + / 100))) with (- (2 * t + (11 / 10 + / 100) * p)) in * by (unfold t, p, N; ring). lra. }
  assert (LP : 0 <= ln z + ln zh) by lra. assert (LZP : - (/ 100 * k) <= k * lz) by lra.
  assert (KA : Rabs (k * lz) <= 101 / 100 * N + / 100 * k) by (apply Rabs_le; lra).
  assert (EA : e * Rabs (k * lz) <= 101 / 100 * t + / 100 * p). { replace (101 / 100 * t + / 100 * p) with (e * (101 / 100 * N + / 100 * k)) by (unfold t, p; ring). apply scale; lra. }
  assert (AN : - (31 / 10 * t + 13 / 10 * p + / 1000 * e) <= A - N <= 31 / 10 * t + 13 / 10 * p + / 1000 * e) by (apply Rabs_le_inv in HA; lra).
  (* the linear part *)
  assert (D0 : 0 <= zh - 1) by lra. rewrite (Rabs_right (zh - 1)) in HD by lra. apply Rabs_le_inv in HD.
  assert (KD : - (21 / 10 * q) <= k * dh - (c - k) <= 21 / 10 * q).
  { assert (R1 : e * (zh - 1) <= e * (101 / 100 * z)) by (apply scale; lra). assert (R2 : - (e * z * (21 / 10)) <= dh - (z - 1) <= e * z * (21 / 10)) by lra.
    assert (K1 : k * (dh - (z - 1)) <= k * (e * z * (21 / 10))) by (apply scale; lra). assert (K2 : k * (- (e * z * (21 / 10))) <= k * (dh - (z - 1))) by (apply scale; lra).
    replace (k * (dh - (z - 1))) with (k * dh - (c - k)) in * by (rewrite <- KZ; ring). replace (k * (e * z * (21 / 10))) with (21 / 10 * q) in * by (unfold q; rewrite <- KZ; ring). replace (k * - (e * z * (21 / 10))) with (- (21 / 10 * q)) in * by (unfold q; rewrite <- KZ; ring). lra. }
  assert (KB : Rabs (k * dh) <= 101 / 100 * c) by (apply Rabs_le; lra).
  assert (EB : e * Rabs (k * dh) <= 101 / 100 * q). { replace (101 / 100 * q) with (e * (101 / 100 * c)) by (unfold q; ring). apply scale; lra. }
  assert (BN : - (32 / 10 * q + / 1000 * e) <= B - (c - k) <= 32 / 10 * q + / 1000 * e) by (apply Rabs_le_inv in HB; lra).
  (* the sum *)
  apply Rabs_le_inv in HLp. assert (SA : Rabs (- L - A) <= 3 + 101 / 100 * N + / 100 * k) by (apply Rabs_le; lra).
  assert (ES : e * Rabs (- L - A) <= 3 * e + 101 / 100 * t + / 100 * p). { replace (3 * e + 101 / 100 * t + / 100 * p) with (e * (3 + 101 / 100 * N + / 100 * k)) by (unfold t, p; ring). apply scale; lra. }
  apply Rabs_le_inv in HS. assert (SN : - (10 * e + 42 / 10 * t + 14 / 10 * p) <= s - (- lp - N) <= 10 * e + 42 / 10 * t + 14 / 10 * p) by lra.
  assert (UA : Rabs (s + B) <= 3 + 101 / 100 * c) by (apply Rabs_le; lra). assert (EU : e * Rabs (s + B) <= 3 * e + 101 / 100 * q). { replace (3 * e + 101 / 100 * q) with (e * (3 + 101 / 100 * c)) by (unfold q; ring). apply scale; lra. }
  apply Rabs_le_inv in HU. replace (k * (z - 1 - ln z) - lp) with (- lp - N + (c - k)) by (unfold N; rewrite <- KZ; ring). replace (22 * e * c) with (22 * q) by (unfold q; ring).
  assert (X : 42 / 10 * t + 14 / 10 * p <= 42 / 10 * q) by lra. apply Rabs_le. lra.
Qed.

(** the square root of exponent minus logarithm; d bounds the error of the exponent, q = e * size *)
Lemma root_err : forall e q d Y v lv w, 0 < e <= / 1000000000 -> 2 <= Y -> e * Y <= q -> 0 <= d <= 1 / 4 -> 50 * q <= 1 / 2 -> 27 * q = d -> Rabs (v - Y) <= d ->
  Rabs (lv - ln v) <= 2 * e * ln v -> Rabs (w - (v - lv)) <= e * (Rabs (v - lv) + / 1000000) ->
  Rabs (w - (Y - ln Y)) <= 47 * q /\ 1 <= Y - ln Y <= Y /\ 0 < ln v.
Proof.
  intros e q d Y v lv w He HY EY Hd Hq HD HV HL HW. apply Rabs_le_inv in HV. assert (V1 : 7 / 4 <= v) by lra. assert (LV : 0 < ln v) by (rewrite <- ln_1; apply ln_increasing; lra).
  pose proof (ln_sub1 v ltac:(lra)) as L1. pose proof (ln_sub1 Y ltac:(lra)) as L2. assert (LY : 0 <= ln Y) by (rewrite <- ln_1; apply ln_mono; lra).
  pose proof (ln_lip Y v ltac:(lra) ltac:(lra)) as P. pose proof (ln_lip v Y ltac:(lra) ltac:(lra)) as Q.
  assert (P1 : (v - Y) / Y <= 4 / 7 * d). { apply Rmult_le_reg_r with Y; [lra|]. unfold Rdiv. rewrite Rmult_assoc, Rinv_l by lra. assert (4 * / 7 * d * 2 <= 4 * / 7 * d * Y) by (apply scale; lra). lra. }
  assert (Q1 : (Y - v) / v <= 4 / 7 * d). { apply Rmult_le_reg_r with v; [lra|]. unfold Rdiv. rewrite Rmult_assoc, Rinv_l by lra. assert (4 * / 7 * d * (7 / 4) <= 4 * / 7 * d * v) by (apply scale; lra). lra. }
  assert (EV : e * v <= 12 / 10 * q). { assert (e * v <= e * (12 / 10 * Y)) by (apply scale; lra). lra. } assert (E1 : e <= q / 2). { assert (e * 2 <= e * Y) by (apply scale; lra). lra. }
  assert (EL : e * ln v <= e * v) by (apply scale; lra). apply Rabs_le_inv in HL.
  assert (LB : Rabs (v - lv) <= 101 / 100 * v) by (apply Rabs_le; assert (e * ln v <= / 1000000000 * ln v) by (apply Rmult_le_compat_r; lra); lra).
  assert (EB : e * Rabs (v - lv) <= 101 / 100 * (12 / 10 * q)). { assert (e * Rabs (v - lv) <= e * (101 / 100 * v)) by (apply scale; lra). lra. }
  apply Rabs_le_inv in HW. split; [apply Rabs_le; lra|lra].
Qed.

(** ** binary64 *)
Definition fexponent (flog : f64 -> f64) (c k : f64) : f64 := fplus (fminus (fopp (flog f2pi)) (fmult k (flog (fdiv c k)))) (fmult k (fminus (fdiv c k) (ofZ 1))).
Lemma pos_ok : forall flog x, ffin x = true -> 0 < f2R x -> fmlog flog x = Ok (flog x).
Proof.
  intros flog x F P. unfold fmlog. assert (E : fle x fzero = false). { apply not_true_iff_false. intros H. apply (proj1 (fle_spec x fzero F eq_refl)) in H. change (f2R fzero) with 0 in H. lra. } rewrite E. reflexivity.
Qed.
Lemma nonpos_raises : forall flog x, ffin x = true -> f2R x <= 0 -> fmlog flog x = Raise ValueError.
Proof. intros flog x F P. unfold fmlog. assert (E : fle x fzero = true) by (apply (proj2 (fle_spec x fzero F eq_refl)); exact P). rewrite E. reflexivity. Qed.
Lemma in_b2 : forall x a b, (a <= b)%Z -> Rabs x <= b2 a -> Rabs x <= b2 b.
Proof. intros x a b H X. eapply Rle_trans; [exact X|]. apply Flocq.Core.Raux.bpow_le. exact H. Qed.

Lemma exponent64 : forall flog c k, good_log flog -> ffin c = true -> ffin k = true -> b2 (-100) <= f2R k <= f2R c -> 1 <= f2R c <= b2 46 ->
  ffin (fdiv c k) = true /\ 1 <= f2R (fdiv c k) /\ ffin (fexponent flog c k) = true /\ Rabs (f2R (fexponent flog c k) - exact_exponent (f2R c) (f2R k) 0) <= 22 * u53 * f2R c /\ Rabs (f2R (fexponent flog c k)) <= b2 49.
Proof.
  intros flog c k G Fc Fk Hk Hc. set (cc := f2R c) in *. set (kk := f2R k) in *. pose proof u53_pos as U. assert (UB : 0 < u53 <= / 1000000000) by lra. assert (B100 : 0 < b2 (-100)) by apply bpow_gt_0.
  assert (K0 : 0 < kk) by lra. set (z := cc / kk). assert (KZ : kk * z = cc) by (unfold z; field; lra). assert (Z1 : 1 <= z). { apply Rmult_le_reg_l with kk; [exact K0|]. rewrite KZ. lra. }
  assert (ZB : z <= b2 146). { apply Rmult_le_reg_l with kk; [exact K0|]. rewrite KZ. apply Rle_trans with (b2 (-100) * b2 146); [rewrite <- bpow_plus; apply Hc|]. apply Rmult_le_compat_r; [apply bpow_ge_0|apply Hk]. }
  destruct (fdiv_spec c k 146 Fc ltac:(unfold kk in K0; lra) ltac:(lia)) as [ZV ZF]. { fold cc kk z. rewrite Rabs_right by lra. exact ZB. }
  fold cc kk z in ZV. set (zf := fdiv c k) in *. assert (ZG : 1 <= f2R zf). { rewrite ZV. apply rnd_lb; [apply fmt_IZR; lia|exact Z1]. } assert (ZU : f2R zf <= b2 146). { rewrite ZV. apply rnd_ub; [apply fmt_bpow; lia|exact ZB]. }
  pose proof (rnd_rel z Z1) as ZR. rewrite <- ZV in ZR.
  destruct (G zf ZF ltac:(lra)) as [LF LE]. assert (LN : 0 <= ln (f2R zf)) by (rewrite <- ln_1; apply ln_mono; lra). rewrite (Rabs_right (ln (f2R zf))) in LE by lra. pose proof (ln_sub1 (f2R zf) ltac:(lra)) as LS.
  (* crude size of k * log: k * zh is about c *)
  assert (KH : kk * f2R zf <= 2 * cc). { rewrite <- KZ. apply Rabs_le_inv in ZR. assert (f2R zf <= 2 * z). { assert (u53 * z <= / 1000000000 * z) by (apply Rmult_le_compat_r; lra). lra. } assert (kk * f2R zf <= kk * (2 * z)) by (apply scale; lra). lra. }
  assert (LB : Rabs (f2R (flog zf)) <= 2 * f2R zf). { apply Rabs_le_inv in LE. assert (u53 * ln (f2R zf) <= / 1000000000 * ln (f2R zf)) by (apply Rmult_le_compat_r; lra). apply Rabs_le. lra. }
  assert (B46 : b2 46 = 70368744177664) by reflexivity.
  assert (KL : Rabs (kk * f2R (flog zf)) <= b2 48). { rewrite Rabs_mult, (Rabs_right kk) by lra. assert (kk * Rabs (f2R (flog zf)) <= kk * (2 * f2R zf)) by (apply scale; lra). change (b2 48) with 281474976710656. lra. }
  destruct (fmult_spec k (flog zf) 48 Fk LF ltac:(lia) KL) as [AV AF]. fold kk in AV. pose proof (rnd_abs (kk * f2R (flog zf))) as AR. rewrite <- AV in AR. set (Af := fmult k (flog zf)) in *.
  assert (AB : Rabs (f2R Af) <= b2 48) by (rewrite AV; apply rnd_abs_le; [apply fmt_bpow; lia|exact KL]).
  destruct (ofZ_spec 1 ltac:(lia)) as [OV OF]. destruct (fminus_spec zf (ofZ 1) 146 ZF OF ltac:(lia)) as [DV DF]. { rewrite OV, Rabs_right by lra. change (bpow radix2 146) with (b2 146). lra. }
  rewrite OV in DV. pose proof (rnd_minus_err (f2R zf) 1 (fmt_B2R zf) ltac:(apply fmt_IZR; lia)) as DR. rewrite <- DV in DR. set (Df := fminus zf (ofZ 1)) in *.
  assert (DB : 0 <= f2R Df <= f2R zf). { rewrite DV. split; [apply rnd_lb; [apply generic_format_0|lra]|apply rnd_ub; [apply fmt_B2R|lra]]. }
  assert (KD : Rabs (kk * f2R Df) <= b2 48). { rewrite Rabs_mult, (Rabs_right kk), (Rabs_right (f2R Df)) by lra. assert (kk * f2R Df <= kk * f2R zf) by (apply scale; lra). change (b2 48) with 281474976710656. lra. }
  destruct (fmult_spec k Df 48 Fk DF ltac:(lia) KD) as [BV BF]. fold kk in BV. pose proof (rnd_abs (kk * f2R Df)) as BR. rewrite <- BV in BR. set (Bf := fmult k Df) in *.
  assert (BB : Rabs (f2R Bf) <= b2 48) by (rewrite BV; apply rnd_abs_le; [apply fmt_bpow; lia|exact KD]).
  destruct (log_2pi flog G) as (PF & PE & PB). destruct (fopp_val (flog f2pi)) as [OPV OPF]. rewrite PF in OPF.
  assert (SB0 : Rabs (- f2R (flog f2pi) - f2R Af) <= b2 49 - 4). { apply Rabs_le_inv in AB. change (b2 48) with 281474976710656 in AB. change (b2 49) with 562949953421312. apply Rabs_le. lra. }
  destruct (fminus_spec (fopp (flog f2pi)) Af 49 OPF AF ltac:(lia)) as [SV SF]. { rewrite OPV. change (bpow radix2 49) with (b2 49). lra. }
  rewrite OPV in SV. pose proof (rnd_minus_err (- f2R (flog f2pi)) (f2R Af) ltac:(rewrite <- OPV; apply fmt_B2R) (fmt_B2R Af)) as SR. rewrite <- SV in SR. set (Sf := fminus (fopp (flog f2pi)) Af) in *.
  assert (SBD : Rabs (f2R Sf) <= b2 49). { rewrite SV. apply rnd_abs_le; [apply fmt_bpow; lia|lra]. }
  destruct (fplus_spec Sf Bf 50 SF BF ltac:(lia)) as [UV UF]. { change (bpow radix2 50) with 1125899906842624. change (b2 49) with 562949953421312 in *. change (b2 48) with 281474976710656 in *. apply Rabs_le_inv in SBD. apply Rabs_le_inv in BB. apply Rabs_le. lra. }
  pose proof (rnd_plus_err (f2R Sf) (f2R Bf) (fmt_B2R Sf) (fmt_B2R Bf)) as UR. rewrite <- UV in UR.
  pose proof ln2pi_12 as L12.
  pose proof (exponent_err u53 cc kk (f2R zf) (f2R (flog zf)) (f2R Af) (f2R Df) (f2R Bf) (ln (2 * PI)) (f2R (flog f2pi)) (f2R Sf) (f2R (fplus Sf Bf)) UB ltac:(lra) ltac:(lra) ltac:(lra) ZR ZG LE AR DR BR PE SR UR) as EE.
  split; [exact ZF|]. split; [exact ZG|]. change (fexponent flog c k) with (fplus Sf Bf). split; [exact UF|].
  assert (XX : Rabs (f2R (fplus Sf Bf) - exact_exponent cc kk 0) <= 22 * u53 * cc) by (unfold exact_exponent; rewrite Rplus_0_r; exact EE). split; [exact XX|].
  fold z in EE. pose proof (ln_sub1 z ltac:(lra)) as LZ. assert (LZ0 : 0 <= ln z) by (rewrite <- ln_1; apply ln_mono; lra). assert (NN : 0 <= kk * (z - 1 - ln z) <= cc). { split; [apply Rmult_le_pos; lra|]. rewrite <- KZ. apply scale; lra. }
  assert (QC : u53 * cc <= / 1000000000 * cc) by (apply Rmult_le_compat_r; lra). apply Rabs_le_inv in EE. change (b2 49) with 562949953421312. apply Rabs_le. lra.
Qed.

Lemma float_min : forall x, ffin x = true -> 0 < f2R x -> b2 (-1074) <= f2R x.
Proof.
  intros x F P. rewrite <- (Rabs_right (f2R x)) by lra. apply (abs_B2R_ge_emin 53 1024 x). destruct x as [s|s| |s m e p]; try discriminate; [unfold f2R in P; cbn [B2R] in P; lra|reflexivity].
Qed.
Lemma ln2_lt1 : ln 2 < 1.
Proof. pose proof (ln_sub1 (4 / 3) ltac:(lra)) as A. pose proof (ln_sub1 (3 / 2) ltac:(lra)) as B. replace 2 with (4 / 3 * (3 / 2)) by lra. rewrite ln_mult by lra. lra. Qed.
Lemma extra_bound : forall f, fraction_ok f -> 0 <= extra_of f <= 2148.
Proof.
  intros [f|] H; cbn [extra_of fraction_ok] in *; [|lra]. destruct H as (F & P). pose proof (float_min f F ltac:(lra)) as M. pose proof (ln_mono (f2R f) 1 ltac:(lra) (proj2 P)) as L1. rewrite ln_1 in L1.
  assert (L2 : ln (b2 (-1074)) <= ln (f2R f)) by (apply ln_mono; [apply bpow_gt_0|exact M]). rewrite bpow_exp, ln_exp in L2. change (IZR radix2) with 2 in L2. pose proof ln2_lt1 as L3. lra.
Qed.
(** the argument of the last logarithm, with or without the fraction of the fit *)
Lemma full_exponent64 : forall flog c k f, good_log flog -> ffin c = true -> ffin k = true -> b2 (-100) <= f2R k <= f2R c -> 1 <= f2R c <= b2 45 -> fraction_ok f ->
  exists v, ffin v = true /\ Rabs (f2R v - exact_exponent (f2R c) (f2R k) (extra_of f)) <= 27 * u53 * (f2R c + extra_of f) /\ Rabs (f2R v) <= b2 50 /\
    chernoff64 flog c k f = (let* lu := fmlog flog v in fmsqrt (fminus v lu)).
Proof.
  intros flog c k f G Fc Fk Hk Hc Hf. destruct (exponent64 flog c k G Fc Fk Hk) as (ZF & Z1 & UF & UE & UB). { split; [lra|]. apply Rle_trans with (b2 45); [lra|]. apply Flocq.Core.Raux.bpow_le. lia. }
  destruct (log_2pi flog G) as (PF & _ & PB). destruct fpi_val as [PV PVF]. pose proof u53_pos as U. set (x := fexponent flog c k) in *.
  assert (HEAD : chernoff64 flog c k f = (let* u := match f with None => Ok x | Some f => let* lf := fmlog flog f in Ok (fplus x (fmult (ofZ (-2)) lf)) end in let* lu := fmlog flog u in fmsqrt (fminus u lu))).
  { unfold chernoff64. rewrite (pos_ok flog f2pi PVF) by (rewrite PV; lra). cbn [rbind]. cbv zeta. rewrite (pos_ok flog _ ZF) by lra. cbn [rbind]. reflexivity. }
  rewrite HEAD. pose proof (extra_bound f Hf) as EB. destruct f as [f|]; cbn [extra_of] in *.
  - destruct Hf as (Ff & Pf). rewrite (pos_ok flog f Ff) by lra. cbn [rbind]. destruct (G f Ff ltac:(lra)) as [LF LE]. assert (LN0 : ln (f2R f) <= 0) by lra. set (ee := - (2 * ln (f2R f))) in *. assert (LA : Rabs (ln (f2R f)) = ee / 2) by (unfold ee; rewrite Rabs_left1; lra).
    rewrite LA in LE. apply Rabs_le_inv in LE. replace (ln (f2R f)) with (- (ee / 2)) in LE by (unfold ee; lra). set (t := u53 * ee). assert (T0 : 0 <= t) by (apply Rmult_le_pos; lra). assert (TE : t <= / 1000000000 * ee) by (apply Rmult_le_compat_r; lra). replace (2 * u53 * (ee / 2)) with t in LE by (unfold t; lra).
    destruct (ofZ_spec (-2) ltac:(lia)) as [TV TF]. destruct (fmult_spec (ofZ (-2)) (flog f) 20 TF LF ltac:(lia)) as [MV MF]. { rewrite TV. change (bpow radix2 20) with 1048576. apply Rabs_le. lra. }
    rewrite TV in MV. pose proof (rnd_abs (-2 * f2R (flog f))) as MR. rewrite <- MV in MR. set (Mf := fmult (ofZ (-2)) (flog f)) in *.
    assert (M1 : Rabs (-2 * f2R (flog f)) <= 101 / 100 * ee) by (apply Rabs_le; lra). assert (M2 : u53 * Rabs (-2 * f2R (flog f)) <= 101 / 100 * t). { replace (101 / 100 * t) with (u53 * (101 / 100 * ee)) by (unfold t; ring). apply scale; lra. }
    assert (ME : - (31 / 10 * t + / 1000 * u53) <= f2R Mf - ee <= 31 / 10 * t + / 1000 * u53) by (apply Rabs_le_inv in MR; lra).
    assert (XB : Rabs (f2R x + f2R Mf) <= b2 50). { change (b2 50) with 1125899906842624. change (b2 49) with 562949953421312 in UB. apply Rabs_le_inv in UB. apply Rabs_le. lra. }
    destruct (fplus_spec x Mf 50 UF MF ltac:(lia) XB) as [VV VF]. pose proof (rnd_plus_err (f2R x) (f2R Mf) (fmt_B2R x) (fmt_B2R Mf)) as VR. rewrite <- VV in VR. exists (fplus x Mf). split; [exact VF|]. split; [|split; [rewrite VV; apply rnd_abs_le; [apply fmt_bpow; lia|exact XB]|reflexivity]].
    unfold exact_exponent in *. set (cc := f2R c) in *. set (kk := f2R k) in *. assert (K0 : 0 < kk) by (assert (0 < b2 (-100)) by apply bpow_gt_0; lra). set (z := cc / kk) in *. assert (KZ : kk * z = cc) by (unfold z; field; lra). assert (Z2 : 1 <= z). { apply Rmult_le_reg_l with kk; [exact K0|]. rewrite KZ. lra. }
    pose proof (ln_sub1 z ltac:(lra)) as LZ. assert (LZ0 : 0 <= ln z) by (rewrite <- ln_1; apply ln_mono; lra). assert (NN : 0 <= kk * (z - 1 - ln z) <= cc). { split; [apply Rmult_le_pos; lra|]. rewrite <- KZ. apply scale; lra. }
    pose proof ln2pi_12 as L12. set (q := u53 * cc). replace (22 * u53 * cc) with (22 * q) in UE by (unfold q; ring). assert (UQ : u53 <= q) by (unfold q; rewrite <- (Rmult_1_r u53) at 1; apply scale; lra). assert (QC : q <= / 1000000000 * cc) by (apply Rmult_le_compat_r; lra).
    apply Rabs_le_inv in UE. assert (S1 : Rabs (f2R x + f2R Mf) <= 101 / 100 * cc + 2 + 101 / 100 * ee) by (apply Rabs_le; lra).
    assert (S2 : u53 * Rabs (f2R x + f2R Mf) <= 101 / 100 * q + 2 * u53 + 101 / 100 * t). { replace (101 / 100 * q + 2 * u53 + 101 / 100 * t) with (u53 * (101 / 100 * cc + 2 + 101 / 100 * ee)) by (unfold q, t; ring). apply scale; lra. }
    apply Rabs_le_inv in VR. replace (27 * u53 * (cc + ee)) with (27 * q + 27 * t) by (unfold q, t; ring). apply Rabs_le. lra.
  - cbn [rbind]. exists x. split; [exact UF|]. split; [|split; [apply (in_b2 _ 49); [lia|exact UB]|reflexivity]]. rewrite Rplus_0_r. eapply Rle_trans; [exact UE|]. assert (0 <= u53 * f2R c) by (apply Rmult_le_pos; lra). lra.
Qed.
Lemma root64 : forall flog v Y S, good_log flog -> ffin v = true -> Rabs (f2R v) <= b2 50 -> 2 <= Y <= S -> S <= b2 46 -> Rabs (f2R v - Y) <= 27 * u53 * S ->
  exists z, (let* lu := fmlog flog v in fmsqrt (fminus v lu)) = Ok z /\ ffin z = true /\ Rabs (f2R z - sqrt (Y - ln Y)) * sqrt (Y - ln Y) <= 50 * u53 * S /\ 1 <= sqrt (Y - ln Y).
Proof.
  intros flog v Y SS G F VB HY HS HV. pose proof u53_pos as U. assert (UB : 0 < u53 <= / 1000000000) by lra. set (q := u53 * SS). assert (Q1 : q <= / 128). { apply Rle_trans with (u53 * b2 46); [apply scale; lra|]. unfold u53. change (b2 46) with 70368744177664. lra. }
  assert (Q0 : 0 <= q) by (apply Rmult_le_pos; lra). replace (27 * u53 * SS) with (27 * q) in HV by (unfold q; ring). pose proof HV as HV'. apply Rabs_le_inv in HV'. assert (V1 : 17 / 10 <= f2R v) by lra.
  rewrite (pos_ok flog v F) by lra. cbn [rbind]. destruct (G v F ltac:(lra)) as [LF LE]. assert (L0 : 0 <= ln (f2R v)) by (rewrite <- ln_1; apply ln_mono; lra). rewrite (Rabs_right (ln (f2R v))) in LE by lra. pose proof (ln_sub1 (f2R v) ltac:(lra)) as LS.
  assert (LU : u53 * ln (f2R v) <= / 1000000000 * ln (f2R v)) by (apply Rmult_le_compat_r; lra). pose proof LE as LE'. apply Rabs_le_inv in LE'.
  assert (WB : 0 <= f2R v - f2R (flog v) <= b2 50). { apply Rabs_le_inv in VB. pose proof (ln_lip 2 (f2R v) ltac:(lra) ltac:(lra)) as LL. pose proof ln2_lt1. split; lra. }
  destruct (fminus_spec v (flog v) 50 F LF ltac:(lia)) as [WV WF]. { rewrite Rabs_right by lra. apply WB. }
  pose proof (rnd_abs (f2R v - f2R (flog v))) as WR. rewrite <- WV in WR. set (W := fminus v (flog v)) in *. assert (W0 : 0 <= f2R W) by (rewrite WV; apply rnd_lb; [apply generic_format_0|apply WB]).
  assert (EY : u53 * Y <= q) by (apply scale; lra).
  destruct (root_err u53 q (27 * q) Y (f2R v) (f2R (flog v)) (f2R W) UB ltac:(lra) EY ltac:(lra) ltac:(lra) eq_refl HV LE WR) as (E & RY & _).
  unfold fmsqrt. assert (NL : flt W fzero = false). { apply not_true_iff_false. intros H. apply (proj1 (flt_spec W fzero WF eq_refl)) in H. change (f2R fzero) with 0 in H. lra. } rewrite NL.
  destruct (fsqrt_spec W WF W0) as [SV SF]. exists (fsqrt W). split; [reflexivity|]. split; [exact SF|]. rewrite SV. set (ww := f2R W) in *. set (WW := Y - ln Y) in *.
  assert (R1 : 1 <= sqrt WW) by (rewrite <- sqrt_1; apply sqrt_le_1; lra). split; [|exact R1].
  pose proof (sqrt_close ww WW _ W0 ltac:(lra) E) as SC. pose proof (sqrt_sqrt WW ltac:(lra)) as RR. pose proof (sqrt_sqrt ww W0) as rr. pose proof (rnd_abs (sqrt ww)) as RD. rewrite (Rabs_right (sqrt ww)) in RD by (apply Rle_ge, sqrt_pos).
  assert (RW : sqrt ww <= 2 * sqrt WW). { assert (A : Rabs (sqrt ww - sqrt WW) * 1 <= Rabs (sqrt ww - sqrt WW) * sqrt WW) by (apply scale; [apply Rabs_pos|exact R1]). assert (B : Rabs (sqrt ww - sqrt WW) <= 1) by lra. apply Rabs_le_inv in B. lra. }
  assert (RD2 : Rabs (rnd (sqrt ww) - sqrt ww) * sqrt WW <= 3 * q).
  { apply Rle_trans with (u53 * (21 / 10 * sqrt WW) * sqrt WW); [apply Rmult_le_compat_r; [lra|]; eapply Rle_trans; [exact RD|]; apply scale; lra|].
    replace (u53 * (21 / 10 * sqrt WW) * sqrt WW) with (21 / 10 * (u53 * (sqrt WW * sqrt WW))) by ring. rewrite RR. assert (u53 * WW <= u53 * Y) by (apply scale; lra). lra. }
  pose proof (rabs_split (rnd (sqrt ww)) (sqrt ww) (sqrt WW)) as T. assert (T2 : Rabs (rnd (sqrt ww) - sqrt WW) * sqrt WW <= (Rabs (rnd (sqrt ww) - sqrt ww) + Rabs (sqrt ww - sqrt WW)) * sqrt WW) by (apply Rmult_le_compat_r; lra).
  replace (50 * u53 * SS) with (50 * q) by (unfold q; ring). lra.
Qed.
