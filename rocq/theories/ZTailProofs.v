(** Rounding errors of the far-tail Z-values (C103, C104). *)
From Coq Require Import ZArith List Bool Reals Lia Lra Psatz.
Import ListNotations.
From Flocq Require Import Core BinarySingleNaN Mult_error.
From Verif Require Import F64 Base LinspaceProofs BrentFModel BrentFProofs GlobFModel PropsGlobF SpecChi2F Chi2FProofs SpecGStat GStatProofs PiBound ZTailModel SpecZTail.
Open Scope R_scope.

Lemma u53_small : u53 <= / 1000000000000000. Proof. unfold u53. lra. Qed.
Lemma fpi_val : f2R f2pi = 7074237752028440 * / 1125899906842624 /\ ffin f2pi = true.
Proof.
  assert (P : f2R fpi = 7074237752028440 * / 2251799813685248 /\ ffin fpi = true).
  { destruct (flit_spec 7074237752028440 (-51)) as [A B]; [lia|lia|lia|]. split; [|exact B]. unfold fpi. rewrite A. reflexivity. }
  destruct P as [P PF]. destruct (ofZ_spec 2 ltac:(lia)) as [T TF]. destruct (fmult_spec (ofZ 2) fpi 10 TF PF ltac:(lia)) as [A B].
  { rewrite T, P. rewrite Rabs_right by lra. change (bpow radix2 10) with 1024. lra. }
  unfold f2pi. split; [|exact B]. rewrite A, T, P. replace (2 * (7074237752028440 * / 2251799813685248)) with (IZR 7074237752028440 * b2 (-50)) by (rewrite b2_m50; lra).
  rewrite rnd_id; [rewrite b2_m50; reflexivity|]. apply fmt_F2R; lia.
Qed.
Lemma ln2pi_12 : 1 < ln (2 * PI) < 2.
Proof.
  pose proof pi_bound as P. split.
  - apply exp_lt_inv. rewrite exp_ln by lra. pose proof exp_le_3. lra.
  - apply exp_lt_inv. rewrite exp_ln by lra. assert (E : 9 / 8 <= exp (1 / 8)) by (pose proof (exp_ineq1_le (1 / 8)); lra).
    replace 2 with (1 / 8 + 1 / 8 + (1 / 8 + 1 / 8) + (1 / 8 + 1 / 8 + (1 / 8 + 1 / 8)) + (1 / 8 + 1 / 8 + (1 / 8 + 1 / 8) + (1 / 8 + 1 / 8 + (1 / 8 + 1 / 8)))) by lra.
    rewrite !exp_plus. set (q := exp (1 / 8)) in *. assert (A : 81 / 64 <= q * q) by nra. assert (B : 6561 / 4096 <= q * q * (q * q)) by nra.
    assert (C : 256 / 100 <= q * q * (q * q) * (q * q * (q * q))) by nra. nra.
Qed.
Lemma log_2pi : forall flog, good_log flog -> ffin (flog f2pi) = true /\ Rabs (f2R (flog f2pi) - ln (2 * PI)) <= 6 * u53 /\ 9 / 10 < f2R (flog f2pi) < 21 / 10.
Proof.
  intros flog G. destruct fpi_val as [V F]. pose proof pi_bound as P. pose proof u53_pos as U. pose proof u53_small as US. destruct (G f2pi F) as [A B]; [rewrite V; lra|]. split; [exact A|].
  assert (D : Rabs (ln (f2R f2pi) - ln (2 * PI)) <= u53).
  { rewrite <- (Rmult_1_l u53). set (d := (f2R f2pi - 2 * PI) / (2 * PI)). assert (E : f2R f2pi = 2 * PI * (1 + d)) by (unfold d; field; lra).
    assert (DD : Rabs d <= 2 / 3 * u53). { unfold d, Rdiv. rewrite Rabs_mult, (Rabs_right (/ (2 * PI))) by (apply Rle_ge, Rlt_le, Rinv_0_lt_compat; lra).
      apply Rmult_le_reg_r with (2 * PI); [lra|]. rewrite Rmult_assoc, Rinv_l, Rmult_1_r by lra. rewrite V. unfold u53. apply Rabs_le. split; lra. }
    assert (D2 : Rabs (ln (1 + d)) <= 1002 / 1000 * (2 / 3 * u53)) by (apply ln_near1; [lra|exact DD]).
    apply Rabs_le_inv in DD. rewrite E, ln_mult by lra. replace (ln (2 * PI) + ln (1 + d) - ln (2 * PI)) with (ln (1 + d)) by ring. lra. }
  pose proof ln2pi_12 as L. apply Rabs_le_inv in D. rewrite (Rabs_right (ln (f2R f2pi))) in B by lra. apply Rabs_le_inv in B.
  assert (X : - (6 * u53) <= f2R (flog f2pi) - ln (2 * PI) <= 6 * u53) by nra.
  split; [apply Rabs_le; lra|lra].
Qed.
Lemma gap : forall x y, fmt x -> fmt y -> 0 < x < y -> u53 * x <= y - x.
Proof.
  intros x y Fx Fy [P L]. pose proof (succ_le_lt radix2 (SpecFloat.fexp 53 1024) x y Fx Fy L) as S1. rewrite succ_eq_pos in S1 by lra.
  assert (G : Rabs x * bpow radix2 (- 53) <= Ulp.ulp radix2 (SpecFloat.fexp 53 1024) x).
  { apply Rlt_le. apply (ulp_FLT_gt radix2 (-1074) 53). }
  rewrite Rabs_right in G by lra. assert (E : bpow radix2 (-53) = u53) by reflexivity. rewrite E in G. lra.
Qed.
(** the logarithm of a perturbed argument *)
Lemma ln_lip : forall a b, 0 < a -> 0 < b -> ln b - ln a <= (b - a) / a.
Proof.
  intros a b A B. pose proof (ln_sub1 (b / a) ltac:(apply Rdiv_lt_0_compat; assumption)) as H. unfold Rdiv in H. rewrite ln_mult in H by (try assumption; apply Rinv_0_lt_compat; assumption). rewrite ln_Rinv in H by assumption.
  replace ((b - a) / a) with (b * / a - 1) by (field; lra). lra.
Qed.
Lemma ln_sqrt_bound : forall x, 1000 <= x -> ln x <= x / 15.
Proof.
  intros x X. assert (S1 : 0 < sqrt x) by (apply sqrt_lt_R0; lra). pose proof (sqrt_sqrt x ltac:(lra)) as SS. assert (E : ln x = 2 * ln (sqrt x)) by (rewrite <- SS at 1; rewrite ln_mult by assumption; ring).
  pose proof (ln_sub1 (sqrt x) S1). assert (30 <= sqrt x) by (apply Rsqr_incr_0_var; [unfold Rsqr; lra|lra]). nra.
Qed.
Lemma rnd_rel : forall x, 1 <= x -> Rabs (rnd x - x) <= u53 * x * (1 + / 1000000).
Proof.
  intros x X. pose proof (rnd_err x) as E. rewrite (Rabs_right x) in E by lra. pose proof u53_pos as U. assert (H : eta0 <= u53 * / 1000000).
  { unfold eta0. apply Rle_trans with (b2 (-74)); [apply Flocq.Core.Raux.bpow_le; lia|]. change (b2 (-74)) with (/ 18889465931478580854784). unfold u53. lra. }
  nra.
Qed.
Lemma rnd_abs : forall x, Rabs (rnd x - x) <= u53 * (Rabs x + / 1000000).
Proof.
  intros x. pose proof (rnd_err x) as E. pose proof u53_pos as U. assert (H : eta0 <= u53 * / 1000000).
  { unfold eta0. apply Rle_trans with (b2 (-74)); [apply Flocq.Core.Raux.bpow_le; lia|]. change (b2 (-74)) with (/ 18889465931478580854784). unfold u53. lra. }
  lra.
Qed.
Lemma sqrt_close : forall w W e, 0 <= w -> 0 < W -> Rabs (w - W) <= e -> Rabs (sqrt w - sqrt W) * sqrt W <= e.
Proof.
  intros w W e P Q E. assert (S1 : 0 < sqrt W) by (apply sqrt_lt_R0; exact Q). pose proof (sqrt_pos w) as S0. pose proof (sqrt_sqrt w P) as A. pose proof (sqrt_sqrt W ltac:(lra)) as B.
  rewrite <- A, <- B in E. replace (sqrt w * sqrt w - sqrt W * sqrt W) with ((sqrt w - sqrt W) * (sqrt w + sqrt W)) in E by ring. rewrite Rabs_mult, (Rabs_right (sqrt w + sqrt W)) in E by lra.
  pose proof (Rabs_pos (sqrt w - sqrt W)). nra.
Qed.

Lemma sqrt_rel : forall w W, 900 < W -> Rabs (w - W) <= 25 / 10 * u53 * W -> 0 <= w /\ Rabs (rnd (sqrt w) - sqrt W) <= 3 * u53 * sqrt W.
Proof.
  intros w W WB D. pose proof u53_pos as U. pose proof u53_small as US. assert (WP : 0 <= w). { apply Rabs_le_inv in D. assert (25 / 10 * u53 * W <= 1 * W) by (apply Rmult_le_compat_r; lra). lra. } split; [exact WP|].
  assert (SW : 30 < sqrt W). { apply Rsqr_incrst_0; [|lra|apply sqrt_pos]. rewrite Rsqr_sqrt by lra. unfold Rsqr. lra. }
  pose proof (sqrt_close w W _ WP ltac:(lra) D) as SC. pose proof (sqrt_sqrt W ltac:(lra)) as WW.
  assert (S1 : Rabs (sqrt w - sqrt W) <= 25 / 10 * u53 * sqrt W). { apply Rmult_le_reg_r with (sqrt W); [lra|]. rewrite Rmult_assoc, WW. exact SC. }
  assert (S2 : Rabs (sqrt w - sqrt W) <= 13 / 10 * u53 * sqrt W).
  { apply Rabs_le_inv in S1. pose proof (sqrt_sqrt w WP) as Ww. rewrite <- Ww, <- WW in D. replace (sqrt w * sqrt w - sqrt W * sqrt W) with ((sqrt w - sqrt W) * (sqrt w + sqrt W)) in D by ring.
    rewrite Rabs_mult, (Rabs_right (sqrt w + sqrt W)) in D by (apply Rle_ge; pose proof (sqrt_pos w); lra). pose proof (Rabs_pos (sqrt w - sqrt W)) as AP. set (r := sqrt W) in *. set (q := sqrt w) in *. set (d := Rabs (q - r)) in *.
    assert (SS : (2 - 3 * u53) * r <= q + r) by lra. apply Rmult_le_reg_r with ((2 - 3 * u53) * r); [apply Rmult_lt_0_compat; lra|]. eapply Rle_trans; [apply Rmult_le_compat_l; [exact AP|exact SS]|]. eapply Rle_trans; [exact D|].
    replace (25 / 10 * u53 * (r * r)) with (u53 * (r * r) * (25 / 10)) by ring. replace (13 / 10 * u53 * r * ((2 - 3 * u53) * r)) with (u53 * (r * r) * (13 / 10 * (2 - 3 * u53))) by ring.
    apply Rmult_le_compat_l; [|lra]. apply Rmult_le_pos; [lra|]. apply Rmult_le_pos; lra. }
  set (r := sqrt W) in *. set (q := sqrt w) in *. assert (T : u53 * r <= / 1000000 * r) by (apply Rmult_le_compat_r; lra). apply Rabs_le_inv in S2. assert (W1 : 1 <= q) by lra. pose proof (rnd_rel q W1) as R3.
  assert (QR : u53 * q <= u53 * ((1 + / 100000) * r)) by (apply Rmult_le_compat_l; lra). apply Rabs_le_inv in R3. apply Rabs_le. lra.
Qed.

(** ** z_from_logp *)
Definition ftail (flog : f64 -> f64) (l : f64) : f64 := fminus (fmult (ofZ (-2)) (flog f2pi)) (fmult (ofZ 2) l).
Lemma tail_u : forall flog, good_log flog -> exists c, fmt c /\ Rabs (c + 2 * ln (2 * PI)) <= 18 * u53 /\
  forall l, ffin l = true -> - b2 1022 <= f2R l <= -740 -> ffin (ftail flog l) = true /\ f2R (ftail flog l) = rnd (c - 2 * f2R l) /\ 1000 <= f2R (ftail flog l) <= b2 1023.
Proof.
  intros flog G. destruct (log_2pi flog G) as (F & E & B). pose proof u53_pos as U. pose proof u53_small as US. destruct (ofZ_spec (-2) ltac:(lia)) as [T TF].
  destruct (fmult_spec (ofZ (-2)) (flog f2pi) 10 TF F ltac:(lia)) as [M MF]. { rewrite T. change (bpow radix2 10) with 1024. apply Rabs_le. lra. }
  rewrite T in M. exists (f2R (fmult (ofZ (-2)) (flog f2pi))). split; [apply fmt_B2R|]. assert (C : Rabs (f2R (fmult (ofZ (-2)) (flog f2pi)) + 2 * ln (2 * PI)) <= 18 * u53).
  { pose proof (rnd_abs (-2 * f2R (flog f2pi))) as R1. rewrite <- M in R1. rewrite (Rabs_left (-2 * _)) in R1 by lra. apply Rabs_le_inv in E. apply Rabs_le_inv in R1. apply Rabs_le. nra. }
  split; [exact C|]. intros l Fl [L1 L2]. destruct (ofZ_spec 2 ltac:(lia)) as [T2 TF2].
  assert (BB : b2 1023 = 2 * b2 1022). { replace 1023%Z with (1 + 1022)%Z by lia. rewrite bpow_plus. reflexivity. }
  assert (B1 : 1024 <= b2 1022) by (change 1024 with (b2 10); apply Flocq.Core.Raux.bpow_le; lia).
  destruct (fmult_spec (ofZ 2) l 1023 TF2 Fl ltac:(lia)) as [N NF]. { rewrite T2. change (bpow radix2 1023) with (b2 1023). apply Rabs_le. lra. }
  rewrite T2 in N. rewrite rnd_id in N. 2:{ rewrite Rmult_comm. change 2 with (bpow radix2 1). apply (mult_bpow_pos_exact_FLT radix2 (-1074) 53); [apply fmt_B2R|lia]. }
  pose proof ln2pi_12 as LP. apply Rabs_le_inv in C.
  destruct (fminus_spec (fmult (ofZ (-2)) (flog f2pi)) (fmult (ofZ 2) l) 1023 MF NF ltac:(lia)) as [A AF]. { rewrite N. change (bpow radix2 1023) with (b2 1023). apply Rabs_le. lra. }
  split; [exact AF|]. unfold ftail. rewrite A, N. split; [reflexivity|]. split.
  - apply rnd_lb; [apply fmt_IZR; lia|]. lra.
  - apply rnd_ub; [apply fmt_bpow; lia|]. lra.
Qed.
Lemma tail_w : forall flog v, good_log flog -> ffin v = true -> 1000 <= f2R v <= b2 1023 ->
  ffin (fminus v (flog v)) = true /\ f2R (fminus v (flog v)) = rnd (f2R v - f2R (flog v)) /\ Rabs (f2R (flog v) - ln (f2R v)) <= 2 * u53 * ln (f2R v) /\ 900 <= f2R v - f2R (flog v) <= b2 1023 /\ 0 < ln (f2R v).
Proof.
  intros flog v G F [V1 V2]. pose proof u53_pos as U. destruct (G v F) as [LF LE]; [lra|]. assert (LP : 0 < ln (f2R v)) by (rewrite <- ln_1; apply ln_increasing; lra). rewrite (Rabs_right (ln _)) in LE by lra.
  pose proof (ln_sqrt_bound (f2R v) V1) as LB. pose proof LE as LE'. apply Rabs_le_inv in LE'.
  assert (W : 900 <= f2R v - f2R (flog v) <= b2 1023) by nra.
  destruct (fminus_spec v (flog v) 1023 F LF ltac:(lia)) as [A AF]. { change (bpow radix2 1023) with (b2 1023). apply Rabs_le. lra. }
  repeat split; try assumption; try apply W.
Qed.
Lemma tail_mono : forall flog x y, good_log flog -> ffin x = true -> ffin y = true -> 1000 <= f2R x -> f2R x <= f2R y -> f2R y <= b2 1023 ->
  f2R (fminus x (flog x)) <= f2R (fminus y (flog y)).
Proof.
  intros flog x y G Fx Fy X [L|E] Y.
  - destruct (tail_w flog x G Fx ltac:(lra)) as (_ & -> & EX & _ & PX). destruct (tail_w flog y G Fy ltac:(lra)) as (_ & -> & EY & _ & PY). apply rnd_le.
    pose proof (gap (f2R x) (f2R y) (fmt_B2R x) (fmt_B2R y) ltac:(lra)) as GP. pose proof (ln_lip (f2R x) (f2R y) ltac:(lra) ltac:(lra)) as LL. pose proof (ln_sqrt_bound (f2R x) X) as LB. pose proof u53_pos as U.
    assert (LL' : ln (f2R y) - ln (f2R x) <= (f2R y - f2R x) / 1000).
    { eapply Rle_trans; [exact LL|]. unfold Rdiv. apply Rmult_le_compat_l; [lra|]. apply Rinv_le_contravar; lra. }
    apply Rabs_le_inv in EX. apply Rabs_le_inv in EY. set (a := f2R x) in *. set (b := f2R y) in *. set (p := ln a) in *. set (q := ln b) in *.
    assert (2 * u53 * (q - p) <= (b - a) / 1000). { apply Rle_trans with (1 * (q - p)); [|lra]. apply Rmult_le_compat_r; [|lra]. unfold p, q. assert (ln a < ln b) by (apply ln_increasing; lra). lra. }
    assert (4 * u53 * p <= 4 / 15 * (u53 * a)) by nra. lra.
  - assert (H : x = y). { apply (B2R_inj 53 1024); [| |exact E]; unfold is_finite_strict; destruct x, y; try reflexivity; try discriminate; unfold f2R in *; cbn [B2R] in *; exfalso; lra. }
    rewrite H. lra.
Qed.
Lemma tail_close : forall flog l, good_log flog -> ffin l = true -> - b2 1022 <= f2R l <= -740 -> let v := ftail flog l in
  ffin (fsqrt (fminus v (flog v))) = true /\ Rabs (f2R (fsqrt (fminus v (flog v))) - exact_tail (f2R l)) <= 3 * u53 * exact_tail (f2R l) /\ 30 < exact_tail (f2R l).
Proof.
  intros flog l G F L v. destruct (tail_u flog G) as (c & FC & C & H). destruct (H l F L) as (VF & VE & VB). fold v in VF, VE, VB. destruct (tail_w flog v G VF VB) as (WF & WE & LE & WB & LP).
  pose proof u53_pos as U. pose proof u53_small as US. pose proof ln2pi_12 as L2. unfold exact_tail. cbv zeta. set (UU := - 2 * ln (2 * PI) - 2 * f2R l).
  assert (UB : 1400 <= UU) by (unfold UU; lra). apply Rabs_le_inv in C.
  assert (V : Rabs (f2R v - UU) <= u53 * UU * (103 / 100)).
  { pose proof (rnd_rel (c - 2 * f2R l) ltac:(lra)) as R1. rewrite <- VE in R1. apply Rabs_le_inv in R1. assert (X : - (18 * u53) <= c - 2 * f2R l - UU <= 18 * u53) by (unfold UU; lra). apply Rabs_le. nra. }
  pose proof (ln_sqrt_bound UU ltac:(lra)) as LB. assert (LN : Rabs (ln (f2R v) - ln UU) <= 2 * u53).
  { apply Rabs_le_inv in V. assert (V2 : UU * (1 - 2 * u53) <= f2R v <= UU * (1 + 2 * u53)) by nra. pose proof (ln_lip UU (f2R v) ltac:(lra) ltac:(lra)) as A. pose proof (ln_lip (f2R v) UU ltac:(lra) ltac:(lra)) as B.
    assert (A1 : (f2R v - UU) / UU <= 2 * u53). { apply Rmult_le_reg_r with UU; [lra|]. unfold Rdiv. rewrite Rmult_assoc, Rinv_l by lra. nra. }
    assert (B1 : (UU - f2R v) / f2R v <= 2 * u53). { apply Rmult_le_reg_r with (f2R v); [lra|]. unfold Rdiv. rewrite Rmult_assoc, Rinv_l by lra. nra. }
    apply Rabs_le. lra. }
  apply Rabs_le_inv in V. apply Rabs_le_inv in LN. apply Rabs_le_inv in LE. assert (LU : 0 < ln UU) by (rewrite <- ln_1; apply ln_increasing; lra).
  set (W := UU - ln UU). assert (WU : 14 / 15 * UU <= W <= UU) by (unfold W; lra).
  assert (LL : - (u53 * (UU * (2 / 15) + 5)) <= f2R (flog v) - ln UU <= u53 * (UU * (2 / 15) + 5)) by nra.
  pose proof (rnd_rel (f2R v - f2R (flog v)) ltac:(lra)) as R2. rewrite <- WE in R2. apply Rabs_le_inv in R2. set (w := f2R (fminus v (flog v))) in *.
  assert (D : Rabs (w - W) <= 25 / 10 * u53 * W). { set (t := u53 * UU) in *. assert (T1 : 1400 * u53 <= t) by (unfold t; rewrite (Rmult_comm 1400); apply Rmult_le_compat_l; lra). assert (T2 : t <= 15 / 14 * (u53 * W)) by (unfold t; replace (15 / 14 * (u53 * W)) with (u53 * (15 / 14 * W)) by ring; apply Rmult_le_compat_l; lra).
    assert (T3 : t <= / 1000000 * UU) by (unfold t; apply Rmult_le_compat_r; lra).
    assert (Q : f2R v - f2R (flog v) <= 1001 / 1000 * UU). { replace (u53 * (UU * (2 / 15) + 5)) with (2 / 15 * t + 5 * u53) in LL by (unfold t; ring). lra. }
    assert (Q2 : u53 * (f2R v - f2R (flog v)) <= 1001 / 1000 * t). { unfold t. replace (1001 / 1000 * (u53 * UU)) with (u53 * (1001 / 1000 * UU)) by ring. apply Rmult_le_compat_l; lra. }
    replace (u53 * (UU * (2 / 15) + 5)) with (2 / 15 * t + 5 * u53) in LL by (unfold t; ring). replace (w - W) with ((w - (f2R v - f2R (flog v))) + (f2R v - UU) - (f2R (flog v) - ln UU)) by (unfold W; ring).
    replace (25 / 10 * u53 * W) with (25 / 10 * (u53 * W)) by ring. apply Rabs_le. lra. }
  destruct (sqrt_rel w W ltac:(lra) D) as [WP SR].
  destruct (fsqrt_spec _ WF WP) as [SE SF]. split; [exact SF|]. rewrite SE. fold w. split; [exact SR|].
  apply Rsqr_incrst_0; [|lra|apply sqrt_pos]. rewrite Rsqr_sqrt by lra. unfold Rsqr. lra.
Qed.
