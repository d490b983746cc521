(** C92: global_phik in binary64. *)
From Coq Require Import ZArith List Bool Reals Lia Lra.
Import ListNotations.
From Flocq Require Import Core BinarySingleNaN.
From Verif Require Import F64 LinspaceProofs BrentFModel BrentFProofs SpecChi2F Chi2FProofs GlobFModel.
Open Scope R_scope.

Lemma fsqrt_spec : forall x, ffin x = true -> 0 <= f2R x -> f2R (fsqrt x) = rnd (sqrt (f2R x)) /\ ffin (fsqrt x) = true.
Proof.
  intros x F H. destruct (Bsqrt_correct 53 1024 _ _ mode_NE x) as (A & B & _). split; [exact A|]. unfold ffin, fsqrt. rewrite B. destruct x as [s|s| |s m e p]; try discriminate; [reflexivity|].
  destruct s; [|reflexivity]. exfalso. unfold f2R, B2R in H. assert (F2R (Float radix2 (cond_Zopp true (Zpos m)) e) < 0) by (apply F2R_lt_0; reflexivity). lra.
Qed.
Lemma fsqrt_neg : forall x, ffin x = true -> f2R x < 0 -> fisnan (fsqrt x) = true.
Proof.
  intros x F H. destruct x as [s|s| |s m e p]; try discriminate; [unfold f2R, B2R in H; lra|]. destruct s; [reflexivity|]. exfalso.
  unfold f2R, B2R in H. assert (0 < F2R (Float radix2 (cond_Zopp false (Zpos m)) e)) by (apply F2R_gt_0; reflexivity). lra.
Qed.
(** 1.0 * w *)
Lemma one_mult : forall w, ffin w = true -> f2R (fmult fone w) = f2R w /\ ffin (fmult fone w) = true.
Proof.
  intros w F. destruct fone_val as [OV OF]. generalize (Bmult_correct 53 1024 _ _ mode_NE fone w). change (B2R fone) with (f2R fone). rewrite OV, Rmult_1_l. change (round radix2 (SpecFloat.fexp 53 1024) (round_mode mode_NE) (B2R w)) with (rnd (f2R w)). rewrite rnd_id by apply fmt_B2R.
  rewrite Rlt_bool_true by exact (abs_B2R_lt_emax 53 1024 w). intros (A & B & _). split; [exact A|]. unfold ffin, fmult. rewrite B. fold (ffin fone) (ffin w). rewrite OF, F. reflexivity.
Qed.
(** 1.0 / w *)
Lemma one_div : forall w, ffin w = true -> f2R w <> 0 -> (ffin (fdiv fone w) = true /\ f2R (fdiv fone w) = rnd (1 / f2R w)) \/ fdiv fone w = B754_infinity (Bsign w).
Proof.
  intros w F NZ. destruct fone_val as [OV OF]. generalize (Bdiv_correct 53 1024 _ _ mode_NE fone w NZ). change (B2R fone) with (f2R fone). rewrite OV.
  change (round radix2 (SpecFloat.fexp 53 1024) (round_mode mode_NE) (1 / B2R w)) with (rnd (1 / f2R w)). destruct (Rlt_bool _ _).
  - intros (A & B & _). left. split; [|exact A]. unfold ffin, fdiv. rewrite B. exact OF.
  - intros E. right. change (Bsign fone) with false in E. cbn [xorb] in E. unfold fdiv. destruct (Bdiv mode_NE fone w) as [s|s| |s m e p]; cbn in E; try discriminate. injection E as ->. destruct (Bsign w); reflexivity.
Qed.

Lemma sign_pos : forall w : f64, 0 < f2R w -> Bsign w = false.
Proof. intros w H. destruct (Bsign w) eqn:E; [|reflexivity]. apply sign_le in E. unfold f2R in H. lra. Qed.
Lemma sign_neg : forall w : f64, f2R w < 0 -> Bsign w = true.
Proof. intros w H. destruct (Bsign w) eqn:E; [reflexivity|]. apply sign_ge in E. unfold f2R in H. lra. Qed.
Lemma f1 : fmt 1. Proof. apply (fmt_IZR 1). lia. Qed.
Lemma ulp1 : Ulp.succ radix2 (SpecFloat.fexp 53 1024) 1 = 1 + / 4503599627370496.
Proof.
  rewrite succ_eq_pos by lra. rewrite ulp_neq_0 by lra. unfold cexp. rewrite (mag_unique radix2 1 1) by (rewrite Rabs_R1; change (b2 (1 - 1)) with 1; change (b2 1) with 2; lra). change (SpecFloat.fexp 53 1024 1) with (-52)%Z. reflexivity.
Qed.
Lemma pred1 : fmt (1 - / 9007199254740992).
Proof. replace (1 - / 9007199254740992) with (IZR 9007199254740991 * b2 (-53)) by (change (b2 (-53)) with (/ 9007199254740992); lra). apply fmt_F2R; [change (2 ^ 53)%Z with 9007199254740992%Z; lia|lia]. Qed.
Lemma pred_1 : Ulp.pred radix2 (SpecFloat.fexp 53 1024) 1 = 1 - / 9007199254740992.
Proof. change 1 with (b2 0) at 1. rewrite pred_bpow. change (SpecFloat.fexp 53 1024 0) with (-53)%Z. reflexivity. Qed.
Lemma above_one : forall x, fmt x -> 1 < x -> 1 + / 4503599627370496 <= x.
Proof. intros x F H. rewrite <- ulp1. apply succ_le_lt; [exact vexp|exact f1|exact F|exact H]. Qed.
Lemma below_one : forall x, fmt x -> x < 1 -> x <= 1 - / 9007199254740992.
Proof. intros x F H. rewrite <- pred_1. apply pred_ge_gt; [exact vexp|exact F|exact f1|exact H]. Qed.

(** what one entry is, for every float the inversion may have produced on the diagonal *)
Lemma entry_ge1 : forall w, ffin w = true -> 1 <= f2R w -> let g := gcorr64 fone w in ffin g = true /\ 0 <= f2R g <= 1 /\ Rabs (f2R g * f2R g - (1 - 1 / f2R w)) <= b2 (-50) /\
  (f2R w = 1 -> f2R g = 0) /\ (1 < f2R w -> b2 (-27) <= f2R g).
Proof.
  intros w F H g. destruct fone_val as [OV OF]. destruct (one_mult w F) as [V1 F1]. unfold g, gcorr64. set (y := fmult fone w) in *.
  assert (IW : 0 < 1 / f2R w <= 1) by (unfold Rdiv; rewrite Rmult_1_l; split; [apply Rinv_0_lt_compat; lra|rewrite <- Rinv_1; apply Rinv_le_contravar; lra]).
  destruct (fdiv_spec fone y 0 OF ltac:(rewrite V1; lra) ltac:(lia)) as [V2 F2]; [rewrite OV, V1; change (b2 0) with 1; apply Rabs_le; lra|]. rewrite OV, V1 in V2. set (z := fdiv fone y) in *.
  assert (Z01 : 0 <= f2R z <= 1) by (rewrite V2; split; [apply rnd_lb; [apply (fmt_IZR 0); lia|lra]|apply rnd_ub; [exact f1|lra]]).
  destruct (fminus_spec fone z 0 OF F2 ltac:(lia)) as [V3 F3]; [rewrite OV; change (b2 0) with 1; apply Rabs_le; lra|]. rewrite OV in V3. set (r := fminus fone z) in *.
  assert (R01 : 0 <= f2R r <= 1) by (rewrite V3; split; [apply rnd_lb; [apply (fmt_IZR 0); lia|lra]|apply rnd_ub; [exact f1|lra]]).
  destruct (fsqrt_spec r F3 (proj1 R01)) as [V4 F4]. split; [exact F4|].
  assert (S01 : 0 <= sqrt (f2R r) <= 1) by (split; [apply sqrt_pos|rewrite <- sqrt_1; apply sqrt_le_1_alt; lra]).
  assert (G01 : 0 <= f2R (fsqrt r) <= 1) by (rewrite V4; split; [apply rnd_lb; [apply (fmt_IZR 0); lia|lra]|apply rnd_ub; [exact f1|lra]]). split; [exact G01|].
  pose proof (near (1 / f2R w)) as E1. rewrite <- V2, b2_m53 in E1. specialize (E1 ltac:(rewrite Rabs_pos_eq; lra)). apply Rabs_le_inv in E1.
  pose proof (near (1 - f2R z)) as E2. rewrite <- V3, b2_m53 in E2. specialize (E2 ltac:(rewrite Rabs_pos_eq; lra)). apply Rabs_le_inv in E2.
  split; [|split].
  - pose proof (near (sqrt (f2R r))) as E3. rewrite <- V4, b2_m53 in E3. specialize (E3 ltac:(rewrite Rabs_pos_eq; lra)).
    assert (SS : sqrt (f2R r) * sqrt (f2R r) = f2R r) by (apply sqrt_sqrt; lra). set (t := sqrt (f2R r)) in *. set (h := f2R (fsqrt r)) in *.
    assert (E4 : Rabs (h * h - f2R r) <= 2 * / 9007199254740992). { rewrite <- SS. replace (h * h - t * t) with ((h + t) * (h - t)) by ring. rewrite Rabs_mult. apply Rmult_le_compat; [apply Rabs_pos|apply Rabs_pos|rewrite Rabs_pos_eq; lra|exact E3]. }
    apply Rabs_le_inv in E4. apply Rabs_le. rewrite b2_m50. lra.
  - intros E. assert (f2R z = 1) by (rewrite V2, E; replace (1 / 1) with 1 by lra; apply rnd_id, f1). assert (f2R r = 0) by (rewrite V3, H0, Rminus_eq_0; apply rnd_0). rewrite V4, H1, sqrt_0. apply rnd_0.
  - intros G. pose proof (above_one _ (fmt_B2R w) G) as G'.
    assert (IB : 1 / f2R w <= 1 - / 9007199254740992). { apply Rmult_le_reg_r with (f2R w); [lra|]. unfold Rdiv. rewrite Rmult_1_l, Rinv_l by lra. apply Rle_trans with ((1 - / 9007199254740992) * (1 + / 4503599627370496)); [lra|apply Rmult_le_compat_l; lra]. }
    assert (ZB : f2R z <= 1 - / 9007199254740992) by (rewrite V2; apply rnd_ub; [exact pred1|exact IB]).
    assert (RB : / 9007199254740992 <= f2R r) by (rewrite V3; apply rnd_lb; [change (/ 9007199254740992) with (b2 (-53)); apply fmt_bpow; lia|lra]).
    rewrite V4. apply rnd_lb; [apply fmt_bpow; lia|]. change (b2 (-27)) with (/ 134217728). rewrite <- (sqrt_square (/ 134217728)) by lra. apply sqrt_le_1_alt. lra.
Qed.
Lemma entry_below1 : forall w, ffin w = true -> 0 < f2R w < 1 -> fisnan (gcorr64 fone w) = true.
Proof.
  intros w F H. destruct fone_val as [OV OF]. destruct (one_mult w F) as [V1 F1]. unfold gcorr64. set (y := fmult fone w) in *.
  destruct (one_div y F1 ltac:(rewrite V1; lra)) as [[F2 V2]|E].
  - rewrite V1 in V2. set (z := fdiv fone y) in *. pose proof (below_one _ (fmt_B2R w) (proj2 H)) as B. fold (f2R w) in B.
    assert (IB : 1 + / 9007199254740992 < 1 / f2R w). { apply Rmult_lt_reg_r with (f2R w); [lra|]. unfold Rdiv. rewrite Rmult_1_l, Rinv_l by lra. apply Rle_lt_trans with ((1 + / 9007199254740992) * (1 - / 9007199254740992)); [apply Rmult_le_compat_l; lra|lra]. }
    assert (ZB : 1 + / 4503599627370496 <= f2R z). { rewrite V2. rewrite <- ulp1. apply round_N_ge_midp; [exact vexp|apply generic_format_succ; [exact vexp|exact f1]|]. rewrite pred_succ by (exact vexp || exact f1). rewrite ulp1. lra. }
    generalize (Bminus_correct 53 1024 _ _ mode_NE fone z OF F2). destruct (Rlt_bool _ _).
    + intros (A & B' & _). apply fsqrt_neg; [exact B'|]. unfold f2R at 1. unfold fminus. rewrite A. change (B2R fone) with (f2R fone). change (B2R z) with (f2R z). rewrite OV.
      apply Rle_lt_trans with (- / 9007199254740992); [|lra]. apply (rnd_ub (1 - f2R z)); [|lra]. change (/ 9007199254740992) with (b2 (-53)). apply fmt_opp, fmt_bpow. lia.
    + intros (A & B'). exfalso. change (Bsign fone) with false in B'. rewrite (sign_pos z) in B' by lra. discriminate.
  - rewrite E, (sign_pos y) by (rewrite V1; lra). reflexivity.
Qed.
Lemma entry_neg : forall w, ffin w = true -> f2R w < 0 -> fle fone (gcorr64 fone w) = true.
Proof.
  intros w F H. destruct fone_val as [OV OF]. destruct (one_mult w F) as [V1 F1]. unfold gcorr64. set (y := fmult fone w) in *.
  destruct (one_div y F1 ltac:(rewrite V1; lra)) as [[F2 V2]|E].
  - rewrite V1 in V2. set (z := fdiv fone y) in *.
    assert (ZB : f2R z <= 0). { rewrite V2. apply rnd_ub; [apply (fmt_IZR 0); lia|]. unfold Rdiv. rewrite Rmult_1_l. left. apply Rinv_lt_0_compat. exact H. }
    generalize (Bminus_correct 53 1024 _ _ mode_NE fone z OF F2). destruct (Rlt_bool _ _).
    + intros (A & B' & _). assert (RB : 1 <= f2R (fminus fone z)). { unfold f2R at 1, fminus. rewrite A. change (B2R fone) with (f2R fone). change (B2R z) with (f2R z). rewrite OV. apply (rnd_lb (1 - f2R z)); [exact f1|lra]. }
      destruct (fsqrt_spec (fminus fone z) B' ltac:(lra)) as [V4 F4]. apply fle_spec; [exact OF|exact F4|]. rewrite OV, V4. apply rnd_lb; [exact f1|]. rewrite <- sqrt_1 at 1. apply sqrt_le_1_alt. exact RB.
    + intros (A & _). change (Bsign fone) with false in A. assert (I : fminus fone z = B754_infinity false). { unfold fminus. destruct (Bminus mode_NE fone z) as [s|s| |s m e p]; cbn in A; try discriminate. injection A as ->. reflexivity. }
      rewrite I. reflexivity.
  - rewrite E, (sign_neg y) by (rewrite V1; lra). reflexivity.
Qed.

(** C92 *)
Theorem C92_global_phik_float : forall V Vinv i, (i < length V)%nat -> nth i (nth i V nil) fnan = fone ->
  let w := nth i (nth i Vinv nil) fnan in let g := nth i (global64 V Vinv) fnan in
  (ffin w = true -> 1 <= f2R w -> ffin g = true /\ 0 <= f2R g <= 1 /\ Rabs (f2R g * f2R g - (1 - 1 / f2R w)) <= bpow radix2 (-50) /\ (f2R w = 1 -> f2R g = 0) /\ (1 < f2R w -> bpow radix2 (-27) <= f2R g)) /\
  (ffin w = true -> 0 < f2R w < 1 -> fisnan g = true) /\
  (ffin w = true -> f2R w < 0 -> fle fone g = true).
Proof.
  intros V Vinv i Hi VI w g. assert (G : g = gcorr64 fone w).
  { unfold g, global64. rewrite nth_indep with (d' := gcorr64 (nth 0 (nth 0 V nil) fnan) (nth 0 (nth 0 Vinv nil) fnan)) by (rewrite map_length, seq_length; exact Hi).
    rewrite (map_nth (fun i => gcorr64 (nth i (nth i V nil) fnan) (nth i (nth i Vinv nil) fnan))), seq_nth by exact Hi. cbn [plus]. rewrite VI. reflexivity. }
  rewrite G. split; [|split]; intros F H; [apply entry_ge1|apply entry_below1|apply entry_neg]; assumption.
Qed.
Print Assumptions C92_global_phik_float.
(** what a rounding error of one unit in the last place of the inverse does to an uncorrelated column *)
Theorem C92_one_ulp_refuted : let below1 := fminus fone (flit 1 (-53)) in let above1 := fplus fone (flit 1 (-52)) in
  feqb (gcorr64 fone fone) fzero = true /\ fisnan (gcorr64 fone below1) = true /\ feqb (gcorr64 fone above1) (flit 1 (-26)) = true.
Proof. vm_compute. repeat split; reflexivity. Qed.
Print Assumptions C92_one_ulp_refuted.
Example C92_case : let V := [[fone; fzero]; [fzero; fone]] in length (global64 V V) = 2%nat /\ ffin (nth 0 (nth 0 V nil) fnan) = true /\ f2R (nth 0 (nth 0 V nil) fnan) = 1.
Proof. split; [reflexivity|]. split; [reflexivity|]. exact (proj1 fone_val). Qed.
