(** C93: the expectations of outliers.py in binary64. *)
From Coq Require Import ZArith List Bool Reals Lia Lra Psatz.
Import ListNotations.
From Flocq Require Import Core BinarySingleNaN.
From Verif Require Import F64 LinspaceProofs RSum BrentFModel BrentFProofs SpecChi2F Chi2FModel Chi2FProofs GlobFModel PropsGlobF OutFModel OutFProofs SpecOut OutProofs SpecOutF.
Open Scope R_scope.

Lemma ofZ_rnd : forall z, (Z.abs z <= 2 ^ 200)%Z -> f2R (ofZ z) = rnd (IZR z) /\ ffin (ofZ z) = true.
Proof.
  intros z H. generalize (binary_normalize_correct 53 1024 _ _ mode_NE z 0 false). replace (F2R (Float radix2 z 0)) with (IZR z) by (unfold F2R; cbn [Fnum Fexp]; change (b2 0) with 1; ring).
  cbv zeta. change (round radix2 (SpecFloat.fexp 53 1024) (round_mode mode_NE) (IZR z)) with (rnd (IZR z)). rewrite Rlt_bool_true.
  - intros (A & B & _). split; [exact A|exact B].
  - apply Rle_lt_trans with (b2 200); [|apply bpow_lt; lia]. apply rnd_abs_le; [apply fmt_bpow; lia|]. rewrite <- abs_IZR. change (b2 200) with (IZR (2 ^ 200)). apply IZR_le. exact H.
Qed.
Lemma IZR_range : forall z e, (0 <= e)%Z -> (0 <= z <= 2 ^ e)%Z -> IZR z = 0 \/ b2 (- e) <= IZR z <= b2 e.
Proof.
  intros z e E H. destruct (Z.eq_dec z 0) as [->|NZ]; [left; reflexivity|right]. split.
  - apply Rle_trans with 1; [change 1 with (b2 0); apply bpow_le; lia|]. apply IZR_le. lia.
  - rewrite <- IZR_Zpower by exact E. apply IZR_le. change (Zaux.radix_val radix2) with 2%Z. lia.
Qed.
Lemma apx_Z : forall z e, (0 <= e <= 53)%Z -> (0 <= z <= 2 ^ e)%Z -> apx 0 e (ofZ z) (IZR z).
Proof.
  intros z e E H. assert (2 ^ e <= 2 ^ 53)%Z by (apply Z.pow_le_mono_r; lia). destruct (ofZ_spec z ltac:(lia)) as [V F]. apply apx_exact; [exact F|exact V|]. apply IZR_range; lia.
Qed.
Lemma apx_Zr : forall z e, (0 <= e <= 200)%Z -> (0 <= z <= 2 ^ e)%Z -> apx (3 / 4) e (ofZ z) (IZR z).
Proof.
  intros z e E H. assert (2 ^ e <= 2 ^ 200)%Z by (apply Z.pow_le_mono_r; lia). destruct (ofZ_rnd z ltac:(lia)) as [V F]. pose proof (IZR_range z e ltac:(lia) H) as R. split; [exact F|]. split; [exact R|]. rewrite V.
  replace (3 / 4) with (0 + 3 / 4) by lra. apply (apx_rnd 0 e); [lra|lia|exact R|]. rewrite Rminus_eq_0, Rabs_R0. lra.
Qed.
Lemma apx_one : forall e, (0 <= e)%Z -> apx 0 e fone 1.
Proof.
  intros e E. destruct fone_val as [V F]. apply apx_exact; [exact F|exact V|]. right. change (b2 (- e) <= b2 0 <= b2 e). split; apply bpow_le; lia.
Qed.
Lemma apx_sigma : forall z e, (0 <= e <= 53)%Z -> (0 <= z <= 2 ^ e)%Z -> apx 1 e (sigma64 z) (poisson_err (IZR z)).
Proof.
  intros z e E H. unfold sigma64, poisson_err. destruct (Z.leb_spec 1 z) as [G|G]; destruct (Rle_dec 1 (IZR z)) as [Q|Q].
  - replace 1 with (0 + 1) by lra. apply apx_sqrt; [apply apx_Z; assumption|lra|lia].
  - exfalso. apply Q. apply IZR_le. exact G.
  - exfalso. apply (le_IZR 1 z) in Q. lia.
  - apply apx_weaken with (k := 0) (e := e); [apply apx_one; lia|lra|lia].
Qed.
Lemma apx_pow2 : forall p k e x b, pow2_ok p -> apx k e x b -> 0 <= k <= 50 -> (0 <= e <= 399)%Z -> apx (2 * k + 2) (2 * e) (p x) (b ^ 2).
Proof.
  intros p k e x b P X K E. pose proof (apx_nonneg _ _ _ _ X) as B0. pose proof (apx_pos _ _ _ _ X ltac:(lra)) as PX. pose proof (apx_zero _ _ _ _ X) as ZX. destruct X as (F & R & A). destruct (P x F) as [P0 P1].
  assert (EE : ee = / 4503599627370496) by reflexivity.
  destruct R as [->|R].
  - destruct (P0 (ZX eq_refl)) as [F0 V0]. split; [exact F0|]. split; [left; ring|]. rewrite V0. rewrite pow_i, Rminus_0_r, Rabs_R0, Rmult_0_r by lia. lra.
  - pose proof (bpow_gt_0 radix2 (- e)) as BP. assert (BB : 0 < b) by lra. specialize (PX BB). pose proof (Rabs_le_inv _ _ A) as A'.
    assert (KB : 0 <= k * ee * b <= / 1000000000000 * b) by (split; [apply Rmult_le_pos; [apply Rmult_le_pos; [lra|rewrite EE; lra]|lra]|apply Rmult_le_compat_r; [lra|rewrite EE; lra]]).
    assert (P2 : b2 (e + 1) = 2 * b2 e) by (rewrite bpow_plus; change (b2 1) with 2; ring). assert (P3 : b2 (- e) = 2 * b2 (- e - 1)) by (replace (- e)%Z with ((- e - 1) + 1)%Z at 1 by lia; rewrite bpow_plus; change (b2 1) with 2; ring).
    destruct P1 as [F1 V1]. { split; [apply Rle_trans with (b2 (- e - 1)); [apply bpow_le; lia|lra]|apply Rle_trans with (b2 (e + 1)); [pose proof (bpow_gt_0 radix2 e); lra|apply bpow_le; lia]]. }
    split; [exact F1|]. split. { right. replace (- (2 * e))%Z with (- e + - e)%Z by lia. replace (2 * e)%Z with (e + e)%Z by lia. rewrite !bpow_plus. replace (b ^ 2) with (b * b) by ring. pose proof (bpow_gt_0 radix2 e). split; apply Rmult_le_compat; lra. }
    set (v := f2R x) in *. change (b2 (-52)) with ee in V1.
    assert (VV : v ^ 2 <= (1 + / 100) * b ^ 2). { replace ((1 + / 100) * b ^ 2) with ((101 / 100 * b) * b) by (field). apply Rle_trans with (((1 + / 1000000000000) * b) * ((1 + / 1000000000000) * b)); [replace (v ^ 2) with (v * v) by ring; apply Rmult_le_compat; lra|]. replace (((1 + / 1000000000000) * b) * ((1 + / 1000000000000) * b)) with (((1 + / 1000000000000) * (1 + / 1000000000000)) * (b * b)) by ring. replace (101 / 100 * b * b) with (101 / 100 * (b * b)) by ring. apply Rmult_le_compat_r; [apply Rmult_le_pos; lra|lra]. }
    assert (T1 : Rabs (v ^ 2 - b ^ 2) <= (2 * k + / 10) * ee * b ^ 2).
    { replace (v ^ 2 - b ^ 2) with ((v - b) * (v + b)) by ring. rewrite Rabs_mult, (Rabs_pos_eq (v + b)) by lra. apply Rle_trans with ((k * ee * b) * ((2 + / 1000000000000) * b)); [apply Rmult_le_compat; [apply Rabs_pos|lra|exact A|lra]|].
      replace (k * ee * b * ((2 + / 1000000000000) * b)) with (k * (2 + / 1000000000000) * ee * b ^ 2) by ring. apply Rmult_le_compat_r; [apply pow_le; lra|]. apply Rmult_le_compat_r; [rewrite EE; lra|lra]. }
    replace (f2R (p x) - b ^ 2) with ((f2R (p x) - v ^ 2) + (v ^ 2 - b ^ 2)) by ring. eapply Rle_trans; [apply Rabs_triang|].
    assert (T2 : ee * v ^ 2 <= ee * ((1 + / 100) * b ^ 2)) by (apply Rmult_le_compat_l; [rewrite EE; lra|exact VV]).
    assert (EB : 0 <= ee * b ^ 2) by (apply Rmult_le_pos; [rewrite EE; lra|apply pow_le; lra]). replace ((2 * k + 2) * ee * b ^ 2) with ((2 * k + / 10) * ee * b ^ 2 + 19 / 10 * (ee * b ^ 2)) by (field). lra.
Qed.

Lemma apx_sqrt2 : forall k e x b, apx k (2 * e) x b -> 0 <= k <= 100 -> (0 <= e <= 500)%Z -> apx (k + 1) e (fsqrt x) (sqrt b).
Proof.
  intros k e x b X K E. pose proof X as (_ & R & _). destruct (apx_sqrt _ _ _ _ X K ltac:(lia)) as (F & _ & A). split; [exact F|]. split; [|exact A].
  destruct R as [->|[L U]]; [left; apply sqrt_0|right]. replace (- (2 * e))%Z with (- e + - e)%Z in L by lia. replace (2 * e)%Z with (e + e)%Z in U by lia. rewrite bpow_plus in L, U.
  rewrite <- (sqrt_square (b2 (- e))), <- (sqrt_square (b2 e)) by apply bpow_ge_0. split; apply sqrt_le_1_alt; assumption.
Qed.

Section Cell.
Variable p2 : f64 -> f64. Hypothesis P2 : pow2_ok p2.
Variables B C D : Z. Hypothesis HB : (0 <= B <= 2 ^ 32)%Z. Hypothesis HC : (0 <= C <= 2 ^ 32)%Z. Hypothesis HD : (0 < D <= 2 ^ 32)%Z.
Let b := IZR B. Let c := IZR C. Let d := IZR D.
Let e64 := fdiv (ofZ (B * C)) (ofZ D).
Lemma d_pos : 0 < IZR D. Proof. apply IZR_lt. lia. Qed.
Lemma apx_e : apx 2 96 e64 (abcd b c d).
Proof.
  unfold e64, abcd, b, c, d. rewrite <- mult_IZR. apply apx_weaken with (k := 3 / 4 + 0 + 1) (e := (64 + 32)%Z); [|lra|lia]. apply apx_div; [apply apx_Zr; [lia|]|apply apx_Z; lia|exact d_pos|lra|lra|lia|lia|lia].
  split; [apply Z.mul_nonneg_nonneg; lia|]. change (2 ^ 64)%Z with (2 ^ 32 * 2 ^ 32)%Z. apply Z.mul_le_mono_nonneg; lia.
Qed.
Lemma apx_term : forall X Y : Z, (0 <= X <= 2 ^ 32)%Z -> (0 <= Y <= 2 ^ 32)%Z -> apx 8 192 (p2 (fdiv (fmult (sigma64 X) (ofZ Y)) (ofZ D))) ((poisson_err (IZR X) * IZR Y / d) ^ 2).
Proof.
  intros X Y HX HY. replace 8 with (2 * 3 + 2) by lra. change 192%Z with (2 * 96)%Z. apply apx_pow2; [exact P2| |lra|lia]. replace 3 with (2 + 0 + 1) by lra. change 96%Z with (64 + 32)%Z.
  apply apx_div; [|apply apx_Z; lia|exact d_pos|lra|lra|lia|lia|lia]. replace 2 with (1 + 0 + 1) by lra. change 64%Z with (32 + 32)%Z. apply apx_mult; [apply apx_sigma; lia|apply apx_Z; lia|lra|lra|lia|lia|lia].
Qed.
Lemma apx_term3 : apx 12 320 (p2 (fdiv (fmult (sigma64 D) e64) (ofZ D))) ((poisson_err d * abcd b c d / d) ^ 2).
Proof.
  replace 12 with (2 * 5 + 2) by lra. change 320%Z with (2 * 160)%Z. apply apx_pow2; [exact P2| |lra|lia]. replace 5 with (4 + 0 + 1) by lra. change 160%Z with (128 + 32)%Z.
  apply apx_div; [|apply apx_Z; lia|exact d_pos|lra|lra|lia|lia|lia]. replace 4 with (1 + 2 + 1) by lra. change 128%Z with (32 + 96)%Z. apply apx_mult; [apply apx_sigma; lia|exact apx_e|lra|lra|lia|lia|lia].
Qed.
Let s64 := fsqrt (fplus (fplus (p2 (fdiv (fmult (sigma64 B) (ofZ C)) (ofZ D))) (p2 (fdiv (fmult (sigma64 C) (ofZ B)) (ofZ D)))) (p2 (fdiv (fmult (sigma64 D) e64) (ofZ D)))).
Lemma apx_s : apx 14 170 s64 (abcd_err b c d).
Proof.
  unfold s64, abcd_err. replace 14 with (13 + 1) by lra. apply apx_sqrt2; [|lra|lia]. apply apx_weaken with (k := 12 + 1) (e := (320 + 1)%Z); [|lra|lia]. apply apx_plus; [|exact apx_term3|lra|lia].
  apply apx_weaken with (k := 8 + 1) (e := (192 + 1)%Z); [|lra|lia]. apply apx_plus; [apply (apx_term B C); lia|apply (apx_term C B); lia|lra|lia].
Qed.
End Cell.

(** Linnemann's arguments *)
Lemma lin_apx : forall e64 s64 e s, apx 2 96 e64 e -> apx 14 170 s64 s -> 0 < s ->
  let '(b64, x64) := linnemann64 e64 s64 in apx 60 900 b64 (lin_b e s) /\ apx 60 900 x64 (lin_x e s) /\ 1 <= f2R b64 /\ 0 < f2R x64 <= 1.
Proof.
  intros e64 s64 e s AE AS SP. destruct fone_val as [OV OF]. pose proof (apx_nonneg _ _ _ _ AE) as E0. pose proof AE as (FE & _ & _). pose proof (apx_pos _ _ _ _ AS ltac:(lra) SP) as SP64.
  unfold linnemann64, lin_b, lin_x, lin_tau. set (a64 := if flt fzero e64 then e64 else s64). set (a := if Rlt_dec 0 e then e else s).
  assert (FZ : f2R fzero = 0) by reflexivity. assert (FZ' : ffin fzero = true) by reflexivity.
  assert (AA : apx 14 170 a64 a).
  { unfold a64, a. destruct (Rlt_dec 0 e) as [EP|EP].
    - replace (flt fzero e64) with true; [apply apx_weaken with (k := 2) (e := 96%Z); [exact AE|lra|lia]|]. symmetry. apply flt_spec; [exact FZ'|exact FE|]. rewrite FZ. apply (apx_pos _ _ _ _ AE); lra.
    - replace (flt fzero e64) with false; [exact AS|]. symmetry. apply not_true_is_false. intros C. apply flt_spec in C; [|exact FZ'|exact FE]. rewrite FZ, (apx_zero _ _ _ _ AE ltac:(lra)) in C. lra. }
  assert (AP : 0 < a) by (unfold a; destruct (Rlt_dec 0 e); lra).
  pose proof (apx_mult _ _ _ _ _ _ _ _ AS AS ltac:(lra) ltac:(lra) ltac:(lia) ltac:(lia) ltac:(lia)) as A1. assert (S2 : 0 < s * s) by (apply Rmult_lt_0_compat; exact SP).
  pose proof (apx_div _ _ _ _ _ _ _ _ AA A1 S2 ltac:(lra) ltac:(lra) ltac:(lia) ltac:(lia) ltac:(lia)) as A2. set (tau64 := fdiv a64 (fmult s64 s64)) in *. set (tau := a / (s * s)) in *.
  assert (TP : 0 < tau) by (apply Rdiv_lt_0_compat; assumption).
  pose proof (apx_mult _ _ _ _ _ _ _ _ AA A2 ltac:(lra) ltac:(lra) ltac:(lia) ltac:(lia) ltac:(lia)) as A3. assert (ATP : 0 < a * tau) by (apply Rmult_lt_0_compat; assumption).
  assert (A4 : apx (59 + 1) (899 + 1) (fplus (fmult a64 tau64) fone) (a * tau + 1)).
  { apply apx_plus; [eapply apx_weaken; [exact A3|lra|lia]|eapply apx_weaken; [apply (apx_one 0); lia|lra|lia]|lra|lia]. }
  assert (A5 : apx (44 + 1) (700 + 1) (fplus fone tau64) (1 + tau)).
  { apply apx_plus; [eapply apx_weaken; [apply (apx_one 0); lia|lra|lia]|eapply apx_weaken; [exact A2|lra|lia]|lra|lia]. }
  pose proof (apx_div _ _ _ _ _ _ _ _ (apx_one 0 ltac:(lia)) A5 ltac:(lra) ltac:(lra) ltac:(lra) ltac:(lia) ltac:(lia) ltac:(lia)) as A6.
  split; [eapply apx_weaken; [exact A4|lra|lia]|]. split; [eapply apx_weaken; [exact A6|lra|lia]|].
  assert (F3 := proj1 A3). assert (P3 := apx_pos _ _ _ _ A3 ltac:(lra) ATP). assert (P2 := apx_pos _ _ _ _ A2 ltac:(lra) TP). assert (F2 := proj1 A2).
  assert (B3 : f2R (fmult a64 tau64) <= b2 900). { destruct A3 as (_ & [R|R] & A3); [lra|]. apply Rabs_le_inv in A3. assert ((14 + (14 + (14 + 14 + 1) + 1) + 1) * ee * (a * tau) <= 1 * (a * tau)) by (apply Rmult_le_compat_r; [lra|unfold ee; lra]).
    apply Rle_trans with (2 * b2 (170 + (170 + (170 + 170)))); [lra|]. replace (2 * b2 (170 + (170 + (170 + 170)))) with (b2 681) by (rewrite <- (bpow_plus radix2 1); reflexivity). apply bpow_le. lia. }
  assert (B2' : f2R tau64 <= b2 900). { destruct A2 as (_ & [R|R] & A2); [lra|]. apply Rabs_le_inv in A2. assert ((14 + (14 + 14 + 1) + 1) * ee * tau <= 1 * tau) by (apply Rmult_le_compat_r; [lra|unfold ee; lra]).
    apply Rle_trans with (2 * b2 (170 + (170 + 170))); [lra|]. replace (2 * b2 (170 + (170 + 170))) with (b2 511) by (rewrite <- (bpow_plus radix2 1); reflexivity). apply bpow_le. lia. }
  assert (L9 : 1 <= b2 900) by (change 1 with (b2 0); apply bpow_le; lia). assert (D9 : b2 901 = 2 * b2 900) by (rewrite <- (bpow_plus radix2 1); reflexivity).
  split.
  - destruct (fplus_spec (fmult a64 tau64) fone 901 F3 OF ltac:(lia)) as [V _]; [rewrite OV, Rabs_pos_eq; lra|]. rewrite V, OV. apply rnd_lb; [exact f1|lra].
  - split; [apply (apx_pos _ _ _ _ A6); [lra|apply Rdiv_lt_0_compat; lra]|].
    destruct (fplus_spec fone tau64 901 OF F2 ltac:(lia)) as [V FV]; [rewrite OV, Rabs_pos_eq; lra|]. assert (G1 : 1 <= f2R (fplus fone tau64)) by (rewrite V, OV; apply rnd_lb; [exact f1|lra]).
    assert (I1 : 0 < 1 / f2R (fplus fone tau64) <= 1) by (split; [apply Rdiv_lt_0_compat; lra|apply Rmult_le_reg_r with (f2R (fplus fone tau64)); [lra|unfold Rdiv; rewrite Rmult_assoc, Rinv_l by lra; lra]]).
    destruct (fdiv_spec fone (fplus fone tau64) 1 OF ltac:(lra) ltac:(lia)) as [W _]; [rewrite OV, Rabs_pos_eq; change (b2 1) with 2; lra|]. rewrite W, OV. apply rnd_ub; [exact f1|lra].
Qed.
