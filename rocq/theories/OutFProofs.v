(** A calculus of relative errors, and the estimates of outliers.py in binary64 (C93). *)
From Coq Require Import ZArith List Bool Reals Lia Lra Psatz.
Import ListNotations.
From Flocq Require Import Core BinarySingleNaN.
From Verif Require Import F64 LinspaceProofs BrentFModel BrentFProofs SpecChi2F Chi2FModel Chi2FProofs GlobFModel PropsGlobF OutFModel.
Open Scope R_scope.

Definition ee : R := / 4503599627370496.
(** [x] is [b] up to [k] units of 2^-52, relatively; [b] is 0 or between 2^-e and 2^e *)
Definition apx (k : R) (e : Z) (x : f64) (b : R) : Prop :=
  ffin x = true /\ (b = 0 \/ b2 (- e) <= b <= b2 e) /\ Rabs (f2R x - b) <= k * ee * b.
Lemma apx_nonneg : forall k e x b, apx k e x b -> 0 <= b.
Proof. intros k e x b (_ & [->|H] & _); [lra|]. pose proof (bpow_gt_0 radix2 (- e)). lra. Qed.
Lemma apx_exact : forall e x b, ffin x = true -> f2R x = b -> b = 0 \/ b2 (- e) <= b <= b2 e -> apx 0 e x b.
Proof. intros e x b F E H. split; [exact F|]. split; [exact H|]. rewrite E, Rminus_eq_0, Rabs_R0. lra. Qed.
(** one rounding *)
Lemma apx_rnd : forall k e b v, 0 <= k <= 300 -> (0 <= e <= 1000)%Z -> b = 0 \/ b2 (- e) <= b <= b2 e -> Rabs (v - b) <= k * ee * b -> 0 <= v <= 2 * b2 e /\ Rabs (rnd v - b) <= (k + 3 / 4) * ee * b.
Proof.
  intros k e b v K E R A. assert (EE : ee = / 4503599627370496) by reflexivity. destruct R as [->|R].
  - rewrite Rmult_0_r in A. assert (v = 0) by (apply Rabs_le_inv in A; lra). subst v. rewrite rnd_0, Rminus_0_r, Rabs_R0. pose proof (bpow_gt_0 radix2 e). split; lra.
  - pose proof (bpow_gt_0 radix2 (- e)) as P. apply Rabs_le_inv in A. assert (KB : 0 <= k * ee * b <= / 1000000000000 * b) by (split; [apply Rmult_le_pos; [apply Rmult_le_pos; [lra|rewrite EE; lra]|lra]|apply Rmult_le_compat_r; [lra|rewrite EE; lra]]).
    assert (VB : b / 2 <= v <= 2 * b) by lra. split; [lra|].
    destruct (rel_err v) as (eps & HE & HR). { rewrite Rabs_pos_eq by lra. apply Rle_trans with (b2 (- e) / 2); [|lra]. replace (b2 (- e) / 2) with (b2 (- e - 1)) by (unfold Zminus; rewrite bpow_plus; change (b2 (- (1))) with (/ 2); lra). apply bpow_le. lia. }
    rewrite HR. replace (v * (1 + eps) - b) with ((v - b) + v * eps) by ring. eapply Rle_trans; [apply Rabs_triang|].
    assert (VE : Rabs (v * eps) <= (1 + / 1000000000000) * b * (/ 2 * ee)). { rewrite Rabs_mult, (Rabs_pos_eq v) by lra. apply Rmult_le_compat; [lra|apply Rabs_pos|lra|]. rewrite b2_m53 in HE. rewrite EE. lra. }
    assert (VA : Rabs (v - b) <= k * ee * b) by (apply Rabs_le; lra). assert (EB : 0 <= ee * b) by (apply Rmult_le_pos; [rewrite EE; lra|lra]).
    assert ((k + 3 / 4) * ee * b = k * ee * b + 3 / 4 * (ee * b)) by ring. assert ((1 + / 1000000000000) * b * (/ 2 * ee) = / 2 * (ee * b) + / 2000000000000 * (ee * b)) by (field). lra.
Qed.
Lemma rng_mult : forall e1 e2 b c, b = 0 \/ b2 (- e1) <= b <= b2 e1 -> c = 0 \/ b2 (- e2) <= c <= b2 e2 -> b * c = 0 \/ b2 (- (e1 + e2)) <= b * c <= b2 (e1 + e2).
Proof.
  intros e1 e2 b c [->|B] [->|C]; try (left; ring). right. replace (- (e1 + e2))%Z with (- e1 + - e2)%Z by lia. rewrite !bpow_plus. pose proof (bpow_gt_0 radix2 (- e1)). pose proof (bpow_gt_0 radix2 (- e2)). split; apply Rmult_le_compat; lra.
Qed.
Lemma rng_inv : forall e c, 0 < c -> b2 (- e) <= c <= b2 e -> b2 (- e) <= / c <= b2 e.
Proof. intros e c P [A B]. split; [rewrite bpow_opp; apply Rinv_le_contravar; lra|rewrite <- (Rinv_inv (b2 e)); rewrite <- bpow_opp; apply Rinv_le_contravar; [apply bpow_gt_0|exact A]]. Qed.
Lemma ebnd : forall e, (0 <= e <= 1000)%Z -> 2 * b2 e <= b2 1001.
Proof. intros e H. replace (2 * b2 e) with (b2 (1 + e)) by (rewrite bpow_plus; reflexivity). apply bpow_le. lia. Qed.
Lemma apx_mult : forall k1 k2 e1 e2 x y b c, apx k1 e1 x b -> apx k2 e2 y c -> 0 <= k1 <= 100 -> 0 <= k2 <= 100 -> (0 <= e1)%Z -> (0 <= e2)%Z -> (e1 + e2 <= 1000)%Z -> apx (k1 + k2 + 1) (e1 + e2) (fmult x y) (b * c).
Proof.
  intros k1 k2 e1 e2 x y b c X Y K1 K2 E1 E2 E. pose proof (apx_nonneg _ _ _ _ X) as B0. pose proof (apx_nonneg _ _ _ _ Y) as C0. destruct X as (FX & RX & AX). destruct Y as (FY & RY & AY).
  assert (EE : ee = / 4503599627370496) by reflexivity. pose proof (rng_mult e1 e2 b c RX RY) as RB. assert (BC : 0 <= b * c) by (apply Rmult_le_pos; assumption).
  assert (AM : Rabs (f2R x * f2R y - b * c) <= (k1 + k2 + / 10) * ee * (b * c)).
  { replace (f2R x * f2R y - b * c) with ((f2R x - b) * (f2R y - c) + (f2R x - b) * c + b * (f2R y - c)) by ring.
    assert (T1 : Rabs ((f2R x - b) * (f2R y - c)) <= (k1 * ee * b) * (k2 * ee * c)) by (rewrite Rabs_mult; apply Rmult_le_compat; try apply Rabs_pos; assumption).
    assert (T2 : Rabs ((f2R x - b) * c) <= k1 * ee * b * c) by (rewrite Rabs_mult, (Rabs_pos_eq c) by lra; apply Rmult_le_compat_r; lra).
    assert (T3 : Rabs (b * (f2R y - c)) <= b * (k2 * ee * c)) by (rewrite Rabs_mult, (Rabs_pos_eq b) by lra; apply Rmult_le_compat_l; lra).
    eapply Rle_trans; [apply Rabs_triang|]. eapply Rle_trans; [apply Rplus_le_compat_r, Rabs_triang|].
    assert (KK : k1 * k2 * ee <= / 10) by (apply Rle_trans with (100 * 100 * ee); [apply Rmult_le_compat_r; [rewrite EE; lra|apply Rmult_le_compat; lra]|rewrite EE; lra]).
    assert (T4 : (k1 * ee * b) * (k2 * ee * c) = (k1 * k2 * ee) * (ee * (b * c))) by ring. assert (EB : 0 <= ee * (b * c)) by (apply Rmult_le_pos; [rewrite EE; lra|exact BC]).
    assert (T5 : (k1 * k2 * ee) * (ee * (b * c)) <= / 10 * (ee * (b * c))) by (apply Rmult_le_compat_r; assumption). replace ((k1 + k2 + / 10) * ee * (b * c)) with (k1 * ee * b * c + b * (k2 * ee * c) + / 10 * (ee * (b * c))) by ring. lra. }
  destruct (apx_rnd (k1 + k2 + / 10) (e1 + e2) (b * c) _ ltac:(lra) ltac:(lia) RB AM) as [V R].
  destruct (fmult_spec x y 1001 FX FY ltac:(lia)) as [VV FV]; [rewrite Rabs_pos_eq by lra; pose proof (ebnd (e1 + e2) ltac:(lia)); lra|].
  split; [exact FV|]. split; [exact RB|]. rewrite VV. apply Rle_trans with (1 := R). apply Rmult_le_compat_r; [exact BC|]. apply Rmult_le_compat_r; [rewrite EE; lra|lra].
Qed.
Lemma apx_div : forall k1 k2 e1 e2 x y b c, apx k1 e1 x b -> apx k2 e2 y c -> 0 < c -> 0 <= k1 <= 100 -> 0 <= k2 <= 100 -> (0 <= e1)%Z -> (0 <= e2)%Z -> (e1 + e2 <= 1000)%Z -> apx (k1 + k2 + 1) (e1 + e2) (fdiv x y) (b / c).
Proof.
  intros k1 k2 e1 e2 x y b c X Y CP K1 K2 E1 E2 E. pose proof (apx_nonneg _ _ _ _ X) as B0. destruct X as (FX & RX & AX). destruct Y as (FY & RY & AY). destruct RY as [RY|RY]; [lra|].
  assert (EE : ee = / 4503599627370496) by reflexivity. pose proof (rng_mult e1 e2 b (/ c) RX (or_intror (rng_inv e2 c CP RY))) as RB. fold (b / c) in RB. assert (IP : 0 < / c) by (apply Rinv_0_lt_compat; exact CP). assert (BC : 0 <= b / c) by (apply Rmult_le_pos; lra).
  apply Rabs_le_inv in AY. assert (KC : 0 <= k2 * ee * c <= / 1000000 * c) by (split; [apply Rmult_le_pos; [apply Rmult_le_pos; [lra|rewrite EE; lra]|lra]|apply Rmult_le_compat_r; [lra|rewrite EE; lra]]).
  assert (YP : 999999 / 1000000 * c <= f2R y) by lra. assert (Y0 : 0 < f2R y) by lra.
  assert (AM : Rabs (f2R x / f2R y - b / c) <= (k1 + k2 + / 10) * ee * (b / c)).
  { replace (f2R x / f2R y - b / c) with (((f2R x - b) - b / c * (f2R y - c)) * / f2R y) by (field; lra). rewrite Rabs_mult, (Rabs_pos_eq (/ f2R y)) by (left; apply Rinv_0_lt_compat; exact Y0).
    assert (T : Rabs ((f2R x - b) - b / c * (f2R y - c)) <= (k1 + k2) * ee * b).
    { unfold Rminus at 1. eapply Rle_trans; [apply Rabs_triang|]. rewrite Rabs_Ropp, Rabs_mult, (Rabs_pos_eq (b / c)) by exact BC. assert (AY' : Rabs (f2R y - c) <= k2 * ee * c) by (apply Rabs_le; lra).
      assert (b / c * Rabs (f2R y - c) <= b / c * (k2 * ee * c)) by (apply Rmult_le_compat_l; assumption). replace (b / c * (k2 * ee * c)) with (k2 * ee * b) in H by (field; lra). lra. }
    assert (IY : / f2R y <= 1000002 / 1000000 * / c). { replace (1000002 / 1000000 * / c) with (/ (1000000 / 1000002 * c)) by (field; lra). apply Rinv_le_contravar; lra. }
    apply Rle_trans with ((k1 + k2) * ee * b * (1000002 / 1000000 * / c)); [apply Rmult_le_compat; [apply Rabs_pos|left; apply Rinv_0_lt_compat; exact Y0|exact T|exact IY]|].
    replace ((k1 + k2) * ee * b * (1000002 / 1000000 * / c)) with ((k1 + k2) * (1000002 / 1000000) * ee * (b / c)) by (unfold Rdiv; ring). apply Rmult_le_compat_r; [exact BC|]. apply Rmult_le_compat_r; [rewrite EE; lra|lra]. }
  destruct (apx_rnd (k1 + k2 + / 10) (e1 + e2) (b / c) _ ltac:(lra) ltac:(lia) RB AM) as [V R].
  destruct (fdiv_spec x y 1001 FX ltac:(lra) ltac:(lia)) as [VV FV]; [rewrite Rabs_pos_eq by lra; pose proof (ebnd (e1 + e2) ltac:(lia)); lra|].
  split; [exact FV|]. split; [exact RB|]. rewrite VV. apply Rle_trans with (1 := R). apply Rmult_le_compat_r; [exact BC|]. apply Rmult_le_compat_r; [rewrite EE; lra|lra].
Qed.
Lemma apx_plus : forall k e x y b c, apx k e x b -> apx k e y c -> 0 <= k <= 100 -> (0 <= e <= 900)%Z -> apx (k + 1) (e + 1) (fplus x y) (b + c).
Proof.
  intros k e x y b c X Y K E. pose proof (apx_nonneg _ _ _ _ X) as B0. pose proof (apx_nonneg _ _ _ _ Y) as C0. destruct X as (FX & RX & AX). destruct Y as (FY & RY & AY). assert (EE : ee = / 4503599627370496) by reflexivity.
  assert (RB : b + c = 0 \/ b2 (- (e + 1)) <= b + c <= b2 (e + 1)).
  { assert (P1 : b2 (e + 1) = 2 * b2 e) by (rewrite bpow_plus; change (b2 1) with 2; ring). assert (P2 : b2 (- (e + 1)) <= b2 (- e)) by (apply bpow_le; lia). pose proof (bpow_gt_0 radix2 e). destruct RX as [->|RX]; destruct RY as [->|RY]; [left; ring| | |]; right; lra. }
  assert (AM : Rabs (f2R x + f2R y - (b + c)) <= k * ee * (b + c)). { replace (f2R x + f2R y - (b + c)) with ((f2R x - b) + (f2R y - c)) by ring. eapply Rle_trans; [apply Rabs_triang|]. lra. }
  destruct (apx_rnd k (e + 1) (b + c) _ ltac:(lra) ltac:(lia) RB AM) as [V R].
  destruct (fplus_spec x y 1001 FX FY ltac:(lia)) as [VV FV]; [rewrite Rabs_pos_eq by lra; pose proof (ebnd (e + 1) ltac:(lia)); lra|].
  split; [exact FV|]. split; [exact RB|]. rewrite VV. apply Rle_trans with (1 := R). apply Rmult_le_compat_r; [lra|]. apply Rmult_le_compat_r; [rewrite EE; lra|lra].
Qed.
Lemma apx_sqrt : forall k e x b, apx k e x b -> 0 <= k <= 100 -> (0 <= e <= 1000)%Z -> apx (k + 1) e (fsqrt x) (sqrt b).
Proof.
  intros k e x b X K E. pose proof (apx_nonneg _ _ _ _ X) as B0. destruct X as (FX & RX & AX). assert (EE : ee = / 4503599627370496) by reflexivity.
  assert (X0 : 0 <= f2R x). { apply Rabs_le_inv in AX. assert (k * ee * b <= 1 * b) by (apply Rmult_le_compat_r; [lra|rewrite EE; lra]). lra. }
  assert (S0 := sqrt_pos b). assert (SS : sqrt b * sqrt b = b) by (apply sqrt_sqrt; lra).
  assert (RB : sqrt b = 0 \/ b2 (- e) <= sqrt b <= b2 e).
  { destruct RX as [->|[L U]]; [left; apply sqrt_0|right]. assert (E1 : 1 <= b2 e) by (change 1 with (b2 0); apply bpow_le; lia). assert (E2 : b2 (- e) <= 1) by (change 1 with (b2 0); apply bpow_le; lia). pose proof (bpow_gt_0 radix2 (- e)) as P. split.
    - rewrite <- (sqrt_square (b2 (- e))) by lra. apply sqrt_le_1_alt. apply Rle_trans with (1 * b2 (- e)); [apply Rmult_le_compat_r; lra|lra].
    - rewrite <- (sqrt_square (b2 e)) by lra. apply sqrt_le_1_alt. apply Rle_trans with (1 * b2 e); [lra|apply Rmult_le_compat_r; lra]. }
  assert (AM : Rabs (sqrt (f2R x) - sqrt b) <= k * ee * sqrt b).
  { destruct (Req_dec b 0) as [->|NZ]. { rewrite sqrt_0 in *. rewrite Rmult_0_r in AX. assert (f2R x = 0) by (apply Rabs_le_inv in AX; lra). rewrite H, sqrt_0, Rminus_0_r, Rabs_R0. lra. }
    assert (SP : 0 < sqrt b) by (apply sqrt_lt_R0; lra). pose proof (sqrt_pos (f2R x)) as SX. assert (SSX : sqrt (f2R x) * sqrt (f2R x) = f2R x) by (apply sqrt_sqrt; exact X0).
    apply Rmult_le_reg_r with (sqrt b); [exact SP|]. rewrite Rmult_assoc, SS. apply Rle_trans with (2 := AX). rewrite <- (Rabs_pos_eq (sqrt b)) at 2 by lra. rewrite <- Rabs_mult.
    apply Rle_trans with (Rabs (sqrt (f2R x) - sqrt b) * (sqrt (f2R x) + sqrt b)); [rewrite Rabs_mult; apply Rmult_le_compat_l; [apply Rabs_pos|rewrite Rabs_pos_eq; lra]|].
    rewrite <- (Rabs_pos_eq (sqrt (f2R x) + sqrt b)) by lra. rewrite <- Rabs_mult. right. f_equal. replace ((sqrt (f2R x) - sqrt b) * (sqrt (f2R x) + sqrt b)) with (sqrt (f2R x) * sqrt (f2R x) - sqrt b * sqrt b) by ring. rewrite SSX, SS. reflexivity. }
  destruct (apx_rnd k e (sqrt b) _ ltac:(lra) E RB AM) as [V R]. destruct (fsqrt_spec x FX X0) as [VV FV].
  split; [exact FV|]. split; [exact RB|]. rewrite VV. apply Rle_trans with (1 := R). apply Rmult_le_compat_r; [lra|]. apply Rmult_le_compat_r; [rewrite EE; lra|lra].
Qed.

Lemma apx_weaken : forall k k' e e' x b, apx k e x b -> k <= k' -> (e <= e')%Z -> apx k' e' x b.
Proof.
  intros k k' e e' x b X K E. pose proof (apx_nonneg _ _ _ _ X) as B0. destruct X as (F & R & A). split; [exact F|]. split.
  - destruct R as [R|R]; [left; exact R|right]. pose proof (bpow_le radix2 (- e') (- e) ltac:(lia)). pose proof (bpow_le radix2 e e' ltac:(lia)). lra.
  - apply Rle_trans with (1 := A). apply Rmult_le_compat_r; [exact B0|]. apply Rmult_le_compat_r; [unfold ee; lra|exact K].
Qed.
Lemma apx_pos : forall k e x b, apx k e x b -> 0 <= k <= 1000 -> 0 < b -> 0 < f2R x.
Proof.
  intros k e x b (F & R & A) K P. apply Rabs_le_inv in A. assert (k * ee * b <= / 2 * b) by (apply Rmult_le_compat_r; [lra|unfold ee; lra]). lra.
Qed.
Lemma apx_zero : forall k e x b, apx k e x b -> b = 0 -> f2R x = 0.
Proof. intros k e x b (F & R & A) ->. rewrite Rmult_0_r in A. apply Rabs_le_inv in A. lra. Qed.
