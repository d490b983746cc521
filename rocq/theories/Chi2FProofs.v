(** Rounding errors of the chi2 statistic in binary64 (C88). *)
From Coq Require Import ZArith List Bool Reals Lia Lra Psatz Permutation.
Import ListNotations.
From Flocq Require Import Core BinarySingleNaN Relative Plus_error.
From Verif Require Import F64 Base RSum StatsModel SpecStats StatsProofs LinspaceProofs BrentFModel BrentFProofs Chi2FModel SpecChi2F.
Open Scope R_scope.
(* the notation fexp of Flocq's SpecFloat is not used here *)

(** ** rounding *)
Lemma u53_b2 : b2 (-53) = u53. Proof. reflexivity. Qed.
Lemma u53_pos : 0 < u53 <= 1 / 1000000000. Proof. unfold u53. lra. Qed.
Definition eta0 : R := b2 (-1075).
Lemma eta0_pos : 0 < eta0. Proof. apply bpow_gt_0. Qed.
Lemma rnd_err : forall x, Rabs (rnd x - x) <= u53 * Rabs x + eta0.
Proof.
  intros x. destruct (error_N_FLT radix2 (-1074) 53 ltac:(lia) (fun z => negb (Z.even z)) x) as (eps & eta & A & B & _ & E).
  assert (A' : Rabs eps <= u53). { replace u53 with (/ 2 * b2 (-53 + 1)); [exact A|]. rewrite <- u53_b2. rewrite bpow_plus. change (b2 1) with 2. lra. }
  assert (B' : Rabs eta <= eta0). { replace eta0 with (/ 2 * b2 (-1074)); [exact B|]. unfold eta0. replace (-1075)%Z with (-1074 + -1)%Z by lia. rewrite bpow_plus. change (b2 (-1)) with (/ 2). lra. }
  change (rnd x = x * (1 + eps) + eta) in E. rewrite E. replace (x * (1 + eps) + eta - x) with (x * eps + eta) by ring.
  eapply Rle_trans; [apply Rabs_triang|]. rewrite Rabs_mult. pose proof (Rabs_pos x). nra.
Qed.
Lemma rnd_plus_err : forall x y, fmt x -> fmt y -> Rabs (rnd (x + y) - (x + y)) <= u53 * Rabs (x + y).
Proof.
  intros x y Fx Fy. destruct (FLT_plus_error_N_ex radix2 (-1074) 53 (fun z => negb (Z.even z)) x y Fx Fy) as (eps & A & E).
  assert (A' : Rabs eps <= u53). { eapply Rle_trans; [exact A|]. eapply Rle_trans; [apply u_rod1pu_ro_le_u_ro|]. unfold u_ro. rewrite <- u53_b2. replace (b2 (-53)) with (/ 2 * b2 (-53 + 1)) by (rewrite bpow_plus; change (b2 1) with 2; lra). right. reflexivity. }
  change (rnd (x + y) = (x + y) * (1 + eps)) in E. rewrite E. replace ((x + y) * (1 + eps) - (x + y)) with (eps * (x + y)) by ring. rewrite Rabs_mult. apply Rmult_le_compat_r; [apply Rabs_pos|exact A'].
Qed.
Lemma rnd_minus_err : forall x y, fmt x -> fmt y -> Rabs (rnd (x - y) - (x - y)) <= u53 * Rabs (x - y).
Proof. intros x y Fx Fy. apply (rnd_plus_err x (- y)); [exact Fx|apply fmt_opp; exact Fy]. Qed.

(** ** sums in any order *)
Definition nonneg64 (x : f64) : Prop := ffin x = true /\ 0 <= f2R x.
Lemma added_bounds : forall l s, added l s -> (forall x, In x l -> nonneg64 x) -> INR (length l) * u53 <= 1 / 4 -> lsum f2R l <= b2 500 ->
  ffin s = true /\ lsum f2R l * (1 - INR (length l) * u53) <= f2R s <= lsum f2R l * (1 + 2 * INR (length l) * u53).
Proof.
  pose proof u53_pos as U. induction 1 as [|x|l1 l2 s1 s2 H1 IH1 H2 IH2|l l' s H IH P]; intros NN LE BD.
  - split; [reflexivity|]. cbn. lra.
  - destruct (NN x (or_introl eq_refl)) as [F P]. split; [exact F|]. rewrite lsum_cons, lsum_nil. cbn [length]. change (INR 1) with 1. nra.
  - rewrite app_length, plus_INR in *. rewrite lsum_app in *. pose proof (pos_INR (length l1)) as N1. pose proof (pos_INR (length l2)) as N2.
    assert (P1 : 0 <= lsum f2R l1) by (apply lsum_nonneg; intros a Ia; apply NN, in_or_app; left; exact Ia).
    assert (P2 : 0 <= lsum f2R l2) by (apply lsum_nonneg; intros a Ia; apply NN, in_or_app; right; exact Ia).
    destruct IH1 as (F1 & B1); [intros x Hx; apply NN, in_or_app; left; exact Hx|nra|lra|].
    destruct IH2 as (F2 & B2); [intros x Hx; apply NN, in_or_app; right; exact Hx|nra|lra|].
    assert (Z1 : 0 <= lsum f2R l1 * (1 - INR (length l1) * u53)) by (apply Rmult_le_pos; [exact P1|nra]). assert (Z2 : 0 <= lsum f2R l2 * (1 - INR (length l2) * u53)) by (apply Rmult_le_pos; [exact P2|nra]).
    assert (QA : 0 <= f2R s1) by lra. assert (QB : 0 <= f2R s2) by lra. clear Z1 Z2.
    assert (BB : f2R s1 + f2R s2 <= b2 501). { replace (b2 501) with (2 * b2 500) by (change 501%Z with (1 + 500)%Z; rewrite bpow_plus; reflexivity). clear - P1 P2 B1 B2 BD LE N1 N2 U. set (n1 := INR (length l1)) in *. set (n2 := INR (length l2)) in *. assert (lsum f2R l1 * (1 + 2 * n1 * u53) <= lsum f2R l1 * 2) by (apply Rmult_le_compat_l; [exact P1|nra]). assert (lsum f2R l2 * (1 + 2 * n2 * u53) <= lsum f2R l2 * 2) by (apply Rmult_le_compat_l; [exact P2|nra]). lra. }
    destruct (fplus_spec s1 s2 501 F1 F2 ltac:(lia)) as [V F]; [rewrite Rabs_pos_eq by lra; exact BB|]. split; [exact F|].
    destruct l1 as [|a1 l1].
    { rewrite lsum_nil in *. assert (Z1 : f2R s1 = 0) by lra. rewrite V, Z1, (Rplus_0_l (f2R s2)), (rnd_id _ (fmt_B2R s2)). cbn [length] in *. change (INR 0) with 0 in *. lra. }
    destruct l2 as [|a2 l2].
    { rewrite lsum_nil in *. assert (Z1 : f2R s2 = 0) by lra. rewrite V, Z1, (Rplus_0_r (f2R s1)), (rnd_id _ (fmt_B2R s1)). cbn [length] in *. change (INR 0) with 0 in *. lra. }
    pose proof (rnd_plus_err (f2R s1) (f2R s2) (fmt_B2R s1) (fmt_B2R s2)) as E. rewrite (Rabs_pos_eq (f2R s1 + f2R s2)) in E by lra. apply Rabs_le_inv in E. rewrite V.
    cbn [length] in *. rewrite !S_INR in *. set (n1 := INR (length l1)) in *. set (n2 := INR (length l2)) in *. set (S1 := lsum f2R (a1 :: l1)) in *. set (S2 := lsum f2R (a2 :: l2)) in *.
    pose proof (pos_INR (length l1)) as M1. pose proof (pos_INR (length l2)) as M2. fold n1 in M1. fold n2 in M2.
    assert (K1 : f2R s1 * (1 + u53) <= S1 * (1 + 2 * (n1 + 1 + (n2 + 1)) * u53)). { apply Rle_trans with (S1 * (1 + 2 * (n1 + 1) * u53) * (1 + u53)); [apply Rmult_le_compat_r; lra|]. rewrite Rmult_assoc. apply Rmult_le_compat_l; [exact P1|]. clear - M1 M2 LE U. nra. }
    assert (K2 : f2R s2 * (1 + u53) <= S2 * (1 + 2 * (n1 + 1 + (n2 + 1)) * u53)). { apply Rle_trans with (S2 * (1 + 2 * (n2 + 1) * u53) * (1 + u53)); [apply Rmult_le_compat_r; lra|]. rewrite Rmult_assoc. apply Rmult_le_compat_l; [exact P2|]. clear - M1 M2 LE U. nra. }
    assert (K3 : S1 * (1 - (n1 + 1 + (n2 + 1)) * u53) <= f2R s1 * (1 - u53)). { apply Rle_trans with (S1 * (1 - (n1 + 1) * u53) * (1 - u53)); [rewrite Rmult_assoc; apply Rmult_le_compat_l; [exact P1|]; clear - M1 M2 LE U; nra|apply Rmult_le_compat_r; lra]. }
    assert (K4 : S2 * (1 - (n1 + 1 + (n2 + 1)) * u53) <= f2R s2 * (1 - u53)). { apply Rle_trans with (S2 * (1 - (n2 + 1) * u53) * (1 - u53)); [rewrite Rmult_assoc; apply Rmult_le_compat_l; [exact P2|]; clear - M1 M2 LE U; nra|apply Rmult_le_compat_r; lra]. }
    split; lra.
  - rewrite <- (Permutation_length P), <- (lsum_perm _ f2R _ _ P) in *. apply IH; [|exact LE|exact BD]. intros x Hx. apply NN. eapply Permutation_in; eassumption.
Qed.
Lemma whole_nonneg : forall x, whole x -> nonneg64 x.
Proof. intros x [F (k & E)]. split; [exact F|]. rewrite E. apply pos_INR. Qed.
Lemma added_whole : forall l s, added l s -> (forall x, In x l -> whole x) -> lsum f2R l <= 9007199254740992 -> whole s /\ f2R s = lsum f2R l.
Proof.
  induction 1 as [|x|l1 l2 s1 s2 H1 IH1 H2 IH2|l l' s H IH P]; intros W BD.
  - split; [split; [reflexivity|exists 0%nat; reflexivity]|reflexivity].
  - split; [apply W; left; reflexivity|]. rewrite lsum_cons, lsum_nil. ring.
  - rewrite lsum_app in *.
    assert (P1 : 0 <= lsum f2R l1) by (apply lsum_nonneg; intros a Ia; apply whole_nonneg, W, in_or_app; left; exact Ia).
    assert (P2 : 0 <= lsum f2R l2) by (apply lsum_nonneg; intros a Ia; apply whole_nonneg, W, in_or_app; right; exact Ia).
    destruct IH1 as ([F1 (k1 & E1)] & V1); [intros x Hx; apply W, in_or_app; left; exact Hx|lra|].
    destruct IH2 as ([F2 (k2 & E2)] & V2); [intros x Hx; apply W, in_or_app; right; exact Hx|lra|].
    assert (BB : f2R s1 + f2R s2 <= 9007199254740992) by lra.
    destruct (fplus_spec s1 s2 53 F1 F2 ltac:(lia)) as [V F]; [rewrite Rabs_pos_eq by lra; exact BB|].
    assert (E : f2R s1 + f2R s2 = IZR (Z.of_nat (k1 + k2))) by (rewrite E1, E2, <- INR_IZR_INZ, plus_INR; reflexivity).
    rewrite E, rnd_id in V; [|apply fmt_IZR; rewrite E in BB; apply (le_IZR _ (2 ^ 53)) in BB; lia].
    split; [split; [exact F|exists (k1 + k2)%nat; rewrite V, INR_IZR_INZ; reflexivity]|lra].
  - rewrite <- (lsum_perm _ f2R _ _ P) in *. apply IH; [|exact BD]. intros x Hx. apply W. eapply Permutation_in; eassumption.
Qed.

(** ** real inequalities with an abstract unit roundoff *)
Lemma rabs_split : forall a b c, Rabs (a - c) <= Rabs (a - b) + Rabs (b - c).
Proof. intros a b c. replace (a - c) with ((a - b) + (b - c)) by ring. apply Rabs_triang. Qed.
Lemma sq_err : forall u e d dh, 0 < u <= 1 / 100000 -> 0 < e -> Rabs (dh - d) <= 11 * u * (e + Rabs d) ->
  Rabs (dh * dh / e - d * d / e) <= u * (23 * Rabs d + 23 * (d * d / e) + e).
Proof.
  intros u e d dh U He H. replace (dh * dh / e - d * d / e) with ((dh - d) * (2 * d + (dh - d)) / e) by (field; lra).
  unfold Rdiv at 1. rewrite Rabs_mult, (Rabs_pos_eq (/ e)) by (left; apply Rinv_0_lt_compat; exact He). rewrite Rabs_mult.
  set (a := Rabs d) in *. assert (A : 0 <= a) by apply Rabs_pos. assert (DD : d * d = a * a) by (unfold a; rewrite <- Rabs_mult, Rabs_pos_eq by nra; reflexivity). rewrite DD.
  set (x := Rabs (dh - d)) in *. assert (X : 0 <= x) by apply Rabs_pos.
  assert (Y : Rabs (2 * d + (dh - d)) <= 2 * a + x). { eapply Rle_trans; [apply Rabs_triang|]. rewrite Rabs_mult, (Rabs_pos_eq 2) by lra. unfold a, x. lra. }
  set (z := a / e). assert (Z : 0 <= z) by (apply Rmult_le_pos; [exact A|left; apply Rinv_0_lt_compat; exact He]). assert (Ea : a = z * e) by (unfold z; field; lra).
  apply Rmult_le_reg_r with e; [exact He|]. rewrite Rmult_assoc, Rinv_l, Rmult_1_r by lra.
  apply Rle_trans with (x * (2 * a + x)); [apply Rmult_le_compat_l; assumption|].
  apply Rle_trans with (11 * u * (e + a) * (2 * a + 11 * u * (e + a))); [apply Rmult_le_compat; lra|].
  rewrite Ea. replace (z * e * (z * e) / e) with (z * z * e) by (field; lra).
  replace (11 * u * (e + z * e) * (2 * (z * e) + 11 * u * (e + z * e))) with (u * (e * e) * (11 * (1 + z) * (2 * z + 11 * u * (1 + z)))) by ring.
  replace (u * (23 * (z * e) + 23 * (z * z * e) + e) * e) with (u * (e * e) * (23 * z + 23 * (z * z) + 1)) by ring.
  apply Rmult_le_compat_l; [apply Rmult_le_pos; [lra|nra]|]. clear - U Z. nra.
Qed.
Lemma quot_err : forall u e eh q x eta, 0 < u <= 1 / 100000 -> 0 < e -> 0 <= x -> 0 <= q -> Rabs (eh - e) <= 3 * u * e -> Rabs (q - x * e) <= u * (x * e) + eta -> 0 <= eta <= u * u * (e * e) ->
  0 <= q / eh /\ Rabs (q / eh - x) <= u * (41 / 10 * x + e / 100).
Proof.
  intros u e eh q x eta U He Hx Hq HE HQ HT. apply Rabs_le_inv in HE. apply Rabs_le_inv in HQ. assert (EP : 0 < eh) by nra.
  split; [apply Rmult_le_pos; [exact Hq|left; apply Rinv_0_lt_compat; exact EP]|].
  replace (q / eh - x) with ((q - x * eh) / eh) by (field; lra). unfold Rdiv at 1. rewrite Rabs_mult, (Rabs_pos_eq (/ eh)) by (left; apply Rinv_0_lt_compat; exact EP).
  apply Rmult_le_reg_r with eh; [exact EP|]. rewrite Rmult_assoc, Rinv_l, Rmult_1_r by lra.
  apply Rle_trans with (4 * u * (x * e) + u * u * (e * e)).
  - apply Rabs_le. assert (X1 : 0 <= x * e) by nra. assert (X2 : x * (e - 3 * u * e) <= x * eh <= x * (e + 3 * u * e)) by (split; apply Rmult_le_compat_l; lra). split; nra.
  - apply Rle_trans with (u * (41 / 10 * x + e / 100) * (e * (1 - 3 * u))); [|apply Rmult_le_compat_l; [nra|lra]]. 
    replace (4 * u * (x * e) + u * u * (e * e)) with (u * e * (4 * x + u * e)) by ring. replace (u * (41 / 10 * x + e / 100) * (e * (1 - 3 * u))) with (u * e * ((41 / 10 * x + e / 100) * (1 - 3 * u))) by ring.
    apply Rmult_le_compat_l; [nra|]. assert (41 / 10 * (1 - 3 * u) >= 4) by lra. assert ((1 - 3 * u) / 100 >= u) by lra. nra.
Qed.
Lemma term_err : forall u e eh d dh q th eta, 0 < u <= 1 / 100000 -> 0 < e -> Rabs (dh - d) <= 11 * u * (e + Rabs d) -> 0 <= q -> Rabs (q - dh * dh) <= u * (dh * dh) + eta ->
  Rabs (eh - e) <= 3 * u * e -> Rabs (th - q / eh) <= u * (q / eh) + eta -> 0 <= eta <= u * u * (e * e) -> eta <= u * u * e ->
  Rabs (th - d * d / e) <= u * (24 * Rabs d + 29 * (d * d / e) + 2 * e).
Proof.
  intros u e eh d dh q th eta U He HD Hq HQ HE HT E1 E2.
  pose proof (sq_err u e d dh U He HD) as S. set (t := d * d / e) in *. set (x := dh * dh / e) in *. assert (T : 0 <= t) by (apply Rmult_le_pos; [nra|left; apply Rinv_0_lt_compat; exact He]).
  assert (X : 0 <= x) by (apply Rmult_le_pos; [nra|left; apply Rinv_0_lt_compat; exact He]). assert (XE : dh * dh = x * e) by (unfold x; field; lra). rewrite XE in HQ.
  destruct (quot_err u e eh q x eta U He X Hq HE HQ E1) as [QP Q]. pose proof (Rabs_pos d) as A. set (a := Rabs d) in *. set (y := q / eh) in *.
  pose proof (rabs_split th y t) as R1. pose proof (rabs_split y x t) as R2.
  assert (X' : x <= t + u * (23 * a + 23 * t + e)) by (apply Rabs_le_inv in S; lra).
  assert (Y' : y <= x + u * (41 / 10 * x + e / 100)) by (apply Rabs_le_inv in Q; lra).
  assert (U2 : u * u <= u / 100000) by nra.
  assert (B1 : u * x <= u * t + u / 100000 * (23 * a + 23 * t + e)). { apply Rle_trans with (u * (t + u * (23 * a + 23 * t + e))); [apply Rmult_le_compat_l; lra|]. replace (u * (t + u * (23 * a + 23 * t + e))) with (u * t + u * u * (23 * a + 23 * t + e)) by ring. apply Rplus_le_compat_l. apply Rmult_le_compat_r; lra. }
  assert (B2 : u * y <= u * x + u / 100000 * (41 / 10 * x + e / 100)). { apply Rle_trans with (u * (x + u * (41 / 10 * x + e / 100))); [apply Rmult_le_compat_l; lra|]. replace (u * (x + u * (41 / 10 * x + e / 100))) with (u * x + u * u * (41 / 10 * x + e / 100)) by ring. apply Rplus_le_compat_l. apply Rmult_le_compat_r; lra. }
  assert (B3 : u * u * e <= u / 100000 * e) by (apply Rmult_le_compat_r; lra).
  assert (0 <= u * x) by nra. assert (0 <= u * t) by nra. assert (0 <= u * a) by nra. assert (0 <= u * e) by nra. lra.
Qed.

(** ** one cell *)
Definition cl (x : R) : R := Rmax (- (1 / 2)) (Rmin (1 / 2) x).
Lemma cl_lip : forall x y, Rabs (cl x - cl y) <= Rabs (x - y).
Proof. intros x y. unfold cl, Rmax, Rmin, Rabs. repeat (destruct (Rle_dec _ _)); repeat (destruct (Rcase_abs _)); lra. Qed.
Lemma yates_cl : forall o e, yates true o e = o + cl (e - o).
Proof.
  intros o e. unfold yates, rsign, cl. f_equal. destruct (Rlt_dec 0 (e - o)); [|destruct (Rlt_dec (e - o) 0)]; unfold Rmin, Rmax, Rabs; destruct (Rcase_abs (e - o)); repeat (destruct (Rle_dec _ _)); lra.
Qed.
Lemma fhalf_val : f2R fhalf = / 2 /\ ffin fhalf = true.
Proof. destruct (flit_spec 1 (-1)) as [A B]; try lia. split; [|exact B]. unfold fhalf. rewrite A. change (b2 (-1)) with (/ 2). lra. Qed.
Lemma fyates_shift : forall d, ffin d = true -> Rabs (f2R d) <= b2 100 -> let s := fmult (fmin2 fhalf (fabs d)) (fsign d) in ffin s = true /\ f2R s = cl (f2R d).
Proof.
  intros d F B s. destruct fhalf_val as [HV HF]. destruct (fabs_val d) as [AV AF]. rewrite F in AF. destruct fone_val as [OV OF]. destruct (fopp_val fone) as [NV NF]. rewrite OF in NF. rewrite OV in NV.
  assert (M : exists mv, f2R (fmin2 fhalf (fabs d)) = mv /\ mv = Rmin (1 / 2) (Rabs (f2R d)) /\ ffin (fmin2 fhalf (fabs d)) = true /\ fmt mv).
  { eexists. split; [reflexivity|]. split; [|split; [unfold fmin2; destruct (flt _ _); assumption|apply fmt_B2R]]. unfold fmin2. destruct (flt fhalf (fabs d)) eqn:E.
    - apply flt_spec in E; try assumption. rewrite HV in *. rewrite AV in E. unfold Rmin. destruct (Rle_dec _ _); lra.
    - assert (E' : ~ f2R fhalf < f2R (fabs d)) by (intros X; apply flt_spec in X; try assumption; congruence). rewrite HV, AV in E'. rewrite AV. unfold Rmin. destruct (Rle_dec _ _); lra. }
  destruct M as (mv & MV & ME & MF & MT). assert (MB : 0 <= mv <= 1 / 2) by (rewrite ME; pose proof (Rabs_pos (f2R d)); unfold Rmin; destruct (Rle_dec _ _); lra).
  assert (S : exists sv, f2R (fsign d) = sv /\ sv = rsign (f2R d) /\ ffin (fsign d) = true).
  { eexists. split; [reflexivity|]. unfold fsign, rsign. destruct (flt fzero d) eqn:E1; [|destruct (flt d fzero) eqn:E2].
    - apply flt_spec in E1; [|reflexivity|exact F]. change (f2R fzero) with 0 in E1. destruct (Rlt_dec 0 (f2R d)); [auto|lra].
    - apply flt_spec in E2; [|exact F|reflexivity]. change (f2R fzero) with 0 in E2. destruct (Rlt_dec 0 (f2R d)); [lra|]. destruct (Rlt_dec (f2R d) 0); [|lra]. split; [lra|exact NF].
    - assert (X1 : ~ 0 < f2R d) by (intros X; apply (flt_spec fzero d) in X; [congruence|reflexivity|exact F]). assert (X2 : ~ f2R d < 0) by (intros X; apply (flt_spec d fzero) in X; [congruence|exact F|reflexivity]).
      destruct (Rlt_dec 0 (f2R d)); [contradiction|]. destruct (Rlt_dec (f2R d) 0); [contradiction|]. split; reflexivity. }
  destruct S as (sv & SV & SE & SF).
  assert (SB : sv = 1 \/ sv = -1 \/ sv = 0) by (rewrite SE; unfold rsign; destruct (Rlt_dec _ _); [auto|]; destruct (Rlt_dec _ _); auto).
  destruct (fmult_spec (fmin2 fhalf (fabs d)) (fsign d) 1 MF SF ltac:(lia)) as [V FF]. { rewrite MV, SV, Rabs_mult, (Rabs_pos_eq mv) by lra. change (b2 1) with 2. destruct SB as [-> |[-> | ->]]; unfold Rabs; destruct (Rcase_abs _); lra. }
  split; [exact FF|]. unfold s. rewrite V, MV, SV. assert (FM : fmt (mv * sv)). { destruct SB as [-> |[-> | ->]]; [rewrite Rmult_1_r; exact MT|replace (mv * -1) with (- mv) by ring; apply fmt_opp; exact MT|rewrite Rmult_0_r; apply (fmt_IZR 0); lia]. }
  rewrite rnd_id by exact FM. rewrite ME, SE. pose proof (yates_cl 0 (f2R d)) as Y. unfold yates in Y. rewrite Rminus_0_r, !Rplus_0_l in Y. exact Y.
Qed.

Section Cell.
  Variables (fR fC fT fo : f64).
  Hypothesis WR : whole fR. Hypothesis WC : whole fC. Hypothesis WT : whole fT. Hypothesis Wo : whole fo.
  Let r := f2R fR. Let c := f2R fC. Let n := f2R fT. Let o := f2R fo.
  Hypothesis Hr : 1 <= r <= n. Hypothesis Hc : 1 <= c <= n. Hypothesis Hn : n <= 70368744177664. Hypothesis Ho : o <= n.
  Let e := r * c / n.
  Let eh := fdiv (fmult fR fC) fT.
  Lemma o_nat : 0 <= o /\ (o = 0 \/ 1 <= o).
  Proof. destruct Wo as [_ (k & E)]. unfold o. rewrite E. split; [apply pos_INR|]. destruct k as [|k]; [left; reflexivity|right]. rewrite S_INR. pose proof (pos_INR k). lra. Qed.
  Lemma e_range : / 70368744177664 <= e <= 70368744177664.
  Proof.
    unfold e. split.
    - apply Rmult_le_reg_r with n; [lra|]. unfold Rdiv. rewrite (Rmult_assoc (r * c)), Rinv_l, Rmult_1_r by lra. apply Rle_trans with 1; [|nra]. apply Rmult_le_reg_l with 70368744177664; [lra|]. rewrite <- Rmult_assoc, Rinv_r, Rmult_1_l, Rmult_1_r by lra. exact Hn.
    - apply Rmult_le_reg_r with n; [lra|]. unfold Rdiv. rewrite Rmult_assoc, Rinv_l, Rmult_1_r by lra. nra.
  Qed.
  Lemma eh_ok : ffin eh = true /\ Rabs (f2R eh - e) <= 3 * u53 * e.
  Proof.
    destruct WR as [FR _]. destruct WC as [FC _]. destruct WT as [FT _]. pose proof u53_pos as U.
    assert (P1 : 1 <= r * c) by nra. assert (PB : r * c <= b2 92). { replace (b2 92) with (70368744177664 * 70368744177664) by (change 92%Z with (46 + 46)%Z; rewrite bpow_plus; reflexivity). apply Rmult_le_compat; lra. }
    destruct (fmult_spec fR fC 92 FR FC ltac:(lia)) as [V1 F1]; [fold r c; rewrite Rabs_pos_eq by lra; exact PB|]. fold r c in V1.
    destruct (rel_err (r * c)) as (e1 & E1 & Q1). { rewrite Rabs_pos_eq by lra. apply Rle_trans with (b2 0); [apply bpow_le; lia|]. change (b2 0) with 1. exact P1. }
    rewrite u53_b2 in E1. apply Rabs_le_inv in E1. rewrite Q1 in V1. pose proof e_range as ER.
    assert (DE : r * c * (1 + e1) / n = e * (1 + e1)) by (unfold e; field; lra).
    assert (LO : b2 (-1022) <= e * (1 + e1)). { apply Rle_trans with (b2 (-47)); [apply bpow_le; lia|]. rewrite b2_m47. nra. }
    assert (NZ : f2R fT <> 0) by (fold n; lra).
    destruct (fdiv_spec (fmult fR fC) fT 60 F1 NZ ltac:(lia)) as [V2 F2]. { rewrite V1. fold n. rewrite DE, Rabs_pos_eq by nra. apply Rle_trans with (b2 47); [|apply bpow_le; lia]. change (b2 47) with 140737488355328. nra. }
    fold eh in V2, F2. fold n in V2. rewrite V1, DE in V2. split; [exact F2|].
    destruct (rel_err (e * (1 + e1))) as (e2 & E2 & Q2); [rewrite Rabs_pos_eq by nra; exact LO|]. rewrite u53_b2 in E2. apply Rabs_le_inv in E2. rewrite V2, Q2.
    replace (e * (1 + e1) * (1 + e2) - e) with (e * (e1 + e2 + e1 * e2)) by ring. rewrite Rabs_mult, (Rabs_pos_eq e) by lra. rewrite (Rmult_comm (3 * u53)). apply Rmult_le_compat_l; [lra|]. apply Rabs_le. nra.
  Qed.
  Lemma eh_pos : / 140737488355328 <= f2R eh <= 140737488355328.
  Proof. destruct eh_ok as [_ E]. pose proof e_range as R. pose proof u53_pos. apply Rabs_le_inv in E. nra. Qed.
  (** the difference of something near o' and the computed expectation *)
  Lemma dh_ok : forall oh o', ffin oh = true -> 0 <= f2R oh -> 0 <= o' <= 70368744177664 + 1 -> Rabs (f2R oh - o') <= 13 / 2 * u53 * (e + Rabs (o' - e)) ->
    let dh := fminus oh eh in ffin dh = true /\ Rabs (f2R dh - (o' - e)) <= 11 * u53 * (e + Rabs (o' - e)) /\ Rabs (f2R dh) <= b2 49.
  Proof.
    intros oh o' FO PO BO EO dh. destruct eh_ok as [FE EE]. pose proof eh_pos as EP. pose proof e_range as ER. pose proof u53_pos as U. set (w := e + Rabs (o' - e)) in *.
    assert (W : 0 <= w <= 3 * 70368744177664) by (unfold w; unfold Rabs; destruct (Rcase_abs _); lra). assert (WE : e <= w) by (unfold w; pose proof (Rabs_pos (o' - e)); lra). assert (WD : Rabs (o' - e) <= w) by (unfold w; lra).
    assert (OB : f2R oh <= 70368744177664 + 2) by (apply Rabs_le_inv in EO; unfold u53 in EO; lra).
    destruct (fminus_spec oh eh 48 FO FE ltac:(lia)) as [V F]; [change (b2 48) with 281474976710656; apply Rabs_le; lra|]. fold dh in V, F. split; [exact F|].
    pose proof (rnd_minus_err _ _ (fmt_B2R oh) (fmt_B2R eh)) as E. change (B2R oh) with (f2R oh) in E. change (B2R eh) with (f2R eh) in E. rewrite <- V in E.
    assert (E3 : Rabs ((f2R oh - f2R eh) - (o' - e)) <= 19 / 2 * u53 * w). { replace (f2R oh - f2R eh - (o' - e)) with ((f2R oh - o') + - (f2R eh - e)) by ring. eapply Rle_trans; [apply Rabs_triang|]. rewrite Rabs_Ropp. assert (3 * u53 * e <= 3 * u53 * w) by (apply Rmult_le_compat_l; lra). lra. }
    assert (E4 : Rabs (f2R oh - f2R eh) <= Rabs (o' - e) + 19 / 2 * u53 * w). { replace (f2R oh - f2R eh) with ((o' - e) + ((f2R oh - f2R eh) - (o' - e))) by ring. eapply Rle_trans; [apply Rabs_triang|]. lra. }
    assert (E5 : Rabs (f2R dh - (o' - e)) <= 11 * u53 * w).
    { eapply Rle_trans; [apply (rabs_split _ (f2R oh - f2R eh))|]. assert (X : u53 * Rabs (f2R oh - f2R eh) <= u53 * (w + 19 / 2 * u53 * w)) by (apply Rmult_le_compat_l; lra).
      assert (Y : u53 * (w + 19 / 2 * u53 * w) <= 3 / 2 * u53 * w) by (replace (u53 * (w + 19 / 2 * u53 * w)) with (u53 * w * (1 + 19 / 2 * u53)) by ring; replace (3 / 2 * u53 * w) with (u53 * w * (3 / 2)) by ring; apply Rmult_le_compat_l; [apply Rmult_le_pos; lra|lra]). lra. }
    split; [exact E5|]. apply Rle_trans with (Rabs (f2R oh - f2R eh) * 2); [|change (b2 49) with 562949953421312; unfold Rabs; destruct (Rcase_abs _); lra].
    assert (Rabs (f2R dh) <= Rabs (f2R dh - (f2R oh - f2R eh)) + Rabs (f2R oh - f2R eh)) by (replace (f2R dh) with ((f2R dh - (f2R oh - f2R eh)) + (f2R oh - f2R eh)) at 1 by ring; apply Rabs_triang).
    pose proof (Rabs_pos (f2R oh - f2R eh)). nra.
  Qed.
  (** the observed count, with or without the continuity correction *)
  Lemma plain_ok : ffin fo = true /\ 0 <= f2R fo /\ 0 <= o <= 70368744177664 + 1 /\ Rabs (f2R fo - o) <= 13 / 2 * u53 * (e + Rabs (o - e)).
  Proof.
    destruct Wo as [F _]. destruct o_nat as [O _]. fold o. pose proof e_range. pose proof (Rabs_pos (o - e)). pose proof u53_pos. repeat split; try assumption; try lra. unfold Rminus at 1. rewrite Rplus_opp_r, Rabs_R0. apply Rmult_le_pos; lra.
  Qed.
  Lemma yates_dist : let o' := yates true o e in 0 <= o' <= 70368744177664 + 1 /\ Rabs (e - o) <= 2 * (e + Rabs (o' - e)) /\ o' <= e + Rabs (o' - e) /\ Rabs (o' - e) <= Rabs (o - e).
  Proof.
    cbn zeta. rewrite yates_cl. destruct o_nat as [O1 O2]. pose proof e_range as E. unfold cl, Rmax, Rmin. repeat split; repeat (destruct (Rle_dec _ _)); unfold Rabs; repeat (destruct (Rcase_abs _)); try lra; destruct O2; lra.
  Qed.
  Lemma yates_ok : let oh := fyates fo eh in let o' := yates true o e in ffin oh = true /\ 0 <= f2R oh /\ Rabs (f2R oh - o') <= 13 / 2 * u53 * (e + Rabs (o' - e)).
  Proof.
    cbn zeta. destruct eh_ok as [FE EE]. destruct Wo as [FO _]. pose proof eh_pos as EP. pose proof e_range as ER. pose proof u53_pos as U. destruct o_nat as [O1 _]. destruct yates_dist as ((Y1 & Y2) & Y3 & Y4 & _). cbn zeta in *.
    set (o' := yates true o e) in *. set (w := e + Rabs (o' - e)) in *. assert (WE : e <= w) by (unfold w; pose proof (Rabs_pos (o' - e)); lra).
    destruct (fminus_spec eh fo 48 FE FO ltac:(lia)) as [V F]; [change (b2 48) with 281474976710656; fold o; apply Rabs_le; lra|].
    pose proof (rnd_minus_err _ _ (fmt_B2R eh) (fmt_B2R fo)) as E. fold o in E. fold o in V. rewrite <- V in E. set (D := fminus eh fo) in *.
    assert (DE : Rabs (f2R eh - o) <= Rabs (e - o) + 3 * u53 * e) by (eapply Rle_trans; [apply (rabs_split _ e)|]; lra).
    assert (UW : 0 <= u53 * w) by (apply Rmult_le_pos; lra).
    assert (U1 : u53 * e <= u53 * w) by (apply Rmult_le_compat_l; lra).
    assert (DE' : Rabs (f2R D - (e - o)) <= 51 / 10 * u53 * w).
    { eapply Rle_trans; [apply (rabs_split _ (f2R eh - o))|]. replace (f2R eh - o - (e - o)) with (f2R eh - e) by ring.
      assert (X : u53 * Rabs (f2R eh - o) <= u53 * (2 * w + 3 * u53 * w)) by (apply Rmult_le_compat_l; lra).
      assert (X2 : u53 * (2 * w + 3 * u53 * w) <= 21 / 10 * (u53 * w)) by (replace (u53 * (2 * w + 3 * u53 * w)) with (u53 * w * (2 + 3 * u53)) by ring; rewrite (Rmult_comm (21 / 10)); apply Rmult_le_compat_l; lra).
      lra. }
    assert (DB : Rabs (f2R D) <= b2 100). { apply Rle_trans with (b2 50); [|apply bpow_le; lia]. change (b2 50) with 1125899906842624.
      replace (f2R D) with ((f2R D - (f2R eh - o)) + (f2R eh - o)) by ring. eapply Rle_trans; [apply Rabs_triang|]. assert (X : Rabs (f2R eh - o) <= 140737488355328 + 70368744177664) by (apply Rabs_le; lra). pose proof (Rabs_pos (f2R eh - o)).
      assert (u53 * Rabs (f2R eh - o) <= 1 * Rabs (f2R eh - o)) by (apply Rmult_le_compat_r; lra). lra. }
    destruct (fyates_shift D F DB) as [SF SV]. cbn zeta in SF, SV. unfold fyates. fold D. cbn zeta. set (s := fmult (fmin2 fhalf (fabs D)) (fsign D)) in *.
    assert (SB : Rabs (cl (f2R D)) <= 1 / 2) by (unfold cl, Rmax, Rmin; apply Rabs_le; repeat (destruct (Rle_dec _ _)); lra).
    assert (SO : 0 <= o + cl (f2R D)). {
      assert (DG : - o <= f2R D). { rewrite V. apply rnd_lb; [apply fmt_opp, (fmt_B2R fo)|lra]. }
      destruct o_nat as [_ [O|O]]; [|apply Rabs_le_inv in SB; lra]. rewrite O in *. unfold cl, Rmax, Rmin. repeat (destruct (Rle_dec _ _)); lra. }
    destruct (fplus_spec fo s 48 FO SF ltac:(lia)) as [V2 F2]; [fold o; rewrite SV; change (b2 48) with 281474976710656; rewrite Rabs_pos_eq by lra; apply Rabs_le_inv in SB; lra|].
    fold o in V2. rewrite SV in V2. split; [exact F2|]. split; [rewrite V2; apply rnd_lb; [apply (fmt_IZR 0); lia|exact SO]|].
    pose proof (rnd_plus_err _ _ (fmt_B2R fo) (fmt_B2R s)) as E2. fold o in E2. rewrite SV in E2. rewrite <- V2 in E2. rewrite (Rabs_pos_eq _ SO) in E2.
    assert (C : Rabs (cl (f2R D) - cl (e - o)) <= 51 / 10 * u53 * w) by (eapply Rle_trans; [apply cl_lip|exact DE']).
    assert (Q : Rabs (o + cl (f2R D) - o') <= 51 / 10 * u53 * w) by (unfold o'; rewrite yates_cl; replace (o + cl (f2R D) - (o + cl (e - o))) with (cl (f2R D) - cl (e - o)) by ring; exact C).
    eapply Rle_trans; [apply (rabs_split _ (o + cl (f2R D)))|]. apply Rabs_le_inv in Q.
    assert (X : u53 * (o + cl (f2R D)) <= u53 * (w + 51 / 10 * u53 * w)) by (apply Rmult_le_compat_l; lra).
    assert (X2 : u53 * (w + 51 / 10 * u53 * w) <= 11 / 10 * (u53 * w)) by (replace (u53 * (w + 51 / 10 * u53 * w)) with (u53 * w * (1 + 51 / 10 * u53)) by ring; rewrite (Rmult_comm (11 / 10)); apply Rmult_le_compat_l; lra).
    assert (Q' : Rabs (o + cl (f2R D) - o') <= 51 / 10 * u53 * w) by (apply Rabs_le; exact Q). lra.
  Qed.
  (** one term of the statistic *)
  Lemma fterm_ok : forall oh o', ffin oh = true -> 0 <= f2R oh -> 0 <= o' <= 70368744177664 + 1 -> Rabs (f2R oh - o') <= 13 / 2 * u53 * (e + Rabs (o' - e)) ->
    let t := (o' - e) * (o' - e) / e in
    nonneg64 (fterm oh eh) /\ f2R (fterm oh eh) <= b2 200 /\ Rabs (f2R (fterm oh eh) - t) <= u53 * (24 * Rabs (o' - e) + 29 * t + 2 * e).
  Proof.
    intros oh o' FO PO BO EO t. destruct (dh_ok oh o' FO PO BO EO) as (FD & ED & BD). cbn zeta in *. unfold fterm. cbn zeta. set (dh := fminus oh eh) in *. destruct eh_ok as [FE EE]. pose proof eh_pos as EP. pose proof e_range as ER.
    assert (SQ : 0 <= f2R dh * f2R dh <= b2 98). { split; [nra|]. change 98%Z with (49 + 49)%Z. rewrite bpow_plus. replace (f2R dh * f2R dh) with (Rabs (f2R dh) * Rabs (f2R dh)) by (rewrite <- Rabs_mult, Rabs_pos_eq by nra; reflexivity). apply Rmult_le_compat; try apply Rabs_pos; exact BD. }
    destruct (fmult_spec dh dh 98 FD FD ltac:(lia)) as [V1 F1]; [rewrite Rabs_pos_eq by lra; lra|].
    assert (QB : 0 <= f2R (fmult dh dh) <= b2 98). { rewrite V1. split; [apply rnd_lb; [apply (fmt_IZR 0); lia|lra]|apply rnd_ub; [apply fmt_bpow; lia|lra]]. }
    pose proof (rnd_err (f2R dh * f2R dh)) as E1. rewrite <- V1, (Rabs_pos_eq _ (proj1 SQ)) in E1. set (q := fmult dh dh) in *.
    assert (NZ : f2R eh <> 0) by lra.
    assert (QE : 0 <= f2R q / f2R eh <= b2 200). { split; [apply Rmult_le_pos; [lra|left; apply Rinv_0_lt_compat; lra]|]. apply Rmult_le_reg_r with (f2R eh); [lra|]. unfold Rdiv. rewrite Rmult_assoc, Rinv_l, Rmult_1_r by exact NZ. apply Rle_trans with (b2 98); [lra|].
      apply Rle_trans with (b2 200 * b2 (-47)); [rewrite <- bpow_plus; apply bpow_le; lia|]. apply Rmult_le_compat_l; [apply bpow_ge_0|]. rewrite b2_m47. lra. }
    destruct (fdiv_spec q eh 200 F1 NZ ltac:(lia)) as [V2 F2]; [rewrite Rabs_pos_eq by lra; lra|].
    assert (TB : 0 <= f2R (fdiv q eh) <= b2 200). { rewrite V2. split; [apply rnd_lb; [apply (fmt_IZR 0); lia|lra]|apply rnd_ub; [apply fmt_bpow; lia|lra]]. }
    split; [split; [exact F2|lra]|]. split; [lra|]. pose proof (rnd_err (f2R q / f2R eh)) as E2. rewrite <- V2, (Rabs_pos_eq _ (proj1 QE)) in E2.
    pose proof u53_pos as U. apply (term_err u53 e (f2R eh) (o' - e) (f2R dh) (f2R q) _ eta0); try assumption; try lra.
    - split; [left; apply eta0_pos|]. apply Rle_trans with (b2 (-200)); [apply bpow_le; lia|]. rewrite <- u53_b2. apply Rle_trans with (b2 (-53) * b2 (-53) * (b2 (-46) * b2 (-46))); [rewrite <- !bpow_plus; apply bpow_le; lia|].
      apply Rmult_le_compat_l; [rewrite <- bpow_plus; apply bpow_ge_0|]. rewrite b2_m46. apply Rmult_le_compat; lra.
    - apply Rle_trans with (b2 (-200)); [apply bpow_le; lia|]. rewrite <- u53_b2. apply Rle_trans with (b2 (-53) * b2 (-53) * b2 (-46)); [rewrite <- !bpow_plus; apply bpow_le; lia|].
      apply Rmult_le_compat_l; [rewrite <- bpow_plus; apply bpow_ge_0|]. rewrite b2_m46. lra.
  Qed.
End Cell.

(** ** the whole table *)
Lemma lsum_cells : forall (f : nat -> nat -> R) l l', lsum (fun c => f (fst c) (snd c)) (list_prod l l') = lsum (fun i => lsum (fun j => f i j) l') l.
Proof.
  intros f l l'. induction l as [|a l IH]; [reflexivity|]. cbn [list_prod]. rewrite lsum_app, IH, lsum_cons. f_equal. rewrite lsum_map. reflexivity.
Qed.
Lemma in_cells : forall m c, In c (fcells m) <-> (fst c < fr m)%nat /\ (snd c < fc m)%nat.
Proof. intros m [i j]. unfold fcells. rewrite in_prod_iff, !in_idx. reflexivity. Qed.
Lemma abs_close : forall A (f g h : A -> R) l, (forall a, In a l -> Rabs (f a - g a) <= h a) -> Rabs (lsum f l - lsum g l) <= lsum h l.
Proof. intros A f g h l H. rewrite <- lsum_minus. eapply Rle_trans; [apply lsum_abs|]. apply lsum_le. exact H. Qed.

Section Table.
  Variable add_up : site -> list f64 -> f64.
  Hypothesis AO : any_order add_up.
  Variable m : fmat.
  Hypothesis CT : count_table64 m.
  Let T := real_table m.
  Let N := matsum T.
  Hypothesis HN : 1 <= N <= 70368744177664.
  Let K := INR (fr m * fc m).
  Hypothesis HK : K <= 1048576.
  Lemma T_nonneg : nonneg_table T.
  Proof. intros i j Hi Hj. apply whole_nonneg, CT; assumption. Qed.
  Lemma row_le : forall i, (i < fr m)%nat -> rowsum T i <= N.
  Proof. intros i Hi. unfold N, matsum. apply (lsum_le_elem _ (fun i => rowsum T i)); [|apply in_seq; cbn; lia]. intros x Hx. apply rowsum_nonneg; [apply T_nonneg|apply in_seq in Hx; cbn in *; lia]. Qed.
  Lemma col_le : forall j, (j < fc m)%nat -> colsum T j <= N.
  Proof. intros j Hj. unfold N. rewrite matsum_colsum. apply (lsum_le_elem _ (fun i => colsum T i)); [|apply in_seq; cbn; lia]. intros x Hx. apply colsum_nonneg; [apply T_nonneg|apply in_seq in Hx; cbn in *; lia]. Qed.
  Lemma frow_val : forall i, (i < fr m)%nat -> whole (frow add_up m i) /\ f2R (frow add_up m i) = rowsum T i.
  Proof.
    intros i Hi. assert (E : lsum f2R (map (fe m i) (idx (fc m))) = rowsum T i) by (rewrite lsum_map; reflexivity). rewrite <- E. apply added_whole; [apply AO| |rewrite E; pose proof (row_le i Hi); lra].
    intros x Hx. apply in_map_iff in Hx. destruct Hx as (j & <- & Hj). apply in_idx in Hj. apply CT; assumption.
  Qed.
  Lemma fcol_val : forall j, (j < fc m)%nat -> whole (fcol add_up m j) /\ f2R (fcol add_up m j) = colsum T j.
  Proof.
    intros j Hj. assert (E : lsum f2R (map (fun i => fe m i j) (idx (fr m))) = colsum T j) by (rewrite lsum_map; reflexivity). rewrite <- E. apply added_whole; [apply AO| |rewrite E; pose proof (col_le j Hj); lra].
    intros x Hx. apply in_map_iff in Hx. destruct Hx as (i & <- & Hi). apply in_idx in Hi. apply CT; assumption.
  Qed.
  Lemma ftot_val : whole (ftot add_up m) /\ f2R (ftot add_up m) = N.
  Proof.
    assert (E : lsum f2R (map (fun c => fe m (fst c) (snd c)) (fcells m)) = N) by (rewrite lsum_map; unfold fcells; rewrite (lsum_cells (fun i j => f2R (fe m i j))); reflexivity). rewrite <- E. apply added_whole; [apply AO| |rewrite E; lra].
    intros x Hx. apply in_map_iff in Hx. destruct Hx as (c & <- & Hc). apply in_cells in Hc. apply CT; tauto.
  Qed.
  Lemma cells_length : INR (length (fcells m)) = K.
  Proof. unfold fcells, K. rewrite prod_length. unfold idx. rewrite !seq_length. reflexivity. Qed.
  Lemma el_le : forall i j, (i < fr m)%nat -> (j < fc m)%nat -> f2R (fe m i j) <= N.
  Proof.
    intros i j Hi Hj. eapply Rle_trans; [|apply (row_le i Hi)]. unfold rowsum. apply (lsum_le_elem _ (fun j => el T i j)); [|apply in_seq; cbn; lia]. intros x Hx. apply T_nonneg; [exact Hi|apply in_seq in Hx; cbn in *; lia].
  Qed.
  Lemma whole_pos : forall x, whole x -> 0 < f2R x -> 1 <= f2R x.
  Proof. intros x [_ (k & E)] P. rewrite E in *. destruct k as [|k]; [cbn in P; lra|]. rewrite S_INR. pose proof (pos_INR k). lra. Qed.

  (** tables without empty rows and columns *)
  Hypothesis RP : forall i, (i < fr m)%nat -> 0 < rowsum T i.
  Hypothesis CP : forall j, (j < fc m)%nat -> 0 < colsum T j.
  Let e (c : nat * nat) := expected T (fst c) (snd c).
  Let eh (c : nat * nat) := fexp add_up m (fst c) (snd c).
  Let o (c : nat * nat) := el T (fst c) (snd c).
  Variable y : bool.
  Let obs (i j : nat) : f64 := if y then fyates (fe m i j) (fexp add_up m i j) else fe m i j.
  Let o' (c : nat * nat) : R := if y then yates true (o c) (e c) else o c.
  Let oh (c : nat * nat) : f64 := obs (fst c) (snd c).
  Let d (c : nat * nat) : R := o' c - e c.
  Let t (c : nat * nat) : R := d c * d c / e c.
  Lemma cell_facts : forall c, In c (fcells m) ->
    / 70368744177664 <= e c <= 70368744177664 /\ ffin (eh c) = true /\ / 140737488355328 <= f2R (eh c) <= 140737488355328 /\ Rabs (f2R (eh c) - e c) <= 3 * u53 * e c /\
    nonneg64 (oh c) /\ Rabs (f2R (oh c) - o' c) <= 13 / 2 * u53 * (e c + Rabs (d c)) /\ Rabs (d c) <= Rabs (o c - e c) /\
    nonneg64 (fterm (oh c) (eh c)) /\ f2R (fterm (oh c) (eh c)) <= b2 200 /\ Rabs (f2R (fterm (oh c) (eh c)) - t c) <= u53 * (24 * Rabs (d c) + 29 * t c + 2 * e c).
  Proof.
    intros c Hc. apply in_cells in Hc. destruct Hc as [Hi Hj]. destruct (frow_val _ Hi) as [WR VR]. destruct (fcol_val _ Hj) as [WC VC]. destruct ftot_val as [WT VT]. pose proof (CT _ _ Hi Hj) as WO.
    assert (R1 : 1 <= f2R (frow add_up m (fst c)) <= f2R (ftot add_up m)). { split; [apply whole_pos; [exact WR|rewrite VR; apply RP, Hi]|rewrite VR, VT; apply row_le, Hi]. }
    assert (C1 : 1 <= f2R (fcol add_up m (snd c)) <= f2R (ftot add_up m)). { split; [apply whole_pos; [exact WC|rewrite VC; apply CP, Hj]|rewrite VC, VT; apply col_le, Hj]. }
    assert (N1 : f2R (ftot add_up m) <= 70368744177664) by (rewrite VT; lra).
    assert (O1 : f2R (fe m (fst c) (snd c)) <= f2R (ftot add_up m)) by (rewrite VT; apply el_le; assumption).
    assert (EE : f2R (frow add_up m (fst c)) * f2R (fcol add_up m (snd c)) / f2R (ftot add_up m) = e c) by (unfold e, expected; rewrite VR, VC, VT; reflexivity).
    pose proof (e_range _ _ _ R1 C1 N1) as A1. pose proof (eh_ok _ _ _ WR WC WT R1 C1 N1) as [A2 A3]. pose proof (eh_pos _ _ _ WR WC WT R1 C1 N1) as A4. rewrite EE in *.
    split; [exact A1|]. split; [exact A2|]. split; [exact A4|]. split; [exact A3|].
    assert (M : ffin (oh c) = true /\ 0 <= f2R (oh c) /\ 0 <= o' c <= 70368744177664 + 1 /\ Rabs (f2R (oh c) - o' c) <= 13 / 2 * u53 * (e c + Rabs (d c)) /\ Rabs (d c) <= Rabs (o c - e c)).
    { unfold d, o', oh, obs. destruct y.
      - pose proof (yates_dist _ _ _ _ WO R1 C1 N1 O1) as Y. pose proof (yates_ok _ _ _ _ WR WC WT WO R1 C1 N1 O1) as Z. cbn zeta in *. rewrite EE in *. destruct Y as (Y1 & _ & _ & Y2). destruct Z as (Z1 & Z2 & Z3). repeat split; try assumption; try apply Y1.
      - pose proof (plain_ok _ _ _ _ WO R1 C1 N1 O1) as Z. cbn zeta in *. rewrite EE in *. destruct Z as (Z1 & Z2 & Z3 & Z4). repeat split; try assumption; try apply Z3. apply Rle_refl. }
    destruct M as (M1 & M2 & M3 & M4 & M5). split; [split; assumption|]. split; [exact M4|]. split; [exact M5|].
    pose proof (fterm_ok _ _ _ WR WC WT R1 C1 N1 (oh c) (o' c) M1 M2 M3) as F. rewrite EE in F. specialize (F M4). cbn zeta in F. destruct F as (F1 & F2 & F3). repeat split; try assumption; apply F1.
  Qed.
  Lemma sum_e : lsum e (fcells m) = N.
  Proof.
    unfold e, fcells. rewrite (lsum_cells (fun i j => expected T i j)). unfold expected.
    rewrite (lsum_ext _ _ (fun i => rowsum T i * 1)). { rewrite lsum_scal_r, Rmult_1_r. reflexivity. }
    intros i _. replace (lsum (fun j => rowsum T i * colsum T j / matsum T) (idx (fc m))) with (rowsum T i / matsum T * matsum T) by (rewrite (matsum_colsum T) at 2; rewrite <- lsum_scal; apply lsum_ext; intros j _; unfold Rdiv; ring).
    fold N. field. lra.
  Qed.
  Lemma sum_o : lsum o (fcells m) = N.
  Proof. unfold o, fcells. rewrite (lsum_cells (fun i j => el T i j)). reflexivity. Qed.
  Lemma sum_d : lsum (fun c => Rabs (d c)) (fcells m) <= 2 * N.
  Proof.
    apply Rle_trans with (lsum (fun c => o c + e c) (fcells m)); [|rewrite lsum_plus, sum_e, sum_o; lra]. apply lsum_le. intros c Hc. pose proof (cell_facts c Hc) as (A & _ & _ & _ & _ & _ & B & _). apply in_cells in Hc. pose proof (T_nonneg _ _ (proj1 Hc) (proj2 Hc)).
    eapply Rle_trans; [exact B|]. apply Rabs_le. unfold o. lra.
  Qed.
  Let chi := lsum t (fcells m).
  Lemma t_nonneg : forall c, In c (fcells m) -> 0 <= t c.
  Proof. intros c Hc. pose proof (cell_facts c Hc) as (A & _). unfold t. apply Rmult_le_pos; [nra|left; apply Rinv_0_lt_compat; lra]. Qed.
  Lemma chi_nonneg : 0 <= chi. Proof. apply lsum_nonneg. exact t_nonneg. Qed.
  Let ths := map (fun c => fterm (oh c) (eh c)) (fcells m).
  Lemma terms_sum : Rabs (lsum f2R ths - chi) <= u53 * (50 * N + 29 * chi).
  Proof.
    unfold ths. rewrite lsum_map. eapply Rle_trans; [apply (abs_close _ _ _ (fun c => u53 * (24 * Rabs (d c) + 29 * t c + 2 * e c)))|].
    - intros c Hc. apply (cell_facts c Hc).
    - rewrite lsum_scal, !lsum_plus, !lsum_scal, sum_e. fold chi. pose proof sum_d. pose proof u53_pos. apply Rmult_le_compat_l; lra.
  Qed.
  Lemma chi2_total : nonneg64 (add_up STerms ths) /\ Rabs (f2R (add_up STerms ths) - chi) <= u53 * (51 * N + (2 * K + 30) * chi).
  Proof.
    pose proof u53_pos as U. pose proof terms_sum as TS. pose proof chi_nonneg as CN.
    assert (NN : forall x, In x ths -> nonneg64 x) by (intros x Hx; apply in_map_iff in Hx; destruct Hx as (c & <- & Hc); apply (cell_facts c Hc)).
    assert (LK : INR (length ths) = K) by (unfold ths; rewrite map_length; apply cells_length).
    assert (KP : 0 <= K) by apply pos_INR.
    assert (KU : K * u53 <= / 8589934592) by (unfold u53; lra).
    assert (SB : lsum f2R ths <= b2 500).
    { apply Rle_trans with (lsum (fun _ : f64 => b2 200) ths).
      - apply lsum_le. intros x Hx. apply in_map_iff in Hx. destruct Hx as (c & <- & Hc). apply (cell_facts c Hc).
      - rewrite lsum_const, LK. apply Rle_trans with (b2 20 * b2 200); [apply Rmult_le_compat_r; [apply bpow_ge_0|exact HK]|]. rewrite <- bpow_plus. apply bpow_le. lia. }
    destruct (added_bounds ths (add_up STerms ths) (AO STerms ths) NN ltac:(rewrite LK; lra) SB) as [F B]. rewrite LK in B. set (S := lsum f2R ths) in *.
    assert (SP : 0 <= S) by (apply lsum_nonneg; intros x Hx; apply NN, Hx).
    assert (NU : 0 <= u53 * N) by (apply Rmult_le_pos; lra). assert (CU : 0 <= u53 * chi) by (apply Rmult_le_pos; lra).
    assert (SU : S <= chi + u53 * (50 * N + 29 * chi)) by (apply Rabs_le_inv in TS; lra).
    split; [split; [exact F|]|].
    - apply Rle_trans with (S * (1 - K * u53)); [apply Rmult_le_pos; [exact SP|lra]|lra].
    - eapply Rle_trans; [apply (rabs_split _ S)|].
      assert (E : Rabs (f2R (add_up STerms ths) - S) <= S * (2 * (K * u53))). { assert (0 <= S * (K * u53)) by (apply Rmult_le_pos; [exact SP|nra]). apply Rabs_le. split; lra. }
      assert (E2 : S * (2 * (K * u53)) <= (chi + u53 * (50 * N + 29 * chi)) * (2 * (K * u53))) by (apply Rmult_le_compat_r; [nra|exact SU]).
      assert (E3 : (50 * (u53 * N) + 29 * (u53 * chi)) * (2 * (K * u53)) <= (50 * (u53 * N) + 29 * (u53 * chi)) * (/ 100)) by (apply Rmult_le_compat_l; lra).
      replace ((chi + u53 * (50 * N + 29 * chi)) * (2 * (K * u53))) with (u53 * (2 * K * chi) + (50 * (u53 * N) + 29 * (u53 * chi)) * (2 * (K * u53))) in E2 by ring. lra.
  Qed.
  (** the two sums compared by power_divergence *)
  Hypothesis SO' : lsum o' (fcells m) = N.
  Lemma near_sum : forall k (f : nat * nat -> f64) (g h : nat * nat -> R), (forall c, In c (fcells m) -> nonneg64 (f c) /\ Rabs (f2R (f c) - g c) <= h c) -> lsum g (fcells m) = N -> lsum h (fcells m) <= 20 * u53 * N ->
    let s := add_up k (map f (fcells m)) in ffin s = true /\ Rabs (f2R s - N) <= N / 1000000000.
  Proof.
    intros k f g h H EG EH s. pose proof u53_pos as U.
    assert (NN : forall x, In x (map f (fcells m)) -> nonneg64 x) by (intros x Hx; apply in_map_iff in Hx; destruct Hx as (c & <- & Hc); apply (H c Hc)).
    assert (LK : INR (length (map f (fcells m))) = K) by (rewrite map_length; apply cells_length). assert (KP : 0 <= K) by apply pos_INR. assert (KU : K * u53 <= / 8589934592) by (unfold u53; lra).
    assert (D : Rabs (lsum f2R (map f (fcells m)) - N) <= 20 * u53 * N). { rewrite lsum_map, <- EG at 1. eapply Rle_trans; [apply (abs_close _ _ _ h); intros c Hc; apply (H c Hc)|exact EH]. }
    set (S := lsum f2R (map f (fcells m))) in *. assert (U2 : 20 * u53 <= / 100000000000000) by (unfold u53; lra).
    assert (D' : 20 * u53 * N <= / 100000000000000 * N) by (apply Rmult_le_compat_r; lra). apply Rabs_le_inv in D.
    assert (SP : 0 <= S) by (apply lsum_nonneg; intros x Hx; apply NN, Hx).
    assert (SB : S <= b2 500) by (apply Rle_trans with (b2 50); [change (b2 50) with 1125899906842624; lra|apply bpow_le; lia]).
    destruct (added_bounds _ s (AO k _) NN ltac:(rewrite LK; lra) SB) as [F B]. split; [exact F|]. rewrite LK in B. fold S in B.
    assert (S * (K * u53) <= S * / 8589934592) by (apply Rmult_le_compat_l; lra). assert (0 <= S * (K * u53)) by (apply Rmult_le_pos; [exact SP|nra]). apply Rabs_le. lra.
  Qed.
  Lemma agree : sums_agree add_up m obs = true.
  Proof.
    pose proof u53_pos as U. unfold sums_agree. cbn zeta.
    destruct (near_sum SObs oh o' (fun c => 13 / 2 * u53 * (e c + Rabs (d c)))) as [FO BO]; [intros c Hc; split; apply (cell_facts c Hc)|exact SO'| |].
    { rewrite lsum_scal, lsum_plus, sum_e. pose proof sum_d. apply Rle_trans with (13 / 2 * u53 * (3 * N)); [apply Rmult_le_compat_l; lra|]. assert (0 <= u53 * N) by (apply Rmult_le_pos; lra). lra. }
    destruct (near_sum SExp eh e (fun c => 3 * u53 * e c)) as [FE BE]; [|exact sum_e| |].
    { intros c Hc. pose proof (cell_facts c Hc) as (A1 & A2 & A3 & A4 & _). split; [split; [exact A2|lra]|exact A4]. }
    { rewrite lsum_scal, sum_e. assert (0 <= u53 * N) by (apply Rmult_le_pos; lra). lra. }
    change (fun c : nat * nat => obs (fst c) (snd c)) with oh. change (fun c : nat * nat => fexp add_up m (fst c) (snd c)) with eh.
    cbn zeta in FO, BO, FE, BE. set (so := add_up SObs (map oh (fcells m))) in *. set (se := add_up SExp (map eh (fcells m))) in *. apply Rabs_le_inv in BO. apply Rabs_le_inv in BE.
    destruct (fminus_spec so se 48 FO FE ltac:(lia)) as [V F]; [change (b2 48) with 281474976710656; apply Rabs_le; lra|].
    destruct (fabs_val (fminus so se)) as [AV AF]. rewrite F in AF.
    assert (MV : ffin (fmin2 so se) = true /\ N * (1 - / 1000000000) <= f2R (fmin2 so se)) by (unfold fmin2; destruct (flt so se); split; try assumption; lra). destruct MV as [MF MV].
    assert (AB : Rabs (f2R (fminus so se)) <= N * (3 / 1000000000)).
    { pose proof (rnd_minus_err _ _ (fmt_B2R so) (fmt_B2R se)) as E. rewrite <- V in E. assert (X : Rabs (f2R so - f2R se) <= N * (2 / 1000000000)) by (apply Rabs_le; lra).
      replace (f2R (fminus so se)) with ((f2R (fminus so se) - (f2R so - f2R se)) + (f2R so - f2R se)) by ring. eapply Rle_trans; [apply Rabs_triang|]. pose proof (Rabs_pos (f2R so - f2R se)).
      assert (u53 * Rabs (f2R so - f2R se) <= / 1000 * Rabs (f2R so - f2R se)) by (apply Rmult_le_compat_r; lra). lra. }
    destruct (flit_spec 6044629098073146 (-79)) as [TV TF]; try lia. fold rtol8 in TV, TF.
    assert (TL : 9 / 1000000000 <= f2R rtol8). { rewrite TV. change (b2 (-79)) with (/ 604462909807314587353088). lra. }
    assert (NZ : f2R (fmin2 so se) <> 0) by lra.
    assert (QL : 0 <= f2R (fabs (fminus so se)) / f2R (fmin2 so se) <= 9 / 1000000000).
    { rewrite AV. split; [apply Rmult_le_pos; [apply Rabs_pos|left; apply Rinv_0_lt_compat; lra]|]. apply Rmult_le_reg_r with (f2R (fmin2 so se)); [lra|]. unfold Rdiv at 1. rewrite Rmult_assoc, Rinv_l, Rmult_1_r by exact NZ. lra. }
    destruct (fdiv_spec (fabs (fminus so se)) (fmin2 so se) 0 AF NZ ltac:(lia)) as [V2 F2]; [rewrite Rabs_pos_eq by lra; change (b2 0) with 1; lra|].
    apply fle_spec; try assumption. rewrite V2. apply rnd_ub; [apply fmt_B2R|lra].
  Qed.
End Table.
