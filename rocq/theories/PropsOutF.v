(** C93: the expectations, their uncertainties and the mid-p-values of outliers.py in binary64. *)
From Coq Require Import String ZArith List Bool Reals Lia Lra Psatz.
Import ListNotations.
From Flocq Require Import Core BinarySingleNaN Plus_error.
From Verif Require Import F64 Base Num LinspaceProofs RSum StatsModel StatsProofs BrentFModel BrentFProofs SpecChi2F Chi2FModel Chi2FProofs GlobFModel PropsGlobF OutModel OutFModel OutFProofs SpecOut OutProofs SpecOutF OutFProofs2.
Open Scope R_scope.

Lemma zsum_R : forall (f : nat -> Z) n, IZR (zsum f n) = lsum (fun i => IZR (f i)) (seq 0 n).
Proof. intros f n. unfold zsum, lsum. induction (seq 0 n) as [|a l IH]; [reflexivity|]. cbn [fold_right]. rewrite plus_IZR, IH. reflexivity. Qed.
Lemma z_row_R : forall t i, IZR (z_row t i) = rowsum (real_table t) i. Proof. intros. unfold z_row, rowsum. apply zsum_R. Qed.
Lemma z_col_R : forall t j, IZR (z_col t j) = colsum (real_table t) j. Proof. intros. unfold z_col, colsum. apply zsum_R. Qed.
Lemma z_all_R : forall t, IZR (z_all t) = matsum (real_table t).
Proof. intros t. unfold z_all, matsum. rewrite zsum_R. apply lsum_ext. intros i _. apply z_row_R. Qed.

Section Table.
Variable t : ztab. Hypothesis NN : counts t. Hypothesis TOT : (z_all t <= 2 ^ 32)%Z.
Variables i j : nat. Hypothesis Hi : (i < z_nr t)%nat. Hypothesis Hj : (j < z_nc t)%nat.
Let m := real_table t.
Let A := z_el t i j. Let B := (z_row t i - A)%Z. Let C := (z_col t j - A)%Z. Let D := (z_all t - B - C - A)%Z.
Lemma tB : IZR B = same_row m i j. Proof. unfold B. rewrite minus_IZR, z_row_R. apply (B_spec m). exact Hj. Qed.
Lemma tC : IZR C = same_col m i j. Proof. unfold C. rewrite minus_IZR, z_col_R. apply (C_spec m). exact Hi. Qed.
Lemma tD : IZR D = elsewhere m i j. Proof. unfold D. rewrite !minus_IZR, z_all_R, tB, tC. apply (D_spec m); assumption. Qed.
Lemma mnn : forall k l, 0 <= el m k l. Proof. intros. apply (IZR_le 0). apply NN. Qed.
Lemma tranges : (0 <= B <= 2 ^ 32)%Z /\ (0 <= C <= 2 ^ 32)%Z /\ (0 <= D <= 2 ^ 32)%Z.
Proof.
  assert (B0 : 0 <= IZR B) by (rewrite tB; apply lsum_nonneg; intros; apply mnn). assert (C0 : 0 <= IZR C) by (rewrite tC; apply lsum_nonneg; intros; apply mnn).
  assert (D0 : 0 <= IZR D) by (rewrite tD; apply lsum_nonneg; intros; apply lsum_nonneg; intros; apply mnn). apply le_IZR in B0, C0, D0. pose proof (NN i j) as A0. fold A in A0.
  assert (B + C + D + A = z_all t)%Z by (unfold D; lia). lia.
Qed.
End Table.

Definition e52 : R := bpow radix2 (-52).
Lemma apx_within : forall k k' e x b, apx k e x b -> k <= k' -> within (k' * e52) (f2R x) b.
Proof. intros k k' e x b X K. pose proof (apx_nonneg _ _ _ _ X). destruct X as (_ & _ & A). unfold within. apply Rle_trans with (1 := A). apply Rmult_le_compat_r; [assumption|]. change e52 with ee. apply Rmult_le_compat_r; [unfold ee; lra|exact K]. Qed.
Lemma b51 : bpow radix2 (-51) = 2 * e52. Proof. unfold e52. rewrite <- (bpow_plus radix2 1). reflexivity. Qed.
Lemma b48 : bpow radix2 (-48) = 16 * e52. Proof. unfold e52. change 16 with (bpow radix2 4). rewrite <- (bpow_plus radix2). reflexivity. Qed.
Lemma b46 : bpow radix2 (-46) = 64 * e52. Proof. unfold e52. change 64 with (bpow radix2 6). rewrite <- (bpow_plus radix2). reflexivity. Qed.

(** C93: expectation and uncertainty of every cell *)
Theorem C93_expectations : forall p2 t i j, pow2_ok p2 -> counts t -> (i < z_nr t)%nat -> (j < z_nc t)%nat -> (z_all t <= 2 ^ 32)%Z ->
  let m := real_table t in let B := same_row m i j in let C := same_col m i j in let D := elsewhere m i j in let e := fst (estimate64 p2 t i j) in let s := snd (estimate64 p2 t i j) in
  (0 < D -> ffin e = true /\ within (bpow radix2 (-51)) (f2R e) (abcd B C D) /\ ffin s = true /\ within (bpow radix2 (-48)) (f2R s) (abcd_err B C D)) /\
  (D = 0 -> fisnan e = true /\ fisnan s = true).
Proof.
  intros p2 t i j P NN Hi Hj TOT m B C D e s. destruct (tranges t NN TOT i j Hi Hj) as (RB & RC & RD). pose proof (tB t i j Hj) as EB. pose proof (tC t i j Hi) as EC. pose proof (tD t i j Hi Hj) as ED.
  unfold e, s, estimate64. set (zA := z_el t i j) in *. set (zB := (z_row t i - zA)%Z) in *. set (zC := (z_col t j - zA)%Z) in *. set (zD := (z_all t - zB - zC - zA)%Z) in *.
  fold m in EB, EC, ED. fold B in EB. fold C in EC. fold D in ED. split; intros HD.
  - assert (ZD : (0 < zD)%Z) by (apply lt_IZR; rewrite ED; exact HD). replace (0 <? zD)%Z with true by (symmetry; apply Z.ltb_lt; exact ZD). cbn [fst snd].
    pose proof (apx_e zB zC zD RB RC ltac:(lia)) as AE. pose proof (apx_s p2 P zB zC zD RB RC ltac:(lia)) as AS. rewrite EB, EC, ED in AE, AS.
    split; [exact (proj1 AE)|]. split; [rewrite b51; apply (apx_within _ _ _ _ _ AE); lra|]. split; [exact (proj1 AS)|]. rewrite b48. apply (apx_within _ _ _ _ _ AS); lra.
  - assert (ZD : zD = 0%Z) by (apply eq_IZR; rewrite ED; exact HD). rewrite ZD. split; reflexivity.
Qed.
Print Assumptions C93_expectations.

(** C93: what is handed to scipy's betainc *)
Theorem C93_linnemann : forall p2 t i j, pow2_ok p2 -> counts t -> (i < z_nr t)%nat -> (j < z_nc t)%nat -> (z_all t <= 2 ^ 32)%Z ->
  let m := real_table t in let B := same_row m i j in let C := same_col m i j in let D := elsewhere m i j in 0 < D -> 0 < abcd_err B C D ->
  let bx := linnemann64 (fst (estimate64 p2 t i j)) (snd (estimate64 p2 t i j)) in
  ffin (fst bx) = true /\ 1 <= f2R (fst bx) /\ within (bpow radix2 (-46)) (f2R (fst bx)) (lin_b (abcd B C D) (abcd_err B C D)) /\
  ffin (snd bx) = true /\ 0 < f2R (snd bx) <= 1 /\ within (bpow radix2 (-46)) (f2R (snd bx)) (lin_x (abcd B C D) (abcd_err B C D)).
Proof.
  intros p2 t i j P NN Hi Hj TOT m B C D HD HS bx. destruct (tranges t NN TOT i j Hi Hj) as (RB & RC & RD). pose proof (tB t i j Hj) as EB. pose proof (tC t i j Hi) as EC. pose proof (tD t i j Hi Hj) as ED.
  unfold bx, estimate64. set (zA := z_el t i j) in *. set (zB := (z_row t i - zA)%Z) in *. set (zC := (z_col t j - zA)%Z) in *. set (zD := (z_all t - zB - zC - zA)%Z) in *.
  fold m in EB, EC, ED. fold B in EB. fold C in EC. fold D in ED.
  assert (ZD : (0 < zD)%Z) by (apply lt_IZR; rewrite ED; exact HD). replace (0 <? zD)%Z with true by (symmetry; apply Z.ltb_lt; exact ZD). cbn [fst snd].
  pose proof (apx_e zB zC zD RB RC ltac:(lia)) as AE. pose proof (apx_s p2 P zB zC zD RB RC ltac:(lia)) as AS. rewrite EB, EC, ED in AE, AS.
  match goal with |- context [linnemann64 ?x ?y] => pose proof (lin_apx x y _ _ AE AS HS) as L; destruct (linnemann64 x y) as [b64 x64] end. cbn [fst snd]. destruct L as (L1 & L2 & L3 & L4).
  split; [exact (proj1 L1)|]. split; [exact L3|]. split; [rewrite b46; apply (apx_within _ _ _ _ _ L1); lra|]. split; [exact (proj1 L2)|]. split; [exact L4|]. rewrite b46. apply (apx_within _ _ _ _ _ L2); lra.
Qed.
Print Assumptions C93_linnemann.

(** the reals above are those of the exact model of outliers.py *)
Theorem C93_exact_model : forall L t i j, (i < z_nr t)%nat -> (j < z_nc t)%nat ->
  let m := real_table t in let B := same_row m i j in let C := same_col m i j in let D := elsewhere m i j in 0 < D ->
  estimate L m "poisson" i j = Ok (Fin (abcd B C D), Fin (abcd_err B C D)) /\
  (0 < abcd_err B C D -> linnemann (Fin (abcd B C D)) (abcd_err B C D) = (lin_b (abcd B C D) (abcd_err B C D), lin_x (abcd B C D) (abcd_err B C D))).
Proof.
  intros L t i j Hi Hj m B C D HD. assert (GU : forall x, get_uncertainty L x "poisson" = Ok (poisson_err x)).
  { intros x. unfold get_uncertainty. cbn [String.eqb Ascii.eqb Bool.eqb]. unfold get_poisson_uncertainty, poisson_err. destruct (rleb 1 x) eqn:E; [apply rleb_true in E|apply rleb_false in E]; destruct (Rle_dec 1 x); try reflexivity; lra. }
  split.
  - rewrite (estimate_spec L m "poisson" i j Hi Hj). cbv zeta. fold B C D. replace (rltb 0 D) with true by (symmetry; apply rltb_true; exact HD). rewrite !GU. reflexivity.
  - intros _. unfold linnemann, lin_b, lin_x, lin_tau. destruct (rltb 0 (abcd B C D)) eqn:E; [apply rltb_true in E|apply rltb_false in E]; destruct (Rlt_dec 0 (abcd B C D)); try reflexivity; lra.
Qed.
Print Assumptions C93_exact_model.

(** C93: the mid-p-value *)
Theorem C93_mid_p : forall p p1, ffin p = true -> ffin p1 = true -> 0 <= f2R p1 <= f2R p -> f2R p <= 1 ->
  let q := mid_p64 p p1 in ffin q = true /\ f2R p1 <= f2R q <= f2R p /\ (f2R q = 0 <-> f2R p = 0) /\
  Rabs (f2R q - (f2R p + f2R p1) / 2) <= bpow radix2 (-51) * ((f2R p + f2R p1) / 2) + bpow radix2 (-1074).
Proof.
  intros p p1 F F1 H H1 q. destruct fhalf_val as [HV HF]. assert (O1 : b2 1 = 2) by reflexivity. pose proof u53_pos as U. pose proof eta0_pos as T.
  destruct (fminus_spec p p1 1 F F1 ltac:(lia)) as [V1 G1]; [rewrite Rabs_pos_eq; lra|]. set (d := fminus p p1) in *.
  assert (fmtp := fmt_B2R p). assert (fmtp1 := fmt_B2R p1). change (B2R p) with (f2R p) in fmtp. change (B2R p1) with (f2R p1) in fmtp1. assert (fmt0 : fmt 0) by (apply (fmt_IZR 0); lia).
  pose proof (rnd_minus_err _ _ fmtp fmtp1) as E1. rewrite <- V1, (Rabs_pos_eq (f2R p - f2R p1)) in E1 by lra.
  assert (D0 : 0 <= f2R d <= f2R p) by (rewrite V1; split; [apply rnd_lb; [exact fmt0|lra]|apply rnd_ub; [exact fmtp|lra]]).
  destruct (fmult_spec fhalf d 1 HF G1 ltac:(lia)) as [V2 G2]; [rewrite HV, Rabs_pos_eq; lra|]. set (h := fmult fhalf d) in *. rewrite HV in V2.
  pose proof (rnd_err (/ 2 * f2R d)) as E2. rewrite <- V2, (Rabs_pos_eq (/ 2 * f2R d)) in E2 by lra.
  assert (H0 : 0 <= f2R h <= f2R d) by (rewrite V2; split; [apply rnd_lb; [exact fmt0|lra]|apply rnd_ub; [apply fmt_B2R|lra]]).
  destruct (fminus_spec p h 1 F G2 ltac:(lia)) as [V3 G3]; [rewrite Rabs_pos_eq; lra|]. change (fminus p h) with q in *.
  assert (fmth : fmt (f2R h)) by apply fmt_B2R. pose proof (rnd_minus_err _ _ fmtp fmth) as E3. rewrite <- V3, (Rabs_pos_eq (f2R p - f2R h)) in E3 by lra.
  assert (ETA : b2 (-1074) = 2 * eta0) by (unfold eta0; rewrite <- (bpow_plus radix2 1); reflexivity).
  assert (LOW : f2R p1 <= f2R p - f2R h).
  { destruct (Rle_dec (f2R p - f2R p1) (b2 (-1021))) as [S|S].
    - assert (f2R d = f2R p - f2R p1); [|lra]. rewrite V1. apply rnd_id. apply (FLT_format_plus_small radix2 (-1074) 53 (f2R p) (- f2R p1) fmtp (fmt_opp _ fmtp1)). change (53 + -1074)%Z with (-1021)%Z. change (f2R p + - f2R p1) with (f2R p - f2R p1). rewrite Rabs_pos_eq; lra.
    - assert (b2 (-1021) = 18014398509481984 * eta0) by (unfold eta0; change 18014398509481984 with (b2 54); rewrite <- (bpow_plus radix2 54); reflexivity).
      apply Rabs_le_inv in E1, E2. assert (u53 * (/ 2 * f2R d) <= / 1000000000 * f2R d) by (apply Rle_trans with (1 / 1000000000 * (/ 2 * f2R d)); [apply Rmult_le_compat_r; lra|lra]).
      assert (u53 * (f2R p - f2R p1) <= / 1000000000 * (f2R p - f2R p1)) by (apply Rmult_le_compat_r; lra). lra. }
  split; [exact G3|]. assert (QB : f2R p1 <= f2R q <= f2R p) by (rewrite V3; split; [apply rnd_lb; [exact fmtp1|exact LOW]|apply rnd_ub; [exact fmtp|lra]]). split; [exact QB|]. split.
  - split; [|intros E; lra]. intros Q0. destruct (Rle_lt_or_eq_dec 0 (f2R p) ltac:(lra)) as [PP|PP]; [|congruence]. exfalso. assert (P10 : f2R p1 = 0) by lra.
    assert (d_p : f2R d = f2R p) by (rewrite V1, P10, Rminus_0_r; apply rnd_id; exact fmtp).
    destruct (Rle_dec (b2 (-1073)) (f2R p)) as [BIG|SMALL].
    + assert (b2 (-1073) = 4 * eta0) by (unfold eta0; change 4 with (b2 2); rewrite <- (bpow_plus radix2 2); reflexivity). apply Rabs_le_inv in E2.
      assert (u53 * (/ 2 * f2R d) <= / 1000000000 * f2R d) by (apply Rle_trans with (1 / 1000000000 * (/ 2 * f2R d)); [apply Rmult_le_compat_r; lra|lra]).
      apply (round_plus_neq_0 radix2 (SpecFloat.fexp 53 1024) (round_mode mode_NE) (f2R p) (- f2R h) fmtp (fmt_opp _ fmth)); [lra|]. change (f2R p + - f2R h) with (f2R p - f2R h). change (rnd (f2R p - f2R h) = 0). rewrite <- V3. exact Q0.
    + assert (PV : f2R p = b2 (-1074)).
      { assert (L : b2 (-1074) <= f2R p). { destruct (Rle_dec (b2 (-1074)) (f2R p)) as [L|L]; [exact L|exfalso]. pose proof (generic_format_ge_bpow radix2 (SpecFloat.fexp 53 1024) (-1074)) as G. apply L. apply G; [intros e; unfold SpecFloat.fexp, SpecFloat.emin; lia|exact PP|exact fmtp]. }
        pose proof (succ_le_lt radix2 (SpecFloat.fexp 53 1024) (b2 (-1074)) (f2R p) (fmt_bpow (-1074) ltac:(lia)) fmtp) as SC. destruct (Rle_lt_or_eq_dec _ _ L) as [LT|EQ]; [|congruence]. exfalso. specialize (SC LT).
        rewrite succ_eq_pos in SC by apply bpow_ge_0. rewrite ulp_bpow in SC. change (SpecFloat.fexp 53 1024 (-1074 + 1)) with (-1074)%Z in SC. apply SMALL. replace (b2 (-1073)) with (b2 (-1074) + b2 (-1074)); [exact SC|]. change (-1073)%Z with (1 + -1074)%Z. rewrite (bpow_plus radix2 1). rewrite O1. ring. }
      assert (PC : p = flit 1 (-1074)).
      { destruct (flit_spec 1 (-1074)) as [LV LF]; [vm_compute; discriminate|lia|lia|]. rewrite Rmult_1_l in LV. apply B2R_inj; [| |unfold f2R in PV, LV; rewrite PV, LV; reflexivity].
        - pose proof (bpow_gt_0 radix2 (-1074)). destruct p as [s|s| |s mm ex pf]; try reflexivity; unfold f2R, B2R in PV; lra.
        - vm_compute. reflexivity. }
      assert (NZ : feqb q fzero = false).
      { unfold q. rewrite PC. destruct p1 as [s|s| |s mm ex pf]; try discriminate; [destruct s; vm_compute; reflexivity|]. exfalso. unfold f2R, B2R in P10. apply eq_0_F2R in P10. destruct s; discriminate. }
      apply (feqb_zero q G3) in Q0. congruence.
  - rewrite ETA. assert (U4 : b2 (-51) = 4 * u53) by (unfold u53; change (b2 (-51)) with (/ 2251799813685248); lra). rewrite U4. apply Rabs_le_inv in E1, E2, E3. set (A := (f2R p + f2R p1) / 2). assert (A0 : 0 <= A) by (unfold A; lra).
    assert (X1 : u53 * (f2R p - f2R p1) <= u53 * (2 * A)) by (apply Rmult_le_compat_l; [lra|unfold A; lra]). assert (X2 : u53 * (/ 2 * f2R d) <= u53 * A) by (apply Rmult_le_compat_l; [lra|unfold A; lra]).
    assert (X3 : u53 * (f2R p - f2R h) <= u53 * (2 * A)) by (apply Rmult_le_compat_l; [lra|unfold A; lra]). apply Rabs_le. fold A in X1. assert (AA : A = (f2R p + f2R p1) / 2) by reflexivity. clearbody A. split; lra.
Qed.
Print Assumptions C93_mid_p.

(** non-vacuity: x*x satisfies the contract of pow *)
Theorem C93_square_ok : pow2_ok (fun x => fmult x x).
Proof.
  intros x F. split.
  - intros Z. destruct (fmult_spec x x 0 F F ltac:(lia)) as [V G]; [rewrite Z, Rmult_0_l, Rabs_R0; apply bpow_ge_0|]. split; [exact G|]. rewrite V, Z, Rmult_0_l. apply rnd_0.
  - intros [L U]. pose proof (bpow_gt_0 radix2 (-400)) as P. assert (XX : b2 (-800) <= f2R x * f2R x <= b2 800). { change (-800)%Z with (-400 + -400)%Z. change 800%Z with (400 + 400)%Z. rewrite !bpow_plus. split; apply Rmult_le_compat; lra. }
    pose proof (bpow_gt_0 radix2 (-800)) as P8. destruct (fmult_spec x x 800 F F ltac:(lia)) as [V G]; [rewrite Rabs_pos_eq; lra|]. split; [exact G|]. rewrite V. replace (f2R x ^ 2) with (f2R x * f2R x) by ring.
    destruct (rel_err (f2R x * f2R x)) as (eps & HE & HR). { rewrite Rabs_pos_eq by lra. apply Rle_trans with (b2 (-800)); [apply bpow_le; lia|lra]. }
    rewrite HR. replace (f2R x * f2R x * (1 + eps) - f2R x * f2R x) with (eps * (f2R x * f2R x)) by ring. rewrite Rabs_mult, (Rabs_pos_eq (f2R x * f2R x)) by lra. apply Rmult_le_compat_r; [lra|].
    apply Rle_trans with (1 := HE). apply bpow_le. lia.
Qed.
Print Assumptions C93_square_ok.
(** B = C = 2^27 and D = 1: x is rounded to 1, where scipy's betainc is 1 for every observed count *)
Definition big_table : ztab := mkZtab 2 2 (fun i j => match i, j with O, O => 5 | S _, S _ => 1 | _, _ => 134217728 end)%Z.
Theorem C93_x_is_one_refuted : let sq := fun x => fmult x x in
  let bx := linnemann64 (fst (estimate64 sq big_table 0 0)) (snd (estimate64 sq big_table 0 0)) in
  feqb (snd bx) fone = true /\ (z_all big_table <= 2 ^ 32)%Z /\ forall e s, 0 < s -> 0 <= e -> lin_x e s < 1.
Proof.
  split; [vm_compute; reflexivity|]. split; [vm_compute; discriminate|]. intros e s S E. unfold lin_x.
  assert (0 < lin_tau e s). { unfold lin_tau. destruct (Rlt_dec 0 e); apply Rdiv_lt_0_compat; try assumption; apply Rmult_lt_0_compat; assumption. }
  apply Rmult_lt_reg_r with (1 + lin_tau e s); [lra|]. unfold Rdiv. rewrite Rmult_assoc, Rinv_l by lra. lra.
Qed.
Print Assumptions C93_x_is_one_refuted.
Definition small_table : ztab := mkZtab 2 2 (fun i j => match i, j with O, O => 5 | S _, S _ => 8 | O, _ => 3 | _, _ => 4 end)%Z.
Example C93_case : counts small_table /\ (z_all small_table <= 2 ^ 32)%Z /\ elsewhere (real_table small_table) 0 0 = 8 /\ 0 < abcd_err 3 4 8 /\
  feqb (fst (estimate64 (fun x => fmult x x) small_table 0 0)) (fdiv (ofZ 3) (ofZ 2)) = true.
Proof.
  split; [intros [|i] [|j]; cbn; lia|]. split; [vm_compute; discriminate|]. split; [cbn; lra|]. split; [|vm_compute; reflexivity].
  unfold abcd_err, poisson_err. apply sqrt_lt_R0. destruct (Rle_dec 1 3); [|lra]. assert (0 < (sqrt 3 * 4 / 8) ^ 2) by (apply pow_lt; apply Rdiv_lt_0_compat; [apply Rmult_lt_0_compat; [apply sqrt_lt_R0; lra|lra]|lra]).
  match goal with |- 0 < _ + ?a ^ 2 + ?b ^ 2 => pose proof (pow2_ge_0 a); pose proof (pow2_ge_0 b) end. lra.
Qed.
