(** C97: int64 overflow in the outlier expectations. *)
From Coq Require Import String ZArith List Bool Reals Lia Lra Psatz.
Import ListNotations.
From Flocq Require Import Core BinarySingleNaN.
From Verif Require Import F64 Base Num LinspaceProofs RSum StatsModel StatsProofs BrentFModel BrentFProofs SpecChi2F Chi2FModel Chi2FProofs GlobFModel PropsGlobF OutModel OutFModel OutFProofs SpecOut OutProofs SpecOutF OutFProofs2 PropsOutF OutIntModel.
Open Scope Z_scope.

Lemma wrap_id : forall z, - 2 ^ 63 <= z < 2 ^ 63 -> wrap64 z = z.
Proof. intros z H. unfold wrap64. rewrite Z.mod_small by lia. lia. Qed.
Lemma wrap_over : forall z, 2 ^ 63 <= z < 2 ^ 63 + 2 ^ 64 -> wrap64 z = z - 2 ^ 64.
Proof.
  intros z H. unfold wrap64. replace (z + 2 ^ 63) with (z - 2 ^ 63 + 1 * 2 ^ 64) by lia. rewrite Z.mod_add by lia. rewrite Z.mod_small by lia. lia.
Qed.

Section Table.
Variable t : ztab. Hypothesis NN : counts t. Variables i j : nat. Hypothesis Hi : (i < z_nr t)%nat. Hypothesis Hj : (j < z_nc t)%nat.
Let A := z_el t i j. Let B := z_row t i - A. Let C := z_col t j - A. Let D := z_all t - B - C - A.
Lemma bcd_nonneg : 0 <= A /\ 0 <= B /\ 0 <= C /\ 0 <= D /\ A + B + C + D = z_all t.
Proof.
  assert (B0 : (0 <= IZR B)%R) by (unfold B, A; rewrite (tB t i j Hj); apply lsum_nonneg; intros; apply (mnn t NN)).
  assert (C0 : (0 <= IZR C)%R) by (unfold C, A; rewrite (tC t i j Hi); apply lsum_nonneg; intros; apply (mnn t NN)).
  assert (D0 : (0 <= IZR D)%R) by (unfold D, C, B, A; rewrite (tD t i j Hi Hj); apply lsum_nonneg; intros; apply lsum_nonneg; intros; apply (mnn t NN)).
  apply le_IZR in B0, C0, D0. pose proof (NN i j) as A0. fold A in A0. unfold D. lia.
Qed.
Hypothesis TOT : z_all t < 2 ^ 63.
Lemma bcd_exact : wrap64 (wrap64 (z_row t i) - A) = B /\ wrap64 (wrap64 (z_col t j) - A) = C /\ wrap64 (wrap64 (wrap64 (wrap64 (z_all t) - B) - C) - A) = D.
Proof.
  destruct bcd_nonneg as (A0 & B0 & C0 & D0 & S). set (N := z_all t) in *. assert (z_row t i = B + A) by (unfold B; lia). assert (z_col t j = C + A) by (unfold C; lia).
  clearbody A B C D N. rewrite H, H0. change (2 ^ 63) with 9223372036854775808 in *. 
  assert (W : forall z, - 9223372036854775808 <= z < 9223372036854775808 -> wrap64 z = z) by exact wrap_id.
  rewrite (W (B + A)) by lia. rewrite (W (C + A)) by lia. rewrite (W N) by lia. rewrite (W (N - B)) by lia. rewrite (W (N - B - C)) by lia.
  rewrite !W by lia. lia.
Qed.
Lemma estimate_wraps : forall pow2, - 2 ^ 63 <= B * C < 2 ^ 63 \/ D <= 0 -> estimate_i64 pow2 t i j = estimate64 pow2 t i j.
Proof.
  intros pow2 W. unfold estimate_i64, estimate64. destruct bcd_exact as (E1 & E2 & E3). unfold D, C, B, A in *. rewrite E1, E2, E3.
  destruct W as [W|W].
  - rewrite (wrap_id _ W). reflexivity.
  - match goal with |- context [if ?c then _ else _] => replace c with false by (symmetry; apply Z.ltb_ge; exact W) end. reflexivity.
Qed.
End Table.

(** a product of two non-negative integers is largest when they are equal *)
Lemma product_bound : forall b c, 0 <= b -> 0 <= c -> b + c <= 6074000999 -> b * c < 2 ^ 63.
Proof.
  intros b c B C S. change (2 ^ 63) with 9223372036854775808.
  assert (4 * (b * c) <= (b + c) * (b + c) - (b - c) * (b - c)) by nia.
  destruct (Z_le_gt_dec (b + c) 6074000998) as [L|G].
  - assert ((b + c) * (b + c) <= 6074000998 * 6074000998) by (apply Z.mul_le_mono_nonneg; lia). pose proof (Z.square_nonneg (b - c)). lia.
  - assert (b + c = 6074000999) by lia. assert (1 <= (b - c) * (b - c)). { assert (b - c <> 0) by lia. pose proof (Z.square_nonneg (b - c)). nia. } rewrite H0 in H. lia.
Qed.

(** up to 6074001000 records the int64 table is evaluated as if integers were unbounded *)
Theorem C97_no_overflow : forall pow2 t i j, counts t -> (i < z_nr t)%nat -> (j < z_nc t)%nat -> z_all t <= 6074001000 ->
  estimate_i64 pow2 t i j = estimate64 pow2 t i j.
Proof.
  intros pow2 t i j NN Hi Hj N. assert (N' : z_all t < 2 ^ 63) by (change (2 ^ 63) with 9223372036854775808; lia). apply estimate_wraps; try assumption.
  destruct (bcd_nonneg t NN i j Hi Hj) as (A0 & B0 & C0 & D0 & S).
  match goal with |- _ \/ ?d <= 0 => destruct (Z_le_gt_dec d 0) as [L|G]; [right; exact L|left] end. split.
  - apply Z.le_trans with 0; [lia|apply Z.mul_nonneg_nonneg; assumption].
  - apply product_bound; [assumption|assumption|lia].
Qed.

(** a float64 table (one that has an empty cell) never wraps: the product is rounded as the exact one *)
Lemma mult_ofZ : forall b c, 0 <= b <= 2 ^ 53 -> 0 <= c <= 2 ^ 53 -> fmult (ofZ b) (ofZ c) = ofZ (b * c).
Proof.
  intros b c Hb Hc. destruct (ofZ_spec b ltac:(lia)) as [Vb Fb]. destruct (ofZ_spec c ltac:(lia)) as [Vc Fc].
  assert (P0 : 0 <= b * c) by (apply Z.mul_nonneg_nonneg; lia). assert (P1 : b * c <= 2 ^ 106) by (change (2 ^ 106) with (2 ^ 53 * 2 ^ 53); apply Z.mul_le_mono_nonneg; lia).
  destruct (fmult_spec (ofZ b) (ofZ c) 106 Fb Fc ltac:(lia)) as [V F].
  { rewrite Vb, Vc, <- mult_IZR, Rabs_pos_eq by (apply (IZR_le 0), P0). rewrite <- IZR_Zpower by lia. apply IZR_le. exact P1. }
  destruct (ofZ_rnd (b * c)) as [V2 F2]; [lia|]. rewrite Vb, Vc, <- mult_IZR in V.
  unfold f2R, ffin in *. apply B2R_Bsign_inj; [exact F|exact F2|congruence|].
  assert (SB : forall z, 0 <= z -> Bsign (ofZ z) = false).
  { intros z Hz. unfold ofZ. destruct z as [|p|p]; [reflexivity| |lia]. generalize (binary_normalize_correct 53 1024 prec53 prec53_1024 mode_NE (Zpos p) 0 false). cbv zeta.
    destruct (Rlt_bool _ _) eqn:E.
    - intros (_ & _ & S). rewrite Rcompare_Gt in S; [exact S|]. unfold F2R. cbn [Fnum Fexp bpow]. rewrite Rmult_1_r. apply (IZR_lt 0). lia.
    - intros S. destruct (binary_normalize 53 1024 prec53 prec53_1024 mode_NE (Zpos p) 0 false) as [s|s| |s m e H]; cbn in S; try discriminate.
      injection S as S. cbn [Bsign]. rewrite S. apply Rlt_bool_false. unfold F2R. cbn [Fnum Fexp bpow]. rewrite Rmult_1_r. apply (IZR_le 0). lia. }
  generalize (Bmult_correct 53 1024 prec53 prec53_1024 mode_NE (ofZ b) (ofZ c)). fold (fmult (ofZ b) (ofZ c)).
  destruct (Rlt_bool _ _) eqn:E.
  - intros (_ & _ & S). rewrite (SB _ P0). change (Bmult mode_NE (ofZ b) (ofZ c)) with (fmult (ofZ b) (ofZ c)) in S. rewrite S; [rewrite (SB b), (SB c) by lia; reflexivity|]. destruct (fmult (ofZ b) (ofZ c)); try reflexivity; discriminate F.
  - intros S. exfalso. change (Bmult mode_NE (ofZ b) (ofZ c)) with (fmult (ofZ b) (ofZ c)) in S. destruct (fmult (ofZ b) (ofZ c)); cbn in S; try discriminate S; discriminate F.
Qed.
Theorem C97_float_table : forall pow2 t i j, counts t -> (i < z_nr t)%nat -> (j < z_nc t)%nat -> z_all t <= 2 ^ 53 ->
  estimate_flt pow2 t i j = estimate64 pow2 t i j.
Proof.
  intros pow2 t i j NN Hi Hj N. destruct (bcd_nonneg t NN i j Hi Hj) as (A0 & B0 & C0 & D0 & S). unfold estimate_flt, estimate64.
  rewrite mult_ofZ by lia. reflexivity.
Qed.

(** so for up to 2^32 records both kinds of table give B*C/D and its propagated uncertainty to the precision of C93 *)
Theorem C97_accurate : forall p2 t i j e, pow2_ok p2 -> counts t -> (i < z_nr t)%nat -> (j < z_nc t)%nat -> z_all t <= 2 ^ 32 ->
  e = estimate_i64 p2 t i j \/ e = estimate_flt p2 t i j ->
  let m := real_table t in let B := same_row m i j in let C := same_col m i j in let D := elsewhere m i j in
  ((0 < D)%R -> ffin (fst e) = true /\ within (bpow radix2 (-51)) (f2R (fst e)) (abcd B C D) /\ ffin (snd e) = true /\ within (bpow radix2 (-48)) (f2R (snd e)) (abcd_err B C D)) /\
  ((D = 0)%R -> fisnan (fst e) = true /\ fisnan (snd e) = true).
Proof.
  intros p2 t i j e P NN Hi Hj N H. assert (E : e = estimate64 p2 t i j).
  { change (2 ^ 32) with 4294967296 in N. destruct H as [->| ->]; [apply C97_no_overflow|apply C97_float_table]; try assumption; [lia|change (2 ^ 53) with 9007199254740992; lia]. }
  rewrite E. exact (C93_expectations p2 t i j P NN Hi Hj N).
Qed.

(** beyond: when the product of the counts in the rest of the row and of the column passes 2^63 the prediction is negative *)
Theorem C97_negative_prediction : forall pow2 t i j, counts t -> (i < z_nr t)%nat -> (j < z_nc t)%nat -> z_all t < 2 ^ 53 ->
  let B := z_row t i - z_el t i j in let C := z_col t j - z_el t i j in let D := z_all t - B - C - z_el t i j in
  0 < D -> 2 ^ 63 <= B * C < 2 ^ 64 ->
  let e := fst (estimate_i64 pow2 t i j) in
  ffin e = true /\ (f2R e < 0)%R /\ (0 < abcd (IZR B) (IZR C) (IZR D))%R.
Proof.
  intros pow2 t i j NN Hi Hj N B C D HD W e. destruct (bcd_nonneg t NN i j Hi Hj) as (A0 & B0 & C0 & D0 & S).
  destruct (bcd_exact t NN i j Hi Hj ltac:(lia)) as (E1 & E2 & E3). fold B in B0, E1, E3. fold C in C0, E2, E3. fold B C in D0. fold D in D0, E3.
  assert (E : e = fdiv (ofZ (B * C - 2 ^ 64)) (ofZ D)).
  { unfold e, estimate_i64. unfold B, C, D in *. rewrite E1, E2, E3. replace (0 <? _) with true by (symmetry; apply Z.ltb_lt; exact HD). cbn [fst]. rewrite wrap_over by lia. reflexivity. }
  set (P := B * C) in *. assert (DP : D <= 2 ^ 53) by (unfold D; lia).
  destruct (ofZ_spec D ltac:(lia)) as [VD FD]. assert (DR : (1 <= IZR D <= b2 53)%R). { split; [apply (IZR_le 1); lia|]. rewrite <- IZR_Zpower by lia. apply IZR_le. exact DP. }
  destruct (ofZ_rnd (P - 2 ^ 64)) as [VP FP]; [lia|]. assert (PR : (- b2 63 <= f2R (ofZ (P - 2 ^ 64)) <= -1)%R).
  { rewrite VP. split.
    - apply rnd_lb; [apply fmt_opp, fmt_bpow; lia|]. rewrite <- IZR_Zpower by lia. rewrite <- opp_IZR. apply IZR_le. change (Zpower radix2 63) with (2 ^ 63). lia.
    - apply rnd_ub; [apply fmt_opp, (fmt_IZR 1); lia|]. apply IZR_le. lia. }
  set (p := f2R (ofZ (P - 2 ^ 64))) in *. pose proof (bpow_gt_0 radix2 63) as B63. pose proof (bpow_gt_0 radix2 (-53)) as B53.
  assert (ID : (b2 (-53) <= / IZR D <= 1)%R). { split; [change (-53) with (- (53)); rewrite bpow_opp; apply Rinv_le_contravar; lra|]. rewrite <- Rinv_1. apply Rinv_le_contravar; lra. }
  assert (Q : (- b2 63 <= p / IZR D <= - b2 (-53))%R). { unfold Rdiv. split; nra. }
  destruct (fdiv_spec (ofZ (P - 2 ^ 64)) (ofZ D) 63 FP ltac:(rewrite VD; lra) ltac:(lia)) as [V F].
  { fold p. rewrite VD. apply Rabs_le. pose proof (bpow_gt_0 radix2 63). lra. }
  rewrite E. split; [exact F|]. split.
  - rewrite V. fold p. rewrite VD. apply Rle_lt_trans with (- b2 (-53))%R; [|lra]. apply rnd_ub; [apply fmt_opp, fmt_bpow; lia|lra].
  - unfold abcd. rewrite <- mult_IZR. apply Rdiv_lt_0_compat; apply (IZR_lt 0); fold P; lia.
Qed.

(** one record more than C97_no_overflow allows is enough *)
Definition huge_table : ztab := mkZtab 2 2 (fun i j => match i, j with O, O => 0 | S _, S _ => 1 | _, _ => 3037000500 end).
Theorem C97_always_fits_refuted : counts huge_table /\ z_all huge_table = 6074001001 /\
  forall pow2, ffin (fst (estimate_i64 pow2 huge_table 0 0)) = true /\ (f2R (fst (estimate_i64 pow2 huge_table 0 0)) < 0)%R.
Proof.
  assert (NN : counts huge_table) by (intros [|i] [|j]; cbn; lia). split; [exact NN|]. split; [reflexivity|]. intros pow2.
  destruct (C97_negative_prediction pow2 huge_table 0 0 NN ltac:(cbn; lia) ltac:(cbn; lia)) as (F & L & _); [vm_compute; reflexivity|vm_compute; reflexivity|vm_compute; split; [discriminate|reflexivity]|]. split; assumption.
Qed.
(** ... also with all four cells occupied, as in a table made from a data frame *)
Definition huge_full : ztab := mkZtab 2 2 (fun i j => match i, j with O, O => 7 | S _, S _ => 1 | _, _ => 4000000000 end).
Example C97_case : counts huge_full /\ (forall i j, 0 < z_el huge_full i j) /\ forall pow2, (f2R (fst (estimate_i64 pow2 huge_full 0 0)) < 0)%R.
Proof.
  assert (NN : counts huge_full) by (intros [|i] [|j]; cbn; lia). split; [exact NN|]. split; [intros [|i] [|j]; cbn; lia|]. intros pow2.
  destruct (C97_negative_prediction pow2 huge_full 0 0 NN ltac:(cbn; lia) ltac:(cbn; lia)) as (F & L & _); [vm_compute; reflexivity|vm_compute; reflexivity|vm_compute; split; [discriminate|reflexivity]|]. exact L.
Qed.
Print Assumptions C97_no_overflow. Print Assumptions C97_float_table. Print Assumptions C97_always_fits_refuted.
