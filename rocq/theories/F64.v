(** Binary64 arithmetic as used by numpy float64 / C double: Flocq's
    [BinarySingleNaN] format with precision 53 and maximal exponent 1024, round to
    nearest even.  This file only packages library definitions and the
    facts about them that the rest of the development uses. *)
From Coq Require Import ZArith Reals Lia Lra Bool.
From Flocq Require Import Core BinarySingleNaN.
Open Scope R_scope.

Definition f64 := binary_float 53 1024.

Global Instance prec53 : Prec_gt_0 53. Proof. exact (eq_refl Lt). Qed.
Global Instance prec53_1024 : Prec_lt_emax 53 1024. Proof. exact (eq_refl Lt). Qed.

Definition fplus : f64 -> f64 -> f64 := Bplus mode_NE.
Definition fminus : f64 -> f64 -> f64 := Bminus mode_NE.
Definition fmult : f64 -> f64 -> f64 := Bmult mode_NE.
Definition fdiv : f64 -> f64 -> f64 := Bdiv mode_NE.
(** C conversion (double)z and numpy int -> float64 conversion. *)
Definition ofZ (z : Z) : f64 := binary_normalize 53 1024 _ _ mode_NE z 0 false.
(** the float [m * 2^e], rounded *)
Definition flit (m e : Z) : f64 := binary_normalize 53 1024 _ _ mode_NE m e false.
Definition fzero : f64 := B754_zero false.
Definition fnan : f64 := B754_nan.
Definition ffin (x : f64) : bool := is_finite x.
Definition fle (x y : f64) : bool := Bleb x y.
Definition flt (x y : f64) : bool := Bltb x y.
Definition feqb (x y : f64) : bool := Beqb x y.
Definition fisnan (x : f64) : bool := is_nan x.
Definition f2R (x : f64) : R := B2R x.

(** rounding to nearest even of a real, unbounded exponent above *)
Definition rnd (x : R) : R := round radix2 (SpecFloat.fexp 53 1024) ZnearestE x.
Definition fmt (x : R) : Prop := generic_format radix2 (SpecFloat.fexp 53 1024) x.

Global Instance vexp : Valid_exp (SpecFloat.fexp 53 1024).
Proof. exact (fexp_correct 53 1024 _). Qed.

Lemma rnd_le : forall x y, x <= y -> rnd x <= rnd y.
Proof. intros x y H. apply round_le; [exact vexp| apply valid_rnd_N | exact H]. Qed.

Lemma rnd_id : forall x, fmt x -> rnd x = x.
Proof. intros x H. apply round_generic; [apply valid_rnd_N | exact H]. Qed.

Lemma fmt_rnd : forall x, fmt (rnd x).
Proof. intros x. apply generic_format_round; [exact vexp| apply valid_rnd_N]. Qed.

Lemma fmt_B2R : forall x : f64, fmt (f2R x).
Proof. intros x. exact (generic_format_B2R 53 1024 x). Qed.

Lemma rnd_0 : rnd 0 = 0.
Proof. apply round_0. apply valid_rnd_N. Qed.

Lemma rnd_opp : forall x, rnd (- x) = - rnd x.
Proof. intros x. apply round_NE_opp. Qed.

Lemma fmt_opp : forall x, fmt x -> fmt (- x).
Proof. intros x. apply generic_format_opp. Qed.

Lemma fexp_FLT : forall e, SpecFloat.fexp 53 1024 e = FLT_exp (-1074) 53 e.
Proof. intros e. unfold SpecFloat.fexp, SpecFloat.emin, FLT_exp. reflexivity. Qed.

(** [m * 2^e] with a mantissa of at most 53 bits is representable *)
Lemma fmt_F2R : forall m e : Z, (Z.abs m <= 2 ^ 53)%Z -> (-1074 <= e)%Z -> fmt (IZR m * bpow radix2 e).
Proof.
  intros m e Hm He.
  destruct (Z.eq_dec (Z.abs m) (2 ^ 53)) as [Heq|Hne].
  - assert (H : IZR m * bpow radix2 e = IZR (Z.sgn m) * bpow radix2 (e + 53)).
    { rewrite bpow_plus. assert (Hs : m = (Z.sgn m * 2 ^ 53)%Z) by lia.
      rewrite Hs at 1. rewrite mult_IZR.
      replace (bpow radix2 53) with (IZR (2 ^ 53)) by reflexivity. ring. }
    rewrite H.
    change (IZR (Z.sgn m) * bpow radix2 (e + 53)) with (F2R (Float radix2 (Z.sgn m) (e + 53))).
    apply generic_format_FLT. exists (Float radix2 (Z.sgn m) (e + 53)).
    + reflexivity.
    + change (Fnum (Float radix2 (Z.sgn m) (e + 53))) with (Z.sgn m). change (radix2 ^ 53)%Z with (2 ^ 53)%Z. lia.
    + change (Fexp (Float radix2 (Z.sgn m) (e + 53))) with (e + 53)%Z. change (SpecFloat.emin 53 1024) with (-1074)%Z. lia.
  - change (IZR m * bpow radix2 e) with (F2R (Float radix2 m e)).
    apply generic_format_FLT. exists (Float radix2 m e).
    + reflexivity.
    + change (Fnum (Float radix2 m e)) with m. change (radix2 ^ 53)%Z with (2 ^ 53)%Z. lia.
    + change (Fexp (Float radix2 m e)) with e. change (SpecFloat.emin 53 1024) with (-1074)%Z. lia.
Qed.

Lemma fmt_IZR : forall z : Z, (Z.abs z <= 2 ^ 53)%Z -> fmt (IZR z).
Proof.
  intros z H. replace (IZR z) with (IZR z * bpow radix2 0) by (simpl; ring).
  apply fmt_F2R; lia.
Qed.

Lemma fmt_bpow : forall e, (-1074 <= e)%Z -> fmt (bpow radix2 e).
Proof.
  intros e H. replace (bpow radix2 e) with (IZR 1 * bpow radix2 e) by (simpl; ring).
  apply fmt_F2R; lia.
Qed.

Lemma rnd_abs_le : forall x b, fmt b -> Rabs x <= b -> Rabs (rnd x) <= b.
Proof.
  intros x b Hb Hx. apply Rabs_le_inv in Hx. apply Rabs_le.
  split.
  - rewrite <- (rnd_id (- b)) by (apply fmt_opp; exact Hb). apply rnd_le. lra.
  - rewrite <- (rnd_id b) by exact Hb. apply rnd_le. lra.
Qed.

Lemma rnd_no_ovf : forall x e, (-1074 <= e < 1024)%Z -> Rabs x <= bpow radix2 e ->
  Rabs (rnd x) < bpow radix2 1024.
Proof.
  intros x e He Hx. apply Rle_lt_trans with (bpow radix2 e).
  - apply rnd_abs_le; [apply fmt_bpow; lia | exact Hx].
  - apply bpow_lt. lia.
Qed.

Lemma fplus_spec : forall x y e, ffin x = true -> ffin y = true -> (-1074 <= e < 1024)%Z ->
  Rabs (f2R x + f2R y) <= bpow radix2 e ->
  f2R (fplus x y) = rnd (f2R x + f2R y) /\ ffin (fplus x y) = true.
Proof.
  intros x y e Hx Hy He Hb.
  generalize (Bplus_correct 53 1024 _ _ mode_NE x y Hx Hy).
  rewrite Rlt_bool_true by (exact (rnd_no_ovf _ _ He Hb)).
  intros (H1 & H2 & _). split; [exact H1 | exact H2].
Qed.

Lemma fminus_spec : forall x y e, ffin x = true -> ffin y = true -> (-1074 <= e < 1024)%Z ->
  Rabs (f2R x - f2R y) <= bpow radix2 e ->
  f2R (fminus x y) = rnd (f2R x - f2R y) /\ ffin (fminus x y) = true.
Proof.
  intros x y e Hx Hy He Hb.
  generalize (Bminus_correct 53 1024 _ _ mode_NE x y Hx Hy).
  rewrite Rlt_bool_true by (exact (rnd_no_ovf _ _ He Hb)).
  intros (H1 & H2 & _). split; [exact H1 | exact H2].
Qed.

Lemma fmult_spec : forall x y e, ffin x = true -> ffin y = true -> (-1074 <= e < 1024)%Z ->
  Rabs (f2R x * f2R y) <= bpow radix2 e ->
  f2R (fmult x y) = rnd (f2R x * f2R y) /\ ffin (fmult x y) = true.
Proof.
  intros x y e Hx Hy He Hb.
  generalize (Bmult_correct 53 1024 _ _ mode_NE x y).
  rewrite Rlt_bool_true by (exact (rnd_no_ovf _ _ He Hb)).
  intros (H1 & H2 & _). split; [exact H1 |].
  unfold ffin, fmult. rewrite H2. unfold ffin in *. rewrite Hx, Hy. reflexivity.
Qed.

Lemma fdiv_spec : forall x y e, ffin x = true -> f2R y <> 0 -> (-1074 <= e < 1024)%Z ->
  Rabs (f2R x / f2R y) <= bpow radix2 e ->
  f2R (fdiv x y) = rnd (f2R x / f2R y) /\ ffin (fdiv x y) = true.
Proof.
  intros x y e Hx Hy He Hb.
  generalize (Bdiv_correct 53 1024 _ _ mode_NE x y Hy).
  rewrite Rlt_bool_true by (exact (rnd_no_ovf _ _ He Hb)).
  intros (H1 & H2 & _). split; [exact H1 |].
  unfold ffin, fdiv. rewrite H2. exact Hx.
Qed.

Lemma flit_spec : forall m e, (Z.abs m <= 2 ^ 53)%Z -> (-1074 <= e)%Z -> (e <= 900)%Z ->
  f2R (flit m e) = IZR m * bpow radix2 e /\ ffin (flit m e) = true.
Proof.
  intros m e Hm He He2.
  generalize (binary_normalize_correct 53 1024 _ _ mode_NE m e false). cbv zeta.
  assert (HF : F2R (Float radix2 m e) = IZR m * bpow radix2 e) by reflexivity.
  rewrite HF.
  assert (Hr : rnd (IZR m * bpow radix2 e) = IZR m * bpow radix2 e)
    by (apply rnd_id; apply fmt_F2R; assumption).
  change (round radix2 (SpecFloat.fexp 53 1024) (round_mode mode_NE) (IZR m * bpow radix2 e))
    with (rnd (IZR m * bpow radix2 e)).
  rewrite Hr.
  rewrite Rlt_bool_true.
  - intros (H1 & H2 & _). split; [exact H1 | exact H2].
  - rewrite Rabs_mult, <- abs_IZR, (Rabs_pos_eq (bpow radix2 e)) by apply bpow_ge_0.
    apply Rle_lt_trans with (bpow radix2 53 * bpow radix2 e).
    + apply Rmult_le_compat_r; [apply bpow_ge_0|]. change (bpow radix2 53) with (IZR (2 ^ 53)).
      apply IZR_le; exact Hm.
    + rewrite <- bpow_plus. apply bpow_lt. lia.
Qed.

Lemma ofZ_spec : forall z, (Z.abs z <= 2 ^ 53)%Z -> f2R (ofZ z) = IZR z /\ ffin (ofZ z) = true.
Proof.
  intros z H. destruct (flit_spec z 0 H) as [H1 H2]; try lia.
  unfold flit in *. split; [rewrite <- (Rmult_1_r (IZR z)); exact H1 | exact H2].
Qed.

Lemma fle_spec : forall x y, ffin x = true -> ffin y = true -> (fle x y = true <-> f2R x <= f2R y).
Proof.
  intros x y Hx Hy. unfold fle. rewrite Bleb_correct by assumption.
  unfold f2R. case Rle_bool_spec; intros; split; intros; try reflexivity; try lra; discriminate.
Qed.

Lemma flt_spec : forall x y, ffin x = true -> ffin y = true -> (flt x y = true <-> f2R x < f2R y).
Proof.
  intros x y Hx Hy. unfold flt. rewrite Bltb_correct by assumption.
  unfold f2R. case Rlt_bool_spec; intros; split; intros; try reflexivity; try lra; discriminate.
Qed.
