(** Quantiles in binary64 ascend from the smallest to the largest value (C90). *)
From Coq Require Import ZArith List Bool Reals Lia Lra Psatz Permutation.
Import ListNotations.
From Flocq Require Import Core BinarySingleNaN Relative Plus_error Mult_error.
From Verif Require Import F64 Base RSum FOrder BinModel SpecBin LinspaceProofs BrentFModel BrentFProofs Chi2FModel SpecChi2F Chi2FProofs QuantileFModel.
Open Scope R_scope.

(** ** interpolation between two floats, on the level of real numbers *)
Section Lerp.
  Variables a b : R.
  Hypothesis Fa : fmt a.
  Hypothesis Fb : fmt b.
  Hypothesis AB : a <= b.
  Let d := rnd (b - a).
  Lemma d_nonneg : 0 <= d.
  Proof. unfold d. apply rnd_lb; [apply (fmt_IZR 0); lia|lra]. Qed.
  Lemma d_fmt : fmt d. Proof. apply fmt_rnd. Qed.
  Lemma d_le : d <= (b - a) * (1 + u53).
  Proof. pose proof (rnd_minus_err b a Fb Fa) as E. fold d in E. rewrite (Rabs_pos_eq (b - a)) in E by lra. apply Rabs_le_inv in E. lra. Qed.
  (** either the difference is exact, or it is not tiny *)
  Lemma d_cases : d = b - a \/ b2 (-1021) <= d.
  Proof.
    destruct (Rle_lt_dec (b - a) (b2 (-1021))) as [L|G].
    - left. unfold d. apply rnd_id. apply (FLT_format_plus_small radix2 (-1074) 53 b (- a) Fb (fmt_opp _ Fa)). fold (b - a). rewrite Rabs_pos_eq by lra. exact L.
    - right. unfold d. apply rnd_lb; [apply fmt_bpow; lia|lra].
  Qed.
  Lemma half_fmt : b2 (-1021) <= d -> fmt (d / 2).
  Proof.
    intros G. replace (d / 2) with (d * b2 (-1)) by (change (b2 (-1)) with (/ 2); lra). apply (mult_bpow_exact_FLT radix2 (-1074) 53 d (-1) d_fmt).
    assert (M : (-1021 < mag radix2 d)%Z). { apply mag_gt_bpow. rewrite Rabs_pos_eq by apply d_nonneg. exact G. } lia.
  Qed.
  Lemma part_nonneg : forall t, 0 <= t -> 0 <= rnd (d * t).
  Proof. intros t H. apply rnd_lb; [apply (fmt_IZR 0); lia|]. apply Rmult_le_pos; [apply d_nonneg|exact H]. Qed.
  Lemma half_step : forall t, 0 <= t <= 1 / 2 -> rnd (d * t) <= b - a.
  Proof.
    intros t H. pose proof d_nonneg as D. pose proof d_le as DL. pose proof u53_pos as U. destruct d_cases as [E|G].
    - rewrite <- E. apply rnd_ub; [apply d_fmt|nra].
    - apply Rle_trans with (d / 2); [apply rnd_ub; [apply half_fmt, G|nra]|nra].
  Qed.
  Lemma half_le : forall t, 0 <= t < 1 / 2 -> d - rnd (d * t) = d - rnd (d * t) /\ (fmt (d - rnd (d * t)) -> rnd (d * t) <= d / 2).
  Proof.
    intros t H. split; [reflexivity|]. intros F. destruct (Rle_lt_dec (rnd (d * t)) (d / 2)) as [L|G]; [exact L|]. exfalso. set (x := rnd (d * t)) in *.
    destruct (round_N_pt radix2 (FLT_exp (-1074) 53) (fun z => negb (Z.even z)) (d * t)) as [_ N]. change (round _ _ _ (d * t)) with x in N. specialize (N (d - x) F). pose proof d_nonneg as D.
    assert (DP : 0 < d). { destruct D as [D|D]; [exact D|]. exfalso. unfold x in G. rewrite <- D, Rmult_0_l, rnd_0 in G. lra. }
    assert (L : d * t < d / 2) by nra. rewrite (Rabs_pos_eq (x - d * t)) in N by lra. revert N. unfold Rabs. destruct (Rcase_abs (d - x - d * t)); lra.
  Qed.
  Lemma cross : forall t s, 0 <= t < 1 / 2 -> 0 <= s <= 1 / 2 -> t + s <= 1 - b2 (-43) -> rnd (d * t) + rnd (d * s) <= b - a.
  Proof.
    intros t s Ht Hs TS. pose proof d_nonneg as D. pose proof d_le as DL. pose proof u53_pos as U. destruct (Rle_lt_dec (b2 (-1021)) d) as [G|L].
    - destruct (Req_dec d (b - a)) as [E|_].
      + rewrite <- E. assert (rnd (d * t) <= d / 2) by (apply rnd_ub; [apply half_fmt, G|nra]). assert (rnd (d * s) <= d / 2) by (apply rnd_ub; [apply half_fmt, G|nra]). lra.
      + pose proof (rnd_err (d * t)) as E1. pose proof (rnd_err (d * s)) as E2. rewrite (Rabs_pos_eq (d * t)) in E1 by nra. rewrite (Rabs_pos_eq (d * s)) in E2 by nra. apply Rabs_le_inv in E1. apply Rabs_le_inv in E2.
        assert (ET : eta0 <= d * (u53 / 2)). { unfold eta0. apply Rle_trans with (b2 (-1021) * (u53 / 2)); [|apply Rmult_le_compat_r; lra]. rewrite <- u53_b2. replace (b2 (-53) / 2) with (b2 (-54)) by (change (-53)%Z with (-54 + 1)%Z; rewrite bpow_plus; change (b2 1) with 2; lra). rewrite <- bpow_plus. apply Rle_refl. }
        assert (TS' : t + s <= 1 - / 8796093022208) by exact TS.
        assert (B : rnd (d * t) + rnd (d * s) <= d * ((t + s) * (1 + u53) + u53)) by lra.
        assert (C : d * ((t + s) * (1 + u53) + u53) <= d * (1 - / 17592186044416)) by (apply Rmult_le_compat_l; [exact D|]; unfold u53 in *; lra).
        assert (E : d * (1 - / 17592186044416) <= (b - a) * (1 + u53) * (1 - / 17592186044416)) by (apply Rmult_le_compat_r; [lra|exact DL]).
        assert (F : (b - a) * ((1 + u53) * (1 - / 17592186044416)) <= (b - a) * 1) by (apply Rmult_le_compat_l; [lra|unfold u53; lra]). lra.
    - destruct d_cases as [E|G]; [|lra]. rewrite <- E. set (x := rnd (d * t)).
      assert (X0 : 0 <= x) by (apply part_nonneg; lra). assert (X1 : x <= d) by (apply rnd_ub; [apply d_fmt|nra]).
      assert (F : fmt (d - x)). { apply (FLT_format_plus_small radix2 (-1074) 53 d (- x) d_fmt); [apply fmt_opp, fmt_rnd|]. fold (d - x). rewrite Rabs_pos_eq by lra. change (bpow radix2 (53 + -1074)) with (b2 (-1021)). lra. }
      pose proof (proj2 (half_le t Ht) F) as XL. fold x in XL. assert (rnd (d * s) <= d - x) by (apply rnd_ub; [exact F|nra]). lra.
  Qed.
  Definition lerpR (t : R) : R := if Rle_dec (1 / 2) t then rnd (b - rnd (d * rnd (1 - t))) else rnd (a + rnd (d * t)).
  Lemma comp_range : forall t, 1 / 2 <= t <= 1 -> 0 <= rnd (1 - t) <= 1 / 2.
  Proof.
    intros t H. split; [apply rnd_lb; [apply (fmt_IZR 0); lia|lra]|]. apply rnd_ub; [|lra]. replace (1 / 2) with (b2 (-1)) by (change (b2 (-1)) with (/ 2); lra). apply fmt_bpow. lia.
  Qed.
  Lemma lerp_between : forall t, 0 <= t <= 1 -> a <= lerpR t <= b.
  Proof.
    intros t H. unfold lerpR. destruct (Rle_dec (1 / 2) t) as [L|L].
    - pose proof (comp_range t ltac:(lra)) as C. pose proof (half_step _ C). pose proof (part_nonneg _ (proj1 C)). split; [apply rnd_lb; [exact Fa|lra]|apply rnd_ub; [exact Fb|lra]].
    - pose proof (half_step t ltac:(lra)). pose proof (part_nonneg t ltac:(lra)). split; [apply rnd_lb; [exact Fa|lra]|apply rnd_ub; [exact Fb|lra]].
  Qed.
  Lemma lerp_mono : forall t1 t2, 0 <= t1 -> t2 <= 1 -> t1 + b2 (-42) <= t2 -> lerpR t1 <= lerpR t2.
  Proof.
    intros t1 t2 H1 H2 G. pose proof d_nonneg as D. assert (GP : b2 (-42) = / 4398046511104) by reflexivity. rewrite GP in G. unfold lerpR. destruct (Rle_dec (1 / 2) t1) as [L1|L1]; destruct (Rle_dec (1 / 2) t2) as [L2|L2]; try lra.
    - apply rnd_le. assert (rnd (1 - t2) <= rnd (1 - t1)) by (apply rnd_le; lra). assert (rnd (d * rnd (1 - t2)) <= rnd (d * rnd (1 - t1))) by (apply rnd_le; nra). lra.
    - apply rnd_le. pose proof (comp_range t2 ltac:(lra)) as C. pose proof (rnd_minus_err 1 t2) as E.
      assert (E3 : rnd (1 - t2) <= 1 - t2 + / 9007199254740992). { pose proof (rnd_err (1 - t2)) as E'. rewrite (Rabs_pos_eq (1 - t2)) in E' by lra. apply Rabs_le_inv in E'. assert (eta0 <= / 18014398509481984) by (unfold eta0; apply Rle_trans with (b2 (-54)); [apply bpow_le; lia|right; reflexivity]). unfold u53 in E'. lra. }
      assert (X : rnd (d * t1) + rnd (d * rnd (1 - t2)) <= b - a). { apply cross; [lra|exact C|]. change (b2 (-43)) with (/ 8796093022208). lra. } lra.
    - apply rnd_le. assert (rnd (d * t1) <= rnd (d * t2)) by (apply rnd_le; nra). lra.
  Qed.
  Lemma lerp_zero : lerpR 0 = a.
  Proof. unfold lerpR. destruct (Rle_dec (1 / 2) 0); [lra|]. rewrite Rmult_0_r, rnd_0, Rplus_0_r. apply rnd_id, Fa. Qed.
End Lerp.

(** ** the same on floats *)
Definition ok64 (x : f64) : Prop := ffin x = true /\ Rabs (f2R x) <= b2 1022.
Lemma lerp64_ok : forall a b t, ok64 a -> ok64 b -> f2R a <= f2R b -> ffin t = true -> 0 <= f2R t <= 1 -> ffin (lerp64 a b t) = true /\ f2R (lerp64 a b t) = lerpR (f2R a) (f2R b) (f2R t).
Proof.
  intros a b t [FA BA] [FB BB] AB FT HT. unfold lerp64, lerpR. cbv zeta. apply Rabs_le_inv in BA. apply Rabs_le_inv in BB.
  assert (P22 : b2 1023 = 2 * b2 1022) by (change 1023%Z with (1 + 1022)%Z; rewrite bpow_plus; reflexivity).
  destruct (fminus_spec b a 1023 FB FA ltac:(lia)) as [VD FD]; [rewrite P22; apply Rabs_le; lra|]. destruct fhalf_val as [HV HF]. destruct fone_val as [OV OF].
  pose proof (fmt_B2R a) as Fa. pose proof (fmt_B2R b) as Fb.
  assert (DB : rnd (f2R b - f2R a) <= b2 1023) by (apply rnd_ub; [apply fmt_bpow; lia|lra]). pose proof (d_nonneg (f2R a) (f2R b) AB) as DP.
  assert (PP : 0 < b2 1022) by apply bpow_gt_0.
  destruct (fle fhalf t) eqn:E.
  - apply fle_spec in E; try assumption. rewrite HV in E. destruct (Rle_dec (1 / 2) (f2R t)) as [_|N]; [|exfalso; lra].
    pose proof (comp_range (f2R t) ltac:(lra)) as C.
    destruct (fminus_spec fone t 0 OF FT ltac:(lia)) as [VS FS]; [rewrite OV; apply Rabs_le; change (b2 0) with 1; lra|]. rewrite OV in VS.
    destruct (fmult_spec _ _ 1023 FD FS ltac:(lia)) as [VM FM]. { rewrite VD, VS, Rabs_pos_eq by (apply Rmult_le_pos; lra). apply Rle_trans with (rnd (f2R b - f2R a) * 1); [apply Rmult_le_compat_l; lra|lra]. }
    rewrite VD, VS in VM. pose proof (half_step (f2R a) (f2R b) Fa Fb AB _ C) as HS. pose proof (part_nonneg (f2R a) (f2R b) AB _ (proj1 C)) as HP.
    destruct (fminus_spec b _ 1023 FB FM ltac:(lia)) as [V F]; [rewrite VM; rewrite P22; apply Rabs_le; lra|]. split; [exact F|]. rewrite V, VM. reflexivity.
  - assert (E' : ~ f2R fhalf <= f2R t) by (intros X; apply fle_spec in X; try assumption; congruence). rewrite HV in E'. destruct (Rle_dec (1 / 2) (f2R t)) as [N|_]; [exfalso; lra|].
    destruct (fmult_spec _ _ 1023 FD FT ltac:(lia)) as [VM FM]. { rewrite VD, Rabs_pos_eq by (apply Rmult_le_pos; lra). apply Rle_trans with (rnd (f2R b - f2R a) * 1); [apply Rmult_le_compat_l; lra|lra]. }
    rewrite VD in VM. pose proof (half_step (f2R a) (f2R b) Fa Fb AB (f2R t) ltac:(lra)) as HS. pose proof (part_nonneg (f2R a) (f2R b) AB (f2R t) ltac:(lra)) as HP.
    destruct (fplus_spec a _ 1023 FA FM ltac:(lia)) as [V F]; [rewrite VM; rewrite P22; apply Rabs_le; lra|]. split; [exact F|]. rewrite V, VM. reflexivity.
Qed.
(** beyond the last index both neighbours are the last value *)
Lemma lerp64_same : forall a t, ok64 a -> ffin t = true -> 1 <= f2R t <= b2 100 -> ffin (lerp64 a a t) = true /\ f2R (lerp64 a a t) = f2R a.
Proof.
  intros a t [FA BA] FT HT. unfold lerp64. cbv zeta. destruct fhalf_val as [HV HF]. destruct fone_val as [OV OF].
  destruct (fminus_spec a a 0 FA FA ltac:(lia)) as [VD FD]; [rewrite Rminus_eq_0, Rabs_R0; apply bpow_ge_0|]. rewrite Rminus_eq_0, rnd_0 in VD.
  assert (E : fle fhalf t = true) by (apply fle_spec; try assumption; rewrite HV; lra). rewrite E.
  destruct (fminus_spec fone t 100 OF FT ltac:(lia)) as [VS FS]; [rewrite OV; apply Rabs_le; lra|].
  destruct (fmult_spec _ _ 0 FD FS ltac:(lia)) as [VM FM]; [rewrite VD, Rmult_0_l, Rabs_R0; apply bpow_ge_0|]. rewrite VD, Rmult_0_l, rnd_0 in VM.
  destruct (fminus_spec a _ 1022 FA FM ltac:(lia)) as [V F]; [rewrite VM, Rminus_0_r; exact BA|]. split; [exact F|]. rewrite V, VM, Rminus_0_r. apply rnd_id, fmt_B2R.
Qed.

(** ** sorting *)
Lemma finsert_perm : forall x l, Permutation (finsert x l) (x :: l).
Proof. intros x l. induction l as [|y l IH]; cbn [finsert]; [apply Permutation_refl|]. destruct (fle x y); [apply Permutation_refl|]. rewrite IH. apply perm_swap. Qed.
Lemma fsort_perm : forall l, Permutation (fsort l) l.
Proof. induction l as [|x l IH]; cbn [fsort fold_right]; [constructor|]. change (fold_right finsert [] l) with (fsort l). rewrite finsert_perm. constructor. exact IH. Qed.
Inductive sorted64 : list f64 -> Prop := s_nil : sorted64 [] | s_cons : forall x l, (forall y, In y l -> f2R x <= f2R y) -> sorted64 l -> sorted64 (x :: l).
Lemma finsert_sorted : forall x l, ffin x = true -> (forall y, In y l -> ffin y = true) -> sorted64 l -> sorted64 (finsert x l).
Proof.
  intros x l FX F S. induction S as [|y l HY S IH]; cbn [finsert]; [constructor; [intros y []|constructor]|].
  assert (FY : ffin y = true) by (apply F; left; reflexivity). destruct (fle x y) eqn:E.
  - apply fle_spec in E; try assumption. constructor; [|constructor; assumption]. intros z [<-|Hz]; [exact E|]. specialize (HY z Hz). lra.
  - assert (E' : f2R y <= f2R x) by (apply Rnot_lt_le; intros X; assert (fle x y = true) by (apply fle_spec; try assumption; lra); congruence).
    constructor; [|apply IH; intros z Hz; apply F; right; exact Hz]. intros z Hz. apply (Permutation_in _ (finsert_perm x l)) in Hz. destruct Hz as [<-|Hz]; [exact E'|apply HY, Hz].
Qed.
Lemma fsort_sorted : forall l, (forall y, In y l -> ffin y = true) -> sorted64 (fsort l).
Proof.
  induction l as [|x l IH]; intros F; cbn [fsort fold_right]; [constructor|]. change (fold_right finsert [] l) with (fsort l). apply finsert_sorted; [apply F; left; reflexivity| |apply IH; intros y Hy; apply F; right; exact Hy].
  intros y Hy. apply (Permutation_in _ (fsort_perm l)) in Hy. apply F. right. exact Hy.
Qed.
Lemma sorted_nth : forall l, sorted64 l -> forall i j, (i <= j < length l)%nat -> f2R (nth i l fnan) <= f2R (nth j l fnan).
Proof.
  intros l S. induction S as [|x l H S IH]; intros i j Hij; cbn [length] in Hij; [lia|]. destruct i as [|i]; destruct j as [|j]; cbn [nth]; try lia; [lra|apply H, nth_In; lia|apply IH; lia].
Qed.

(** ** one quantile *)
Lemma btrunc_floor : forall h : f64, 0 <= f2R h -> Btrunc h = Zfloor (f2R h).
Proof.
  intros h P. apply eq_IZR. rewrite (Btrunc_correct 53 1024 prec53_1024 h). rewrite (round_FIX_IZR Ztrunc (B2R h)). fold (f2R h). rewrite Ztrunc_floor by exact P. reflexivity.
Qed.
Section One.
  Variable a : list f64.
  Hypothesis SA : sorted64 a.
  Hypothesis OA : forall x, In x a -> ok64 x.
  Let n1 := (Z.of_nat (length a) - 1)%Z.
  Hypothesis HL : (0 <= n1 <= 2 ^ 50)%Z.
  Let P50 : (2 ^ 50 = 1125899906842624)%Z. Proof. reflexivity. Qed.
  Let v (k : nat) := f2R (nth k a fnan).
  Definition hh (q : f64) : R := rnd (IZR n1 * f2R q).
  Lemma n1_val : f2R (ofZ n1) = IZR n1 /\ ffin (ofZ n1) = true.
  Proof. apply ofZ_spec. change (2 ^ 53)%Z with 9007199254740992%Z. lia. Qed.
  Lemma n1_R : 0 <= IZR n1 <= 1125899906842624.
  Proof. split; [apply (IZR_le 0); lia|apply (IZR_le n1 1125899906842624); lia]. Qed.
  Lemma h_val : forall q, ffin q = true -> 0 <= f2R q <= 1 -> f2R (fmult (ofZ n1) q) = hh q /\ ffin (fmult (ofZ n1) q) = true /\ 0 <= hh q <= IZR n1.
  Proof.
    intros q F H. destruct n1_val as [V1 F1]. pose proof n1_R as R1. assert (B : 0 <= IZR n1 * f2R q <= IZR n1) by (split; [apply Rmult_le_pos; lra|apply Rle_trans with (IZR n1 * 1); [apply Rmult_le_compat_l; lra|lra]]).
    destruct (fmult_spec (ofZ n1) q 50 F1 F ltac:(lia)) as [V FV]; [rewrite V1, Rabs_pos_eq by lra; change (b2 50) with 1125899906842624; lra|]. rewrite V1 in V. split; [exact V|]. split; [exact FV|].
    unfold hh. split; [apply rnd_lb; [apply (fmt_IZR 0); lia|lra]|apply rnd_ub; [apply fmt_IZR; change (2 ^ 53)%Z with 9007199254740992%Z; lia|lra]].
  Qed.
  Lemma ok_nth : forall k, (k < length a)%nat -> ok64 (nth k a fnan).
  Proof. intros k H. apply OA, nth_In, H. Qed.
  Lemma one_view : forall q, ffin q = true -> 0 <= f2R q <= 1 -> ffin (quantile1_64 a q) = true /\
    ((hh q = IZR n1 /\ f2R (quantile1_64 a q) = v (Z.to_nat n1)) \/
     (exists j : nat, (j + 1 < length a)%nat /\ INR j <= hh q < INR j + 1 /\ let t := rnd (hh q - INR j) in 0 <= t <= 1 /\ f2R (quantile1_64 a q) = lerpR (v j) (v (j + 1)%nat) t)).
  Proof.
    intros q F H. destruct (h_val q F H) as (HV & HF & HB). destruct n1_val as [V1 F1]. pose proof n1_R as R1. unfold quantile1_64. fold n1. cbv zeta. set (h := fmult (ofZ n1) q) in *.
    destruct (fle (ofZ n1) h) eqn:E.
    - apply fle_spec in E; try assumption. rewrite V1, HV in E. assert (HE : hh q = IZR n1) by lra.
      destruct (ofZ_spec (-1)) as [VM FM]; [lia|]. destruct (fminus_spec h (ofZ (-1)) 60 HF FM ltac:(lia)) as [VG FG]; [rewrite HV, VM; apply Rabs_le; change (b2 60) with 1152921504606846976; lra|].
      assert (GR : 1 <= f2R (fminus h (ofZ (-1))) <= b2 100).
      { rewrite VG, HV, VM. split; [apply rnd_lb; [apply (fmt_IZR 1); lia|lra]|]. apply rnd_ub; [apply fmt_bpow; lia|]. apply Rle_trans with (b2 60); [change (b2 60) with 1152921504606846976; lra|apply bpow_le; lia]. }
      destruct (lerp64_same (nth (Z.to_nat n1) a fnan) (fminus h (ofZ (-1)))) as [A B]; [apply ok_nth; unfold n1 in *; lia|exact FG|exact GR|]. split; [exact A|]. left. split; [exact HE|exact B].
    - assert (LT : hh q < IZR n1) by (apply Rnot_le_lt; intros X; assert (fle (ofZ n1) h = true) by (apply fle_spec; try assumption; rewrite V1, HV; exact X); congruence).
      assert (JE : Btrunc h = Zfloor (hh q)) by (rewrite btrunc_floor, HV by (rewrite HV; lra); reflexivity). rewrite JE. set (j := Zfloor (hh q)) in *.
      pose proof (Zfloor_lb (hh q)) as L1. pose proof (Zfloor_ub (hh q)) as L2. fold j in L1, L2.
      assert (J0 : (0 <= j)%Z) by (apply Zfloor_lub; lra). assert (J1 : (j < n1)%Z) by (apply lt_IZR; lra).
      destruct (ofZ_spec j) as [VJ FJ]; [change (2 ^ 53)%Z with 9007199254740992%Z; lia|].
      assert (IJ : INR (Z.to_nat j) = IZR j) by (rewrite INR_IZR_INZ; f_equal; lia).
      destruct (fminus_spec h (ofZ j) 0 HF FJ ltac:(lia)) as [VT FT]; [rewrite HV, VJ; change (b2 0) with 1; apply Rabs_le; lra|]. rewrite HV, VJ in VT.
      assert (TR : 0 <= rnd (hh q - IZR j) <= 1) by (split; [apply rnd_lb; [apply (fmt_IZR 0); lia|lra]|apply rnd_ub; [apply (fmt_IZR 1); lia|lra]]).
      replace (Z.to_nat (j + 1)) with (Z.to_nat j + 1)%nat by lia. assert (JL : (Z.to_nat j + 1 < length a)%nat) by (unfold n1 in *; lia).
      destruct (lerp64_ok (nth (Z.to_nat j) a fnan) (nth (Z.to_nat j + 1) a fnan) (fminus h (ofZ j))) as [A B]; [apply ok_nth; lia|apply ok_nth; lia|apply sorted_nth; [exact SA|lia]|exact FT|rewrite VT; exact TR|].
      split; [exact A|]. right. exists (Z.to_nat j). rewrite IJ. split; [exact JL|]. split; [lra|]. split; [exact TR|]. rewrite B, VT. reflexivity.
  Qed.
  Lemma v_mono : forall i j, (i <= j < length a)%nat -> v i <= v j.
  Proof. intros i j H. apply sorted_nth; assumption. Qed.
  Lemma v_fmt : forall i, fmt (v i). Proof. intros i. apply fmt_B2R. Qed.
  Lemma one_mono : forall q1 q2, ffin q1 = true -> ffin q2 = true -> 0 <= f2R q1 -> f2R q2 <= 1 -> f2R q1 <= f2R q2 -> (n1 = 0%Z \/ hh q1 + b2 (-41) <= hh q2) -> f2R (quantile1_64 a q1) <= f2R (quantile1_64 a q2).
  Proof.
    intros q1 q2 F1 F2 H1 H2 H12 G. destruct (one_view q1 F1 ltac:(lra)) as [_ V1]. destruct (one_view q2 F2 ltac:(lra)) as [_ V2].
    destruct V2 as [[E2 V2]|(j2 & L2 & R2 & T2 & V2)].
    - rewrite V2. destruct V1 as [[E1 V1]|(j1 & L1 & R1 & T1 & V1)]; [lra|]. rewrite V1. apply Rle_trans with (v (j1 + 1)%nat); [apply lerp_between; try apply v_fmt; [apply v_mono; lia|exact T1]|apply v_mono; unfold n1 in *; lia].
    - assert (G' : hh q1 + b2 (-41) <= hh q2). { destruct G as [Z|G]; [|exact G]. exfalso. unfold n1 in *. lia. } assert (GP : b2 (-41) = / 2199023255552) by reflexivity. rewrite GP in G'.
      destruct V1 as [[E1 V1]|(j1 & L1 & R1 & T1 & V1)].
      { exfalso. destruct (h_val q2 F2 ltac:(lra)) as (_ & _ & B). lra. }
      rewrite V1, V2. assert (J : (j1 <= j2)%nat). { apply INR_le. apply Rnot_lt_le. intros X. apply INR_lt in X. apply le_INR in X. rewrite S_INR in X. lra. }
      destruct (Nat.eq_dec j1 j2) as [->|NE].
      + apply lerp_mono; try apply v_fmt; [apply v_mono; lia|apply T1|apply T2|].
        assert (ER : forall x, 0 <= x <= 1 -> Rabs (rnd x - x) <= / 4503599627370496). { intros x Hx. eapply Rle_trans; [apply rnd_err|]. rewrite Rabs_pos_eq by lra. assert (eta0 <= / 9007199254740992) by (unfold eta0; apply Rle_trans with (b2 (-53)); [apply bpow_le; lia|right; reflexivity]). unfold u53. lra. }
        pose proof (ER (hh q1 - INR j2) ltac:(lra)) as A1. pose proof (ER (hh q2 - INR j2) ltac:(lra)) as A2. apply Rabs_le_inv in A1. apply Rabs_le_inv in A2. change (b2 (-42)) with (/ 4398046511104). lra.
      + apply Rle_trans with (v (j1 + 1)%nat); [apply lerp_between; try apply v_fmt; [apply v_mono; lia|exact T1]|]. apply Rle_trans with (v j2); [apply v_mono; lia|]. apply lerp_between; try apply v_fmt; [apply v_mono; lia|exact T2].
  Qed.
  Lemma one_first : forall q, ffin q = true -> f2R q = 0 -> f2R (quantile1_64 a q) = v 0.
  Proof.
    intros q F E. destruct (one_view q F ltac:(lra)) as [_ V]. assert (HZ : hh q = 0) by (unfold hh; rewrite E, Rmult_0_r; apply rnd_0). destruct V as [[E1 V]|(j & L & R & T & V)].
    - rewrite V. rewrite HZ in E1. apply (eq_IZR 0) in E1. rewrite <- E1. reflexivity.
    - assert (J : j = 0%nat). { destruct j as [|j]; [reflexivity|]. exfalso. rewrite S_INR in R. pose proof (pos_INR j). lra. } subst j. rewrite V. cbn [INR]. rewrite HZ, Rminus_0_r, rnd_0. apply lerp_zero, v_fmt.
  Qed.
  Lemma one_last : forall q, ffin q = true -> f2R q = 1 -> f2R (quantile1_64 a q) = v (Z.to_nat n1).
  Proof.
    intros q F E. destruct (one_view q F ltac:(lra)) as [_ V]. destruct V as [[E1 V]|(j & L & R & T & V)]; [exact V|]. exfalso.
    assert (HZ : hh q = IZR n1) by (unfold hh; rewrite E, Rmult_1_r; apply rnd_id, fmt_IZR; change (2 ^ 53)%Z with 9007199254740992%Z; lia).
    assert (INR (j + 1) <= IZR n1 - 0). { rewrite INR_IZR_INZ. rewrite Rminus_0_r. apply IZR_le. unfold n1. lia. } rewrite plus_INR in H. cbn [INR] in H. lra.
  Qed.
  (** the formula of numpy 1.18 and 1.19 *)
  Lemma old_view : forall q, ffin q = true -> 0 <= f2R q <= 1 -> ffin (quantile1_old a q) = true /\
    exists j j' : nat, (j < length a)%nat /\ (j' < length a)%nat /\ (j' = (j + 1)%nat \/ (j' = j /\ j = Z.to_nat n1)) /\ INR j <= hh q < INR j + 1 /\ let w := rnd (hh q - INR j) in 0 <= w <= 1 /\
      f2R (quantile1_old a q) = rnd (rnd (v j * rnd (1 - w)) + rnd (v j' * w)).
  Proof.
    intros q F H. destruct (h_val q F H) as (HV0 & HF0 & HB). destruct n1_val as [V1 F1]. pose proof n1_R as R1. unfold quantile1_old. fold n1. cbv zeta.
    assert (HS : f2R (fmult q (ofZ n1)) = hh q /\ ffin (fmult q (ofZ n1)) = true).
    { assert (B : 0 <= IZR n1 * f2R q <= IZR n1) by (split; [apply Rmult_le_pos; lra|apply Rle_trans with (IZR n1 * 1); [apply Rmult_le_compat_l; lra|lra]]).
      destruct (fmult_spec q (ofZ n1) 50 F F1 ltac:(lia)) as [V FV]; [rewrite V1, Rmult_comm, Rabs_pos_eq by lra; change (b2 50) with 1125899906842624; lra|]. rewrite V1, Rmult_comm in V. split; assumption. }
    destruct HS as [HV HF]. set (h := fmult q (ofZ n1)) in *.
    assert (JE : Btrunc h = Zfloor (hh q)) by (rewrite btrunc_floor, HV by (rewrite HV; lra); reflexivity). rewrite JE. set (j := Zfloor (hh q)) in *.
    pose proof (Zfloor_lb (hh q)) as L1. pose proof (Zfloor_ub (hh q)) as L2. fold j in L1, L2.
    assert (J0 : (0 <= j)%Z) by (apply Zfloor_lub; lra). assert (J1 : (j <= n1)%Z) by (apply le_IZR; lra).
    destruct (ofZ_spec j) as [VJ FJ]; [change (2 ^ 53)%Z with 9007199254740992%Z; lia|]. assert (IJ : INR (Z.to_nat j) = IZR j) by (rewrite INR_IZR_INZ; f_equal; lia).
    destruct (fminus_spec h (ofZ j) 0 HF FJ ltac:(lia)) as [VT FT]; [rewrite HV, VJ; change (b2 0) with 1; apply Rabs_le; lra|]. rewrite HV, VJ in VT.
    assert (TR : 0 <= rnd (hh q - IZR j) <= 1) by (split; [apply rnd_lb; [apply (fmt_IZR 0); lia|lra]|apply rnd_ub; [apply (fmt_IZR 1); lia|lra]]). set (w := fminus h (ofZ j)) in *. rewrite <- VT in TR.
    destruct fone_val as [OV OF]. destruct (fminus_spec fone w 0 OF FT ltac:(lia)) as [VG FG]; [rewrite OV; change (b2 0) with 1; apply Rabs_le; lra|]. rewrite OV in VG.
    assert (GR : 0 <= f2R (fminus fone w) <= 1) by (rewrite VG; split; [apply rnd_lb; [apply (fmt_IZR 0); lia|lra]|apply rnd_ub; [apply (fmt_IZR 1); lia|lra]]).
    set (j' := Z.min (j + 1) n1). assert (LJ : (Z.to_nat j < length a)%nat) by (unfold n1 in *; lia). assert (LJ' : (Z.to_nat j' < length a)%nat) by (unfold j', n1 in *; lia).
    destruct (ok_nth _ LJ) as [FX BX]. destruct (ok_nth _ LJ') as [FY BY].
    assert (MB : forall x t, ffin x = true -> ffin t = true -> Rabs (f2R x) <= b2 1022 -> 0 <= f2R t <= 1 -> f2R (fmult x t) = rnd (f2R x * f2R t) /\ ffin (fmult x t) = true /\ Rabs (f2R (fmult x t)) <= b2 1022).
    { intros x t Fx Ft Bx Ht. assert (B : Rabs (f2R x * f2R t) <= b2 1022) by (rewrite Rabs_mult, (Rabs_pos_eq (f2R t)) by lra; apply Rle_trans with (b2 1022 * 1); [apply Rmult_le_compat; [apply Rabs_pos|lra|exact Bx|lra]|lra]).
      destruct (fmult_spec x t 1022 Fx Ft ltac:(lia) B) as [V FV]. split; [exact V|]. split; [exact FV|]. rewrite V. apply rnd_abs_le; [apply fmt_bpow; lia|exact B]. }
    destruct (MB _ _ FX FG BX GR) as (VA & FA & BA). destruct (MB _ _ FY FT BY TR) as (VB & FB & BB).
    destruct (fplus_spec _ _ 1023 FA FB ltac:(lia)) as [VS FS].
    { eapply Rle_trans; [apply Rabs_triang|]. replace (b2 1023) with (2 * b2 1022) by (change 1023%Z with (1 + 1022)%Z; rewrite bpow_plus; reflexivity). lra. }
    split; [exact FS|]. exists (Z.to_nat j), (Z.to_nat j'). rewrite IJ. split; [exact LJ|]. split; [exact LJ'|]. split.
    { unfold j'. destruct (Z.le_gt_cases (j + 1) n1) as [L|L]; [left; rewrite Z.min_l by lia; lia|right; rewrite Z.min_r by lia; assert (j = n1) by lia; split; [congruence|congruence]]. }
    split; [lra|]. split; [rewrite <- VT; exact TR|]. rewrite VS, VA, VB, VG, VT. reflexivity.
  Qed.
End One.
