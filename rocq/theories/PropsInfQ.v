(** C115: with quantile edges +infinity only merges the top bins, while -infinity silently drops the lowest bin. *)
From Coq Require Import String ZArith List Bool Reals Lra Lia Permutation.
From Flocq Require Import Core BinarySingleNaN.
From Verif Require Import BrentFModel BrentFProofs F64 FOrder Base Cells Chi2FModel QuantileFModel QuantileFProofs BinModel SpecBin BinProofs PropsBin2 PropsQuantF SearchModel PropsSearch SpecInf PropsInf SpecInfQ.
Import ListNotations.
Open Scope Z_scope.
Open Scope list_scope.

Definition okv (x : f64) : Prop := x = pinf \/ (ffin x = true /\ (Rabs (f2R x) < bpow radix2 1022)%R).
Lemma big_val : f2R (flit 1 1022) = bpow radix2 1022 /\ ffin (flit 1 1022) = true.
Proof.
  split; [|vm_compute; reflexivity]. unfold f2R. rewrite <- SF2R_B2SF. replace (B2SF (flit 1 1022)) with (SpecFloat.S754_finite false 4503599627370496 970) by (vm_compute; reflexivity).
  cbn [SF2R]. unfold F2R. cbn [Fnum Fexp cond_Zopp]. change (IZR 4503599627370496) with (bpow radix2 52). rewrite <- bpow_plus. reflexivity.
Qed.
Lemma tamed_fin : forall x, ffin x = true -> tamed x = x.
Proof. intros [s|[|]| |s m e p] H; try reflexivity; discriminate H. Qed.
Lemma tamed_nan : forall x, fisnan (tamed x) = fisnan x.
Proof. intros [s|[|]| |s m e p]; reflexivity. Qed.
Lemma tamed_ok : forall x, okv x -> ffin (tamed x) = true /\ (Rabs (f2R (tamed x)) <= bpow radix2 1022)%R.
Proof.
  intros x [-> |[F B]].
  - cbn [tamed]. destruct big_val as [V F]. split; [exact F|]. rewrite V, Rabs_pos_eq by apply bpow_ge_0. lra.
  - rewrite tamed_fin by exact F. split; [exact F|lra].
Qed.
Lemma tamed_fle : forall x y, okv x -> okv y -> fle (tamed x) (tamed y) = fle x y.
Proof.
  intros x y [-> |[FX BX]] [-> |[FY BY]]; destruct big_val as [V F].
  - vm_compute. reflexivity.
  - rewrite (tamed_fin y FY). cbn [tamed]. replace (fle pinf y) with false by (destruct y; try discriminate FY; reflexivity). destruct (fle _ y) eqn:E; [|reflexivity]. apply (proj1 (fle_spec _ y F FY)) in E. apply Rabs_lt_inv in BY. lra.
  - rewrite (tamed_fin x FX). cbn [tamed]. replace (fle x pinf) with true by (destruct x; try discriminate FX; reflexivity). apply (proj2 (fle_spec x _ FX F)). apply Rabs_lt_inv in BX. lra.
  - rewrite (tamed_fin x FX), (tamed_fin y FY). reflexivity.
Qed.
Lemma finsert_tamed : forall x l, okv x -> (forall y, In y l -> okv y) -> finsert (tamed x) (map tamed l) = map tamed (finsert x l).
Proof.
  intros x l HX. induction l as [|y l IH]; intros H; [reflexivity|]. cbn [finsert map]. rewrite tamed_fle by (try exact HX; apply H; left; reflexivity). destruct (fle x y); [reflexivity|]. cbn [map]. rewrite IH by (intros z Hz; apply H; right; exact Hz). reflexivity.
Qed.
Lemma fsort_tamed : forall l, (forall y, In y l -> okv y) -> fsort (map tamed l) = map tamed (fsort l).
Proof.
  induction l as [|x l IH]; intros H; [reflexivity|]. cbn [map fsort fold_right]. change (fold_right finsert [] (map tamed l)) with (fsort (map tamed l)). change (fold_right finsert [] l) with (fsort l). rewrite IH by (intros y Hy; apply H; right; exact Hy).
  apply finsert_tamed; [apply H; left; reflexivity|]. intros y Hy. apply (Permutation_in _ (fsort_perm l)) in Hy. apply H. right. exact Hy.
Qed.
Lemma dead_times_t : forall d t, dead d -> ffin t = true -> (0 <= f2R t)%R -> dead (fmult d t).
Proof.
  intros d t D F P. destruct t as [s|s| |[|] q e p]; try discriminate F; destruct D as [-> | ->]; unfold dead; auto.
  exfalso. assert (f2R (B754_finite true q e p) < 0)%R by (apply F2R_lt_0; cbn; lia). lra.
Qed.
Lemma dead_plus_r : forall x y, dead y -> dead (fplus x y).
Proof. intros x y [-> | ->]; destruct x as [s|[|]| |s q e p]; unfold dead; auto. Qed.
Lemma lerp_dead : forall x t, ffin t = true -> (0 <= f2R t)%R -> dead (lerp64 x pinf t).
Proof.
  intros x t F P. unfold lerp64. cbv zeta. destruct (fle fhalf t); [apply pinf_minus|]. apply dead_plus_r, dead_times_t; [apply pinf_minus|exact F|exact P].
Qed.
(** which two order statistics a quantile is made of depends on the number of values only *)
Definition topi (n1 : Z) (q : f64) : nat := if fle (ofZ n1) (fmult (ofZ n1) q) then Z.to_nat n1 else Z.to_nat (Btrunc (fmult (ofZ n1) q) + 1).
Section One.
  Variable len : nat.
  Let n1 := Z.of_nat len - 1.
  Hypothesis HL : 0 <= n1 <= 2 ^ 50.
  Let any := repeat fzero len.
  Let any_n1 : Z.of_nat (length any) - 1 = n1. Proof. unfold any. rewrite repeat_length. reflexivity. Qed.
  Lemma hval : forall q, ffin q = true -> (0 <= f2R q <= 1)%R -> f2R (fmult (ofZ n1) q) = rnd (IZR n1 * f2R q) /\ ffin (fmult (ofZ n1) q) = true /\ (0 <= rnd (IZR n1 * f2R q) <= IZR n1)%R.
  Proof. intros q F H. pose proof (h_val any) as X. cbv zeta in X. unfold hh in X. rewrite any_n1 in X. apply X; assumption. Qed.
  Lemma n1v : f2R (ofZ n1) = IZR n1 /\ ffin (ofZ n1) = true.
  Proof. apply ofZ_spec. change (2 ^ 53) with 9007199254740992. change (2 ^ 50) with 1125899906842624 in HL. lia. Qed.
  Lemma two_neighbours : forall q, ffin q = true -> (0 <= f2R q <= 1)%R -> exists j t, ffin t = true /\ (0 <= f2R t)%R /\ (j <= topi n1 q < len)%nat /\ forall b, length b = len -> quantile1_64 b q = lerp64 (nth j b fnan) (nth (topi n1 q) b fnan) t.
  Proof.
    intros q F H. destruct (hval q F H) as (HV & HF & HB). destruct n1v as [V1 F1]. unfold topi. set (h := fmult (ofZ n1) q) in *. assert (NB : (0 <= IZR n1 <= 1125899906842624)%R) by (split; [apply (IZR_le 0); lia|apply (IZR_le n1 1125899906842624); exact (proj2 HL)]).
    destruct (fle (ofZ n1) h) eqn:E.
    - destruct (ofZ_spec (-1)) as [VM FM]; [lia|]. destruct (fminus_spec h (ofZ (-1)) 60 HF FM ltac:(lia)) as [VG FG]; [rewrite HV, VM; apply Rabs_le; change (bpow radix2 60) with 1152921504606846976%R; lra|].
      exists (Z.to_nat n1), (fminus h (ofZ (-1))). split; [exact FG|]. split; [rewrite VG, HV, VM, <- rnd_0; apply rnd_le; lra|]. split; [unfold n1 in *; lia|].
      intros b Lb. unfold quantile1_64. rewrite Lb. fold n1. cbv zeta. fold h. rewrite E. reflexivity.
    - assert (LT : (rnd (IZR n1 * f2R q) < IZR n1)%R) by (apply Rnot_le_lt; intros X; assert (fle (ofZ n1) h = true) by (apply fle_spec; try assumption; rewrite V1, HV; exact X); congruence).
      assert (JE : Btrunc h = Zfloor (rnd (IZR n1 * f2R q))) by (rewrite btrunc_floor, HV by (rewrite HV; lra); reflexivity). set (j := Zfloor _) in JE.
      pose proof (Zfloor_lb (rnd (IZR n1 * f2R q))) as L1. fold j in L1. assert (J0 : 0 <= j) by (apply Zfloor_lub; lra). assert (J1 : j < n1) by (apply lt_IZR; lra).
      destruct (ofZ_spec j) as [VJ FJ]; [change (2 ^ 53) with 9007199254740992; change (2 ^ 50) with 1125899906842624 in HL; lia|].
      destruct (fminus_spec h (ofZ j) 60 HF FJ ltac:(lia)) as [VT FT]; [rewrite HV, VJ; change (bpow radix2 60) with 1152921504606846976%R; apply IZR_le in J0; apply Rabs_le; lra|].
      exists (Z.to_nat j), (fminus h (ofZ j)). split; [exact FT|]. split; [rewrite VT, HV, VJ, <- rnd_0; apply rnd_le; lra|]. rewrite JE. split; [unfold n1 in *; lia|].
      intros b Lb. unfold quantile1_64. rewrite Lb. fold n1. cbv zeta. fold h. rewrite E, JE. reflexivity.
  Qed.
  Lemma topi_mono : forall q1 q2, ffin q1 = true -> ffin q2 = true -> (0 <= f2R q1)%R -> (f2R q1 <= f2R q2)%R -> (f2R q2 <= 1)%R -> (topi n1 q1 <= topi n1 q2)%nat.
  Proof.
    intros q1 q2 F1 F2 H1 H12 H2. destruct (hval q1 F1 ltac:(lra)) as (V1 & G1 & B1). destruct (hval q2 F2 ltac:(lra)) as (V2 & G2 & B2). destruct n1v as [VN FN].
    assert (LE : (rnd (IZR n1 * f2R q1) <= rnd (IZR n1 * f2R q2))%R) by (apply rnd_le, Rmult_le_compat_l; [lra|exact H12]).
    assert (X : forall h, f2R h = f2R h -> ffin h = true -> (0 <= f2R h <= IZR n1)%R -> fle (ofZ n1) h = false -> Btrunc h = Zfloor (f2R h) /\ 0 <= Zfloor (f2R h) < n1).
    { intros h _ FH BH E. split; [apply btrunc_floor; lra|]. split; [apply Zfloor_lub; lra|]. pose proof (Zfloor_lb (f2R h)) as L. apply lt_IZR. apply Rle_lt_trans with (1 := L). apply Rnot_le_lt. intros Y. assert (fle (ofZ n1) h = true) by (apply fle_spec; try assumption; lra). congruence. }
    unfold topi. destruct (fle (ofZ n1) (fmult (ofZ n1) q1)) eqn:E1; destruct (fle (ofZ n1) (fmult (ofZ n1) q2)) eqn:E2.
    - lia.
    - exfalso. apply (proj1 (fle_spec _ _ FN G1)) in E1. assert (fle (ofZ n1) (fmult (ofZ n1) q2) = true) by (apply fle_spec; try assumption; lra). congruence.
    - destruct (X _ eq_refl G1 ltac:(lra) E1) as [-> B]. lia.
    - destruct (X _ eq_refl G1 ltac:(lra) E1) as [-> B]. destruct (X _ eq_refl G2 ltac:(lra) E2) as [-> B']. rewrite V1, V2 in *. pose proof (Zfloor_le _ _ LE). lia.
  Qed.
  Lemma topi_first : forall q, ffin q = true -> f2R q = 0%R -> (2 <= len)%nat -> topi n1 q = 1%nat.
  Proof.
    intros q F E L. destruct (hval q F ltac:(lra)) as (V & G & _). rewrite E, Rmult_0_r, rnd_0 in V. destruct n1v as [VN FN]. unfold topi. destruct (fle (ofZ n1) _) eqn:C.
    - exfalso. apply (proj1 (fle_spec _ _ FN G)) in C. rewrite VN, V in C. apply le_IZR in C. unfold n1 in C. lia.
    - rewrite btrunc_floor by lra. rewrite V. rewrite (Zfloor_IZR 0). reflexivity.
  Qed.
  Lemma topi_last : forall q, ffin q = true -> f2R q = 1%R -> topi n1 q = Z.to_nat n1.
  Proof.
    intros q F E. destruct (hval q F ltac:(lra)) as (V & G & _). destruct n1v as [VN FN]. unfold topi. replace (fle (ofZ n1) (fmult (ofZ n1) q)) with true; [reflexivity|]. symmetry. apply fle_spec; [exact FN|exact G|]. rewrite V, E, Rmult_1_r, VN. rewrite rnd_id; [lra|]. apply fmt_IZR. change (2 ^ 53) with 9007199254740992. change (2 ^ 50) with 1125899906842624 in HL. lia.
  Qed.
End One.
Lemma threshold : forall (P : nat -> bool) N, P 0%nat = true -> P N = false -> (forall i j, (i <= j <= N)%nat -> P j = true -> P i = true) -> exists p, (1 <= p <= N)%nat /\ forall i, (i <= N)%nat -> P i = Nat.ltb i p.
Proof.
  intros P N. induction N as [|N IH]; intros P0 PN M; [congruence|]. destruct (P N) eqn:E.
  - exists (S N). split; [lia|]. intros i Hi. destruct (Nat.ltb_spec i (S N)) as [L|L]; [apply (M i N); [lia|exact E]|]. replace i with (S N) by lia. exact PN.
  - destruct (IH P0 eq_refl) as (p & Hp & H). { intros i j Hij. apply M. lia. } exists p. split; [lia|]. intros i Hi. destruct (Nat.eq_dec i (S N)) as [-> |NE]; [|apply H; lia]. rewrite PN. symmetry. apply Nat.ltb_ge. lia.
Qed.

Lemma filter_tamed : forall arr, filter (fun v => negb (fisnan v)) (map tamed arr) = map tamed (filter (fun v => negb (fisnan v)) arr).
Proof. induction arr as [|v arr IH]; [reflexivity|]. cbn [map filter]. rewrite tamed_nan. destruct (negb (fisnan v)); cbn [map]; rewrite IH; reflexivity. Qed.
Lemma okv_cases : forall x, okv x -> (x = pinf /\ (f2R (tamed x) = bpow radix2 1022)%R) \/ (ffin x = true /\ tamed x = x /\ (f2R (tamed x) < bpow radix2 1022)%R).
Proof.
  intros x [-> |[F B]]; [left; split; [reflexivity|apply big_val]|right]. rewrite tamed_fin by exact F. apply Rabs_lt_inv in B. repeat split; [exact F|lra].
Qed.
Lemma perm_count : forall l l', Permutation l l' -> length (filter ffin l) = length (filter ffin l').
Proof.
  intros l l' P. induction P as [|x l l' P IH|x y l|l1 l2 l3 P1 IH1 P2 IH2]; cbn [filter].
  - reflexivity.
  - destruct (ffin x); cbn [length]; congruence.
  - destruct (ffin x); destruct (ffin y); reflexivity.
  - congruence.
Qed.
Section Column.
  Variable arr : list f64.
  Variable n : Z.
  Hypothesis OK : forall v, In v arr -> fisnan v = false -> v = pinf \/ (ffin v = true /\ (Rabs (f2R v) < bpow radix2 1022)%R).
  Hypothesis INF : In pinf arr.
  Hypothesis TWO : (2 <= length (filter ffin arr))%nat.
  Hypothesis HN : 1 <= n <= 2 ^ 40.
  Hypothesis LEN : Z.of_nat (length arr) <= 2 ^ 50.
  Let vals := filter (fun v => negb (fisnan v)) arr.
  Let a := fsort vals.
  Lemma vals_ok : forall v, In v vals -> okv v.
  Proof. intros v Hv. apply filter_In in Hv. destruct Hv as [Hv N]. apply negb_true_iff in N. apply OK; assumption. Qed.
  Lemma in_a : forall v, In v a <-> In v vals.
  Proof. intros v. split; apply Permutation_in; [apply fsort_perm|apply Permutation_sym, fsort_perm]. Qed.
  Lemma a_ok' : forall k, (k < length a)%nat -> okv (nth k a fnan).
  Proof. intros k Hk. apply vals_ok, in_a, nth_In, Hk. Qed.
  Lemma inf_vals : In pinf vals.
  Proof. apply filter_In. split; [exact INF|reflexivity]. Qed.
  Lemma fin_count : length (filter ffin arr) = length (filter ffin a).
  Proof.
    assert (E : filter ffin arr = filter ffin vals). { unfold vals. clear. induction arr as [|v l IH]; [reflexivity|]. cbn [filter]. destruct v as [s|s| |s m e p]; cbn [fisnan ffin is_nan is_finite negb filter]; rewrite IH; reflexivity. }
    rewrite E. apply perm_count, Permutation_sym, fsort_perm.
  Qed.
  Lemma sorted_tamed : forall i j, (i <= j < length a)%nat -> (f2R (tamed (nth i a fnan)) <= f2R (tamed (nth j a fnan)))%R.
  Proof.
    intros i j H. assert (S : sorted64 (map tamed a)). { unfold a. rewrite <- fsort_tamed by exact vals_ok. apply fsort_sorted. intros y Hy. apply in_map_iff in Hy. destruct Hy as (x & <- & Hx). apply tamed_ok, vals_ok, Hx. }
    pose proof (sorted_nth _ S i j) as X. rewrite map_length in X. specialize (X H). change fnan with (tamed fnan) in X. rewrite !map_nth in X. exact X.
  Qed.
  Lemma fin_below : forall i j, (i <= j < length a)%nat -> ffin (nth j a fnan) = true -> ffin (nth i a fnan) = true.
  Proof.
    intros i j H F. pose proof (sorted_tamed i j H) as L. destruct (okv_cases _ (a_ok' i ltac:(lia))) as [[_ E]|[E _]]; [exfalso|exact E]. destruct (okv_cases _ (a_ok' j ltac:(lia))) as [[E2 _]|(_ & _ & E2)]; [rewrite E2 in F; discriminate F|lra].
  Qed.
  Lemma last_inf : (1 <= length a)%nat /\ nth (length a - 1) a fnan = pinf.
  Proof.
    destruct (In_nth a pinf fnan (proj2 (in_a _) inf_vals)) as (k & Hk & E). split; [lia|]. destruct (okv_cases _ (a_ok' (length a - 1) ltac:(lia))) as [[X _]|[X _]]; [exact X|exfalso]. pose proof (fin_below k (length a - 1) ltac:(lia) X) as Y. rewrite E in Y. discriminate Y.
  Qed.
  Lemma second_fin : (3 <= length a)%nat /\ ffin (nth 1 a fnan) = true.
  Proof.
    pose proof TWO as T. rewrite fin_count in T. destruct last_inf as [L LI].
    assert (G : forall l, (length (filter ffin l) <= length l)%nat) by (clear; induction l as [|x l IH]; cbn [filter length]; [lia|destruct (ffin x); cbn [length]; lia]).
    assert (X : ffin (nth 1 a fnan) = true).
    { destruct (ffin (nth 1 a fnan)) eqn:E; [reflexivity|exfalso]. pose proof fin_below as FB. clear LI. revert T E FB. destruct a as [|x l]; [cbn; lia|]. intros T E FB. assert (Z : filter ffin l = []).
      { destruct (filter ffin l) as [|y m] eqn:Q; [reflexivity|exfalso]. assert (Hy : In y (filter ffin l)) by (rewrite Q; left; reflexivity). apply filter_In in Hy. destruct Hy as [Hy Fy]. destruct (In_nth l y fnan Hy) as (k & Hk & EK). cbn [nth] in E.
        specialize (FB 1%nat (S k)). cbn [nth length] in FB. rewrite EK in FB. specialize (FB ltac:(lia) Fy). congruence. }
      cbn [filter] in T. destruct (ffin x); cbn [length] in T; rewrite Z in T; cbn in T; lia. }
    split; [|exact X]. destruct (Nat.le_gt_cases 3 (length a)) as [Y|Y]; [exact Y|exfalso]. specialize (G a). assert (length a = 2%nat) as E2 by lia. rewrite E2 in LI. cbn [Nat.sub] in LI. rewrite LI in X. discriminate X.
  Qed.
  Let n1 := Z.of_nat (length a) - 1.
  Lemma n1_ok : 0 <= n1 <= 2 ^ 50.
  Proof.
    destruct last_inf as [L _]. assert (length a <= length arr)%nat. { unfold a. rewrite (Permutation_length (fsort_perm vals)). unfold vals. clear. induction arr as [|x l IH]; cbn [filter length]; [lia|destruct (negb _); cbn [length]; lia]. } unfold n1. lia.
  Qed.
  (** one quantile: the same as without the infinities, or useless *)
  Lemma one_quantile : forall q, ffin q = true -> (0 <= f2R q <= 1)%R ->
    if ffin (nth (topi n1 q) a fnan) then quantile1_64 a q = quantile1_64 (map tamed a) q else dead (quantile1_64 a q).
  Proof.
    intros q F H. destruct (two_neighbours (length a) n1_ok q F H) as (j & t & FT & PT & JT & E). fold n1 in JT, E. rewrite (E a eq_refl), (E (map tamed a)) by apply map_length.
    destruct (ffin (nth (topi n1 q) a fnan)) eqn:B.
    - pose proof (fin_below j (topi n1 q) ltac:(lia) B) as FJ. assert (X : forall k, nth k (map tamed a) fnan = tamed (nth k a fnan)) by (intros k; change fnan with (tamed fnan) at 1; apply map_nth). rewrite !X, !tamed_fin by assumption. reflexivity.
    - destruct (okv_cases _ (a_ok' (topi n1 q) ltac:(lia))) as [[-> _]|[X _]]; [|congruence]. apply lerp_dead; assumption.
  Qed.
  Lemma data_range_tamed : exists lo, In lo arr /\ ffin lo = true /\ (forall v, In v arr -> ffin v = true -> (f2R lo <= f2R v)%R) /\ data_range (map tamed arr) lo (flit 1 1022).
  Proof.
    assert (NE : exists x l, vals = x :: l). { pose proof inf_vals as I. destruct vals as [|x l]; [destruct I|eauto]. }
    destruct NE as (x & l & EV). assert (NN : forall v, In v (x :: l) -> fisnan v = false) by (intros v Hv; rewrite <- EV in Hv; apply filter_In in Hv; apply negb_true_iff, Hv).
    destruct (min_any l x NN) as [M1 M2]. rewrite <- EV in M1, M2. set (m := fold_left fmin2 l x) in *. pose proof M1 as M1'. apply filter_In in M1'. destruct M1' as [MA MN].
    assert (LF : forall v, In v arr -> ffin v = true -> fle m v = true). { intros v Hv Fv. apply M2. apply filter_In. split; [exact Hv|]. destruct v; try discriminate Fv; reflexivity. }
    assert (FM : ffin m = true).
    { destruct (filter ffin arr) as [|y r] eqn:Q; [cbn in TWO; lia|]. assert (Hy : In y (filter ffin arr)) by (rewrite Q; left; reflexivity). apply filter_In in Hy. destruct Hy as [Hy Fy]. specialize (LF y Hy Fy).
      destruct (vals_ok m M1) as [E|[E _]]; [|exact E]. rewrite E in LF. destruct y; try discriminate Fy; discriminate LF. }
    assert (LR : forall v, In v arr -> ffin v = true -> (f2R m <= f2R v)%R) by (intros v Hv Fv; apply fle_spec; auto).
    exists m. split; [exact MA|]. split; [exact FM|]. split; [exact LR|]. destruct big_val as [BV BF].
    assert (OKT : forall v, In v (map tamed arr) -> fisnan v = false -> exists w, v = tamed w /\ In w arr /\ okv w).
    { intros v Hv N. apply in_map_iff in Hv. destruct Hv as (w & <- & Hw). rewrite tamed_nan in N. exists w. split; [reflexivity|]. split; [exact Hw|apply OK; assumption]. }
    assert (MB : (f2R m < bpow radix2 1022)%R). { destruct (okv_cases m (vals_ok m M1)) as [[E _]|(_ & E & X)]; [rewrite E in FM; discriminate FM|rewrite E in X; exact X]. }
    split; [|split; [|split; [|split; [|split]]]].
    - intros v Hv N. destruct (OKT v Hv N) as (w & -> & _ & Ow). apply tamed_ok. exact Ow.
    - rewrite <- (tamed_fin m FM). apply in_map. exact MA.
    - change (flit 1 1022) with (tamed pinf). apply in_map. exact INF.
    - exact FM.
    - exact BF.
    - intros v Hv N. destruct (OKT v Hv N) as (w & -> & Hw & Ow). rewrite BV. destruct (okv_cases w Ow) as [[-> E]|(Fw & E & X)]; [rewrite E; lra|]. rewrite E in *. split; [apply LR; assumption|lra].
  Qed.
  (** the edges *)
  Lemma edges : exists e e' p, bin_edges np_quantile64 arr n true = Ok e /\ bin_edges np_quantile64 (map tamed arr) n true = Ok e' /\ length e = (Z.to_nat n + 1)%nat /\ length e' = (Z.to_nat n + 1)%nat /\
    (1 <= p <= Z.to_nat n)%nat /\ (forall i, (i < p)%nat -> nth i e fnan = nth i e' fnan) /\ (forall i, (p <= i <= Z.to_nat n)%nat -> dead (nth i e fnan)) /\
    ascending e' /\ (forall x, In x e' -> ffin x = true) /\ f2R (nth (Z.to_nat n) e' fnan) = bpow radix2 1022.
  Proof.
    destruct data_range_tamed as (lo & LA & LF & LR & DR). destruct second_fin as [L3 S2]. destruct last_inf as [_ LI].
    assert (LV : Z.of_nat (length (filter (fun v => negb (fisnan v)) (map tamed arr))) <= 2 ^ 50). { rewrite filter_tamed, map_length. fold vals. assert (length vals = length a) by (unfold a; rewrite (Permutation_length (fsort_perm vals)); reflexivity). pose proof n1_ok as X. unfold n1 in X. assert (length vals <= length arr)%nat by (unfold vals; clear; induction arr as [|x l IH]; cbn [filter length]; [lia|destruct (negb _); cbn [length]; lia]). lia. }
    pose proof (C90_quantiles_ascend (map tamed arr) n lo (flit 1 1022) DR HN LV) as QO.
    destruct (C05_bin_edges_quantile np_quantile64 (map tamed arr) n lo (flit 1 1022) DR ltac:(lia) QO) as (e' & E1 & E2 & E3 & E4 & _ & E6 & _).
    destruct (points n HN) as (q & PE & LQ & PQ & MQ & Q0 & QN).
    assert (N1 : np_quantile64 vals n = map (quantile1_64 a) q). { unfold np_quantile64, quantiles_with. rewrite PE. fold a. pose proof inf_vals as I. destruct vals; [destruct I|reflexivity]. }
    assert (N2 : np_quantile64 (filter (fun v => negb (fisnan v)) (map tamed arr)) n = map (quantile1_64 (map tamed a)) q).
    { rewrite filter_tamed. fold vals. unfold np_quantile64, quantiles_with. rewrite PE, (fsort_tamed vals vals_ok). fold a. pose proof inf_vals as I. destruct vals; [destruct I|reflexivity]. }
    set (P := fun i => ffin (nth (topi n1 (nth i q fnan)) a fnan)).
    destruct (threshold P (Z.to_nat n)) as (p & Hp & HP).
    - unfold P. destruct (PQ 0%nat ltac:(lia)) as (F0 & _). unfold n1. rewrite (topi_first (length a) n1_ok _ F0 Q0) by lia. exact S2.
    - unfold P. destruct (PQ (Z.to_nat n) ltac:(lia)) as (F0 & _). unfold n1. rewrite (topi_last (length a) n1_ok _ F0 QN). replace (Z.to_nat (Z.of_nat (length a) - 1)) with (length a - 1)%nat by lia. rewrite LI. reflexivity.
    - intros i j Hij. unfold P. destruct (PQ i ltac:(lia)) as (Fi & Bi & _). destruct (PQ j ltac:(lia)) as (Fj & Bj & _). apply fin_below. split.
      + apply (topi_mono (length a) n1_ok); try assumption; try lra. apply MQ. lia.
      + destruct (two_neighbours (length a) n1_ok _ Fj Bj) as (j' & t & _ & _ & JT & _). apply JT.
    - assert (OQ : forall i, (i <= Z.to_nat n)%nat -> if (i <? p)%nat then nth i (map (quantile1_64 a) q) fnan = nth i (map (quantile1_64 (map tamed a)) q) fnan else dead (nth i (map (quantile1_64 a) q) fnan)).
      { intros i Hi. destruct (PQ i Hi) as (Fi & Bi & _). pose proof (one_quantile _ Fi Bi) as X. fold (P i) in X. rewrite HP in X by exact Hi.
        rewrite (nth_indep (map (quantile1_64 a) q) fnan (quantile1_64 a fnan)) by (rewrite map_length; lia). rewrite (nth_indep (map (quantile1_64 (map tamed a)) q) fnan (quantile1_64 (map tamed a) fnan)) by (rewrite map_length; lia). rewrite !map_nth. exact X. }
      unfold bin_edges in E1 |- *. fold vals. rewrite N1. rewrite N2 in E1. destruct q as [|q0 qs]; [cbn in LQ; lia|]. cbn [map] in E1, OQ |- *. injection E1 as E1.
      exists (fminus (quantile1_64 a q0) tiny :: map (quantile1_64 a) qs), e', p. rewrite <- E1. split; [reflexivity|]. split; [unfold bin_edges; rewrite N2; reflexivity|]. split; [cbn [length] in *; rewrite map_length; lia|]. split; [rewrite E1; exact E2|]. split; [exact Hp|]. split; [|split; [|rewrite E1; split; [exact E3|split; [exact E4|rewrite E6; apply big_val]]]].
      + intros i Hi. specialize (OQ i ltac:(lia)). rewrite (proj2 (Nat.ltb_lt _ _) Hi) in OQ. destruct i as [|i]; cbn [nth] in *; [rewrite OQ; reflexivity|exact OQ].
      + intros i Hi. specialize (OQ i ltac:(lia)). rewrite (proj2 (Nat.ltb_ge _ _)) in OQ by lia. destruct i as [|i]; [lia|exact OQ].
  Qed.
End Column.

(** ** the bins *)
Lemma dead_not_below : forall x v, dead x -> fisnan v = false -> npless x v = false.
Proof. intros x v D N. unfold npless. rewrite (never_below x v D), N. reflexivity. Qed.
Lemma index_of : forall e e' N p v r r', length e = (N + 1)%nat -> length e' = (N + 1)%nat -> (1 <= p <= N)%nat ->
  (forall i, (i < p)%nat -> nth i e fnan = nth i e' fnan) -> (forall i, (p <= i <= N)%nat -> dead (nth i e fnan)) -> ascending e' -> (forall x, In x e' -> ffin x = true) -> fisnan v = false ->
  fits e v r -> (r <= p)%nat /\ (v = pinf -> r = p) /\ (fits e' v r' -> r = Nat.min r' p).
Proof.
  intros e e' N p v r r' LE LE' HP EQ DE AS FE NV (R1 & R2 & R3).
  assert (RP : (r <= p)%nat). { destruct (Nat.le_gt_cases r p) as [X|X]; [exact X|exfalso]. destruct R2 as [R2|R2]; [lia|]. rewrite dead_not_below in R2; [discriminate R2|apply DE; lia|exact NV]. }
  split; [exact RP|]. split.
  - intros ->. destruct (Nat.eq_dec r p) as [X|X]; [exact X|exfalso]. destruct R3 as [R3|R3]; [lia|]. rewrite EQ in R3 by lia. assert (F : ffin (nth r e' fnan) = true) by (apply FE, nth_In; lia). destruct (nth r e' fnan); try discriminate F; discriminate R3.
  - intros (S1 & S2 & S3). assert (LT : forall i j, (i <= j <= N)%nat -> npless (nth j e' fnan) v = true -> npless (nth i e' fnan) v = true).
    { intros i j Hij H. unfold npless in *. rewrite NV in *. cbn [andb] in *. rewrite orb_false_r in *. eapply fle_lt_trans; [apply (AS i j); lia|exact H]. }
    assert (LOW : r = 0%nat \/ npless (nth (r - 1) e' fnan) v = true). { destruct R2 as [R2|R2]; [left; exact R2|]. destruct (Nat.eq_dec r 0) as [X|X]; [left; exact X|right]. rewrite <- EQ by lia. exact R2. }
    assert (GE : (r <= r')%nat). { destruct LOW as [L|L]; [lia|]. destruct (Nat.le_gt_cases r r') as [X|X]; [exact X|exfalso]. destruct S3 as [S3|S3]; [lia|]. rewrite (LT r' (r - 1)%nat) in S3; [discriminate S3|lia|exact L]. }
    destruct (Nat.eq_dec r p) as [-> |NE]; [lia|]. assert (r' <= r)%nat; [|lia]. destruct (Nat.le_gt_cases r' r) as [X|X]; [exact X|exfalso]. destruct S2 as [S2|S2]; [lia|]. destruct R3 as [R3|R3]; [lia|]. rewrite EQ in R3 by lia. rewrite (LT r (r' - 1)%nat) in R3; [discriminate R3|lia|exact S2].
Qed.
Lemma searchsorted_fits_any : forall e v, fits e v (searchsorted e v).
Proof. intros e v. unfold searchsorted. destruct (bisect_any (S (length e)) e v 0 (length e) ltac:(lia) ltac:(lia)) as (B1 & B2 & B3). split; [lia|]. split; assumption. Qed.
(** what either search does with record k *)
Definition binned (f : list f64 -> list f64 -> list cell * list (f64 * f64)) : Prop :=
  forall arr e k v, nth_error arr k = Some v -> exists r, fits e v r /\ nth_error (fst (f arr e)) k = Some (bin1r e v r).
Lemma binned_one : binned bin_array.
Proof. intros arr e k v H. exists (searchsorted e v). split; [apply searchsorted_fits_any|]. rewrite bin_array_fst, nth_error_map, H. reflexivity. Qed.
Lemma binned_np : binned bin_array_np.
Proof.
  intros arr e k v H. rewrite bin_array_np_fst. pose proof (np_fits e arr) as F. revert k H. induction F as [|w r l m F1 F IH]; intros k H; [destruct k; discriminate H|]. destruct k as [|k]; cbn [nth_error combine map] in *.
  - injection H as ->. exists r. split; [exact F1|reflexivity].
  - destruct (IH k H) as (s & A & B). exists s. split; assumption.
Qed.
Lemma bin1r_int : forall e v r, fisnan v = false -> (1 <= r < length e)%nat -> bin1r e v r = CInt (Z.of_nat r).
Proof. intros e v r N H. unfold bin1r. rewrite N. destruct (Nat.eqb_spec r 0); [lia|]. destruct (Nat.eqb_spec r (length e)); [lia|]. reflexivity. Qed.
(** +infinity: the edges below some number p are those of the column with 2^1022 in place of +infinity, the others are NaN or +infinity, and the only
    effect is that the bins from p on are one bin, which holds the infinities *)
Theorem C115_plus_infinity : forall arr n,
  (forall v, In v arr -> fisnan v = false -> v = pinf \/ (ffin v = true /\ (Rabs (f2R v) < bpow radix2 1022)%R)) ->
  In pinf arr -> (2 <= length (filter ffin arr))%nat -> 1 <= n <= 2 ^ 40 -> Z.of_nat (length arr) <= 2 ^ 50 ->
  exists e e' p, bin_edges np_quantile64 arr n true = Ok e /\ bin_edges np_quantile64 (map tamed arr) n true = Ok e' /\ 1 <= p <= n /\
    (forall i, (i < Z.to_nat p)%nat -> nth i e fnan = nth i e' fnan) /\ (forall i, (Z.to_nat p <= i <= Z.to_nat n)%nat -> nth i e fnan = fnan \/ nth i e fnan = pinf) /\
    forall k v, nth_error arr k = Some v ->
      (v = pinf -> nth_error (fst (bin_array arr e)) k = Some (CInt p) /\ nth_error (fst (bin_array_np arr e)) k = Some (CInt p)) /\
      (v <> pinf -> exists c, nth_error (fst (bin_array (map tamed arr) e')) k = Some c /\ nth_error (fst (bin_array arr e)) k = Some (merged p c) /\ nth_error (fst (bin_array_np arr e)) k = Some (merged p c)).
Proof.
  intros arr n OK INF TWO HN LEN. destruct (edges arr n OK INF TWO HN LEN) as (e & e' & p & E1 & E2 & L1 & L2 & HP & EQ & DE & AS & FE & TOP). exists e, e', (Z.of_nat p). rewrite Nat2Z.id.
  split; [exact E1|]. split; [exact E2|]. split; [lia|]. split; [exact EQ|]. split; [exact DE|]. intros k v Hk. pose proof (nth_error_In _ _ Hk) as Hv.
  assert (IX : forall r r', fisnan v = false -> fits e v r -> (r <= p)%nat /\ (v = pinf -> r = p) /\ (fits e' v r' -> r = Nat.min r' p)) by (intros r r' NV; apply (index_of e e' (Z.to_nat n) p v r r' L1 L2 HP EQ DE AS FE NV)).
  destruct (binned_one arr e k v Hk) as (r & F1 & C1). destruct (binned_np arr e k v Hk) as (s & F2 & C2). rewrite C1, C2. split.
  - intros ->. destruct (IX r 0%nat eq_refl F1) as (_ & X & _). destruct (IX s 0%nat eq_refl F2) as (_ & Y & _). rewrite (X eq_refl), (Y eq_refl), !bin1r_int by (try reflexivity; lia). split; reflexivity.
  - intros NP. assert (TV : tamed v = v) by (destruct v as [z|[|]| |z m x y]; try reflexivity; contradiction). assert (Hk' : nth_error (map tamed arr) k = Some v) by (rewrite nth_error_map, Hk; cbn [option_map]; rewrite TV; reflexivity).
    destruct (binned_one (map tamed arr) e' k v Hk') as (r' & F3 & C3). exists (bin1r e' v r'). split; [exact C3|].
    assert (G : forall x, fits e v x -> bin1r e v x = merged (Z.of_nat p) (bin1r e' v r')); [|rewrite (G r F1), (G s F2); split; reflexivity].
    intros x Fx. destruct (fisnan v) eqn:NV; [unfold bin1r; rewrite NV; reflexivity|]. destruct (IX x r' eq_refl Fx) as (XP & _ & X). specialize (X F3). clear IX C1 C2 C3.
    assert (FV : ffin v = true /\ (f2R v < bpow radix2 1022)%R). { destruct (OK v Hv NV) as [Y|[Y B]]; [contradiction|]. split; [exact Y|]. apply Rabs_lt_inv in B. lra. }
    assert (RN : (r' <= Z.to_nat n)%nat). { destruct (Nat.le_gt_cases r' (Z.to_nat n)) as [Y|Y]; [exact Y|exfalso]. destruct F3 as (S1 & S2 & _). destruct S2 as [S2|S2]; [lia|]. replace (r' - 1)%nat with (Z.to_nat n) in S2 by lia. unfold npless in S2. rewrite NV in S2. cbn [andb] in S2. rewrite orb_false_r in S2.
      assert (IL : (Z.to_nat n < length e')%nat) by (rewrite L2; lia). apply (proj1 (flt_spec _ v (FE _ (nth_In e' fnan IL)) (proj1 FV))) in S2. lra. }
    destruct (Nat.eq_dec r' 0) as [-> |NZ].
    + cbn [Nat.min] in X. rewrite X. unfold bin1r. rewrite NV. reflexivity.
    + rewrite !bin1r_int by (try exact NV; lia). cbn [merged]. f_equal. lia.
Qed.
(** nothing is lost: the values are in the bins 1..p, up to the smallest value when 1e-14 is absorbed (as without infinities, C90) *)
Theorem C115_plus_infinity_binning : forall arr n lo,
  (forall v, In v arr -> fisnan v = false -> v = pinf \/ (ffin v = true /\ (Rabs (f2R v) < bpow radix2 1022)%R)) ->
  In pinf arr -> (2 <= length (filter ffin arr))%nat -> 1 <= n <= 2 ^ 40 -> Z.of_nat (length arr) <= 2 ^ 50 ->
  In lo arr -> ffin lo = true -> (forall v, In v arr -> ffin v = true -> (f2R lo <= f2R v)%R) ->
  exists e p, bin_edges np_quantile64 arr n true = Ok e /\ 1 <= p <= n /\ forall k v, nth_error arr k = Some v -> exists c, nth_error (fst (bin_array arr e)) k = Some c /\ nth_error (fst (bin_array_np arr e)) k = Some c /\
      (fisnan v = true -> c = CNaN) /\ (v = pinf -> c = CInt p) /\
      (ffin v = true -> (f2R lo < f2R v)%R \/ (-128 < f2R lo <= 128)%R -> exists i, 1 <= i <= p /\ c = CInt i) /\
      (ffin v = true -> f2R v = f2R lo -> ~ (-128 < f2R lo <= 128)%R -> c = CStr "UF"%string).
Proof.
  intros arr n lo OK INF TWO HN LEN HL FL ML. destruct (C115_plus_infinity arr n OK INF TWO HN LEN) as (e & e' & p & E1 & E2 & HP & _ & _ & H). exists e, p. split; [exact E1|]. split; [exact HP|].
  destruct (data_range_tamed arr OK INF TWO) as (lo' & HL' & FL' & ML' & DR). assert (EL : f2R lo' = f2R lo) by (apply Rle_antisym; auto).
  assert (LV : Z.of_nat (length (filter (fun v => negb (fisnan v)) (map tamed arr))) <= 2 ^ 50). { rewrite filter_tamed, map_length. assert (length (filter (fun v => negb (fisnan v)) arr) <= length arr)%nat by (clear; induction arr as [|x l IH]; cbn [filter length]; [lia|destruct (negb _); cbn [length]; lia]). lia. }
  destruct (C90_quantile_binning (map tamed arr) n lo' (flit 1 1022) DR HN LV) as (e2 & E3 & F). rewrite E2 in E3. injection E3 as <-. rewrite EL in F.
  intros k v Hk. destruct (H k v Hk) as [HI HF]. assert (D : v = pinf \/ v <> pinf) by (destruct v as [z|[|]| |z m x y]; [right|right|left|right|right]; try reflexivity; discriminate).
  destruct D as [-> |NP].
  - destruct (HI eq_refl) as [A B]. exists (CInt p). repeat split; try assumption; try (intros X; discriminate X); reflexivity.
  - destruct (HF NP) as (c & A & B & C). exists (merged p c). split; [exact B|]. split; [exact C|]. assert (TV : tamed v = v) by (destruct v as [z|[|]| |z m x y]; try reflexivity; contradiction). assert (Hk' : nth_error (map tamed arr) k = Some v) by (rewrite nth_error_map, Hk; cbn [option_map]; rewrite TV; reflexivity).
    assert (FC : (fisnan v = true -> c = CNaN) /\ (fisnan v = false -> (f2R lo < f2R v)%R \/ (-128 < f2R lo <= 128)%R -> exists i, 1 <= i <= n /\ c = CInt i) /\ (fisnan v = false -> f2R v = f2R lo -> ~ (-128 < f2R lo <= 128)%R -> c = CStr "UF"%string)).
    { clear - F A Hk'. revert k A Hk'. induction F as [|x y l m F1 F IH]; intros k A B; destruct k as [|k]; try discriminate; cbn [nth_error] in *; [injection A as ->; injection B as ->; exact F1|apply (IH k A B)]. }
    destruct FC as (G1 & G2 & G3). assert (FN : ffin v = true -> fisnan v = false) by (intros X; destruct v; try discriminate X; reflexivity).
    split; [intros X; rewrite (G1 X); reflexivity|]. split; [intros X; contradiction|]. split; [|intros X Y Z; rewrite (G3 (FN X) Y Z); reflexivity].
    intros X Y. destruct (G2 (FN X) Y) as (i & Hi & ->). cbn [merged]. exists (Z.min i p). split; [lia|reflexivity].
Qed.
(** ** -infinity *)
Notation minf := (B754_infinity true).
Lemma fsort_minf : forall l, (forall v, In v l -> fisnan v = false) -> In minf l -> nth 0 (fsort l) fnan = minf.
Proof.
  induction l as [|x l IH]; intros N I; [destruct I|]. cbn [fsort fold_right]. change (fold_right finsert [] l) with (fsort l). pose proof (N x (or_introl eq_refl)) as NX.
  assert (NS : forall y, In y (fsort l) -> fisnan y = false) by (intros y Hy; apply N; right; apply (Permutation_in _ (fsort_perm l)); exact Hy).
  assert (D : x = minf \/ In minf l) by (destruct I as [I|I]; auto). destruct (fsort l) as [|y m] eqn:E.
  - destruct D as [-> |D]; [reflexivity|]. apply (Permutation_in _ (Permutation_sym (fsort_perm l))) in D. rewrite E in D. destruct D.
  - cbn [finsert]. destruct (fle x y) eqn:L; cbn [nth].
    + destruct D as [D|D]; [exact D|]. specialize (IH (fun v H => N v (or_intror H)) D). cbn [nth] in IH. subst y. destruct x as [s|[|]| |[|] q e p]; try discriminate L; reflexivity.
    + destruct D as [-> |D]; [|apply (IH (fun v H => N v (or_intror H)) D)]. specialize (NS y (or_introl eq_refl)). destruct y as [s|[|]| |[|] q e p]; try discriminate L; try discriminate NS.
Qed.
Lemma first_quantile_minf : forall a q, nth 0 a fnan = minf -> (1 <= length a)%nat -> Z.of_nat (length a) <= 2 ^ 50 -> ffin q = true -> f2R q = 0%R -> quantile1_64 a q = fnan.
Proof.
  intros a q H0 L L2 F E. unfold quantile1_64. cbv zeta. set (n1 := Z.of_nat (length a) - 1). assert (HL : 0 <= n1 <= 2 ^ 50) by (unfold n1; lia).
  destruct (hval (length a) HL q F ltac:(lra)) as (V & G & _). fold n1 in V, G. rewrite E, Rmult_0_r, rnd_0 in V. destruct (n1v (length a) HL) as [VN FN]. fold n1 in VN, FN.
  assert (NM : forall b t, lerp64 minf b t = fnan \/ b = pinf \/ ffin b = true) by (intros [s|[|]| |s m x y] t; auto; left; unfold lerp64; cbv zeta; cbn [fminus Bminus]; destruct (fle fhalf t); destruct t as [s|[|]| |s m x y]; reflexivity).
  destruct (fle (ofZ n1) (fmult (ofZ n1) q)) eqn:C.
  - apply (proj1 (fle_spec _ _ FN G)) in C. rewrite VN, V in C. apply le_IZR in C. replace (Z.to_nat n1) with 0%nat by lia. rewrite H0. destruct (NM minf (fminus (fmult (ofZ n1) q) (ofZ (-1)))) as [X|[X|X]]; [exact X|discriminate X|discriminate X].
  - rewrite btrunc_floor by lra. rewrite V, (Zfloor_IZR 0). change (Z.to_nat 0) with 0%nat. rewrite H0. set (b := nth _ a fnan). set (t := fminus _ (ofZ 0)). destruct (NM b t) as [X|X]; [exact X|].
    assert (T0 : f2R t = 0%R /\ ffin t = true). { destruct (ofZ_spec 0) as [Z1 Z2]; [lia|]. destruct (fminus_spec (fmult (ofZ n1) q) (ofZ 0) 0 G Z2 ltac:(lia)) as [A B]; [rewrite V, Z1, Rminus_eq_0, Rabs_R0; apply bpow_ge_0|]. split; [unfold t; rewrite A, V, Z1, Rminus_eq_0; apply rnd_0|exact B]. }
    destruct T0 as [T0 TF]. assert (TZ : exists s, t = B754_zero s). { destruct t as [s|s| |s m x y]; try discriminate TF; [exists s; reflexivity|exfalso]. unfold f2R in T0. cbn [B2R] in T0. destruct s; [assert (F2R (Float radix2 (- Zpos m) x) < 0)%R by (apply F2R_lt_0; cbn; lia)|assert (0 < F2R (Float radix2 (Zpos m) x))%R by (apply F2R_gt_0; cbn; lia)]; cbn [cond_Zopp] in T0; lra. }
    destruct TZ as (s & ->). unfold lerp64. cbv zeta. replace (fle fhalf (B754_zero s)) with false by (destruct s; vm_compute; reflexivity).
    assert (DP : fminus b minf = pinf) by (destruct X as [-> |X]; [reflexivity|apply minus_minf; exact X]). rewrite DP. destruct s; reflexivity.
Qed.
(** the first edge is NaN: bin 1 does not exist, and every record that is not above a later edge is underflow, whatever the other values are *)
Theorem C115_minus_infinity : forall arr n, In minf arr -> 1 <= n <= 2 ^ 40 -> Z.of_nat (length arr) <= 2 ^ 50 ->
  exists e, bin_edges np_quantile64 arr n true = Ok e /\ length e = (Z.to_nat n + 1)%nat /\ fisnan (nth 0 e fzero) = true /\
    ~ In (CInt 1) (fst (bin_array arr e)) /\ ~ In (CInt 1) (fst (bin_array_np arr e)) /\
    forall k v, nth_error arr k = Some v -> fisnan v = false -> (forall i, (1 <= i <= Z.to_nat n)%nat -> flt (nth i e fnan) v = false) ->
      nth_error (fst (bin_array arr e)) k = Some (CStr "UF"%string) /\ nth_error (fst (bin_array_np arr e)) k = Some (CStr "UF"%string).
Proof.
  intros arr n I HN LEN. destruct (points n HN) as (q & PE & LQ & PQ & _ & Q0 & _). set (vals := filter (fun v => negb (fisnan v)) arr). assert (IV : In minf vals) by (apply filter_In; split; [exact I|reflexivity]).
  assert (NV : forall v, In v vals -> fisnan v = false) by (intros v Hv; apply filter_In in Hv; apply negb_true_iff, Hv).
  assert (N1 : np_quantile64 vals n = map (quantile1_64 (fsort vals)) q). { unfold np_quantile64, quantiles_with. rewrite PE. destruct vals; [destruct IV|reflexivity]. }
  assert (LV : (1 <= length (fsort vals) <= length arr)%nat). { rewrite (Permutation_length (fsort_perm vals)). split; [destruct vals; [destruct IV|cbn [length]; lia]|unfold vals; clear; induction arr as [|x l IH]; cbn [filter length]; [lia|destruct (negb _); cbn [length]; lia]]. }
  destruct q as [|q0 qs]; [cbn in LQ; lia|]. destruct (PQ 0%nat ltac:(lia)) as (F0 & _). cbn [nth] in F0, Q0.
  assert (X : quantile1_64 (fsort vals) q0 = fnan) by (apply first_quantile_minf; [apply fsort_minf; assumption|lia|lia|exact F0|exact Q0]).
  exists (fnan :: map (quantile1_64 (fsort vals)) qs). split; [unfold bin_edges; fold vals; rewrite N1; cbn [map]; rewrite X; reflexivity|]. set (e := fnan :: _). split; [unfold e; cbn [length] in *; rewrite map_length; lia|]. split; [reflexivity|].
  assert (NB : forall f, binned f -> (forall c, In c (fst (f arr e)) -> exists k v, nth_error arr k = Some v /\ nth_error (fst (f arr e)) k = Some c) -> ~ In (CInt 1) (fst (f arr e))).
  { intros f B G H. destruct (G _ H) as (k & v & Hk & Hc). destruct (B arr e k v Hk) as (r & (R1 & R2 & R3) & C). rewrite Hc in C. injection C as C. unfold bin1r in C. destruct (fisnan v) eqn:N; [discriminate C|]. destruct (Nat.eqb r 0); [discriminate C|]. destruct (Nat.eqb r (length e)); [discriminate C|]. injection C as C. assert (r = 1%nat) by lia. subst r.
    destruct R2 as [R2|R2]; [discriminate R2|]. cbn [Nat.sub nth e] in R2. unfold npless in R2. rewrite N in R2. cbn [andb] in R2. rewrite orb_false_r in R2. destruct (flt_nan _ _ R2) as [Y _]. discriminate Y. }
  assert (GL : forall f, length (fst (f arr e)) = length arr -> forall c, In c (fst (f arr e) : list cell) -> exists k v, nth_error arr k = Some v /\ nth_error (fst (f arr e : list cell * list (f64 * f64))) k = Some c).
  { intros f LL c Hc. destruct (In_nth_error _ _ Hc) as (k & Hk). destruct (nth_error arr k) as [v|] eqn:Hv; [exists k, v; auto|exfalso]. apply nth_error_None in Hv. assert (k < length (fst (f arr e)))%nat by (apply nth_error_Some; congruence). lia. }
  assert (L1 : length (fst (bin_array arr e)) = length arr) by (rewrite bin_array_fst; apply map_length).
  assert (L2 : length (fst (bin_array_np arr e)) = length arr). { rewrite bin_array_np_fst, map_length, combine_length. assert (LN : forall l idx, Forall2 (fits e) l idx -> length idx = length l) by (induction 1; cbn [length]; congruence). rewrite (LN _ _ (np_fits e arr)). apply Nat.min_id. }
  split; [apply (NB bin_array binned_one (GL bin_array L1))|]. split; [apply (NB bin_array_np binned_np (GL bin_array_np L2))|].
  intros k v Hk N H. assert (HA : forall x, In x e -> flt x v = false). { intros x Hx. destruct (In_nth e x fnan Hx) as (i & Hi & <-). destruct i as [|i]; [cbn [nth e]; destruct v; reflexivity|]. apply H. unfold e in Hi. cbn [length] in Hi, LQ. rewrite map_length in Hi. lia. }
  destruct (binned_one arr e k v Hk) as (r & F1 & C1). destruct (binned_np arr e k v Hk) as (s & F2 & C2). rewrite C1, C2, (no_index e v r F1 N HA), (no_index e v s F2 N HA). unfold bin1r. rewrite N. split; reflexivity.
Qed.
Theorem C115_minus_infinity_records : forall arr n e k, In minf arr -> 1 <= n <= 2 ^ 40 -> Z.of_nat (length arr) <= 2 ^ 50 -> bin_edges np_quantile64 arr n true = Ok e -> nth_error arr k = Some minf ->
  nth_error (fst (bin_array arr e)) k = Some (CStr "UF"%string) /\ nth_error (fst (bin_array_np arr e)) k = Some (CStr "UF"%string).
Proof.
  intros arr n e k I HN LEN E Hk. destruct (C115_minus_infinity arr n I HN LEN) as (e' & E' & _ & _ & _ & _ & H). rewrite E in E'. injection E' as <-. apply (H k minf Hk eq_refl). intros i _. destruct (nth i e fnan) as [s|[|]| |[|] m x y]; reflexivity.
Qed.
Definition cells_of (n : Z) (arr : list f64) : res (list cell) := rmap (fun e => fst (bin_array arr e)) (bin_edges np_quantile64 arr n true).
Theorem C115_example :
  cells_of 2 [ofZ 4; ofZ 1; ofZ 3; ofZ 2] = Ok [CInt 2; CInt 1; CInt 2; CInt 1] /\
  cells_of 2 [pinf; ofZ 1; ofZ 3; ofZ 2] = Ok [CInt 2; CInt 1; CInt 2; CInt 1] /\
  cells_of 4 [pinf; ofZ 1; pinf; ofZ 2; ofZ 3; fnan] = Ok [CInt 2; CInt 1; CInt 2; CInt 1; CInt 2; CNaN] /\
  cells_of 4 [ofZ 11; ofZ 1; ofZ 10; ofZ 2; ofZ 3; fnan] = Ok [CInt 4; CInt 1; CInt 3; CInt 1; CInt 2; CNaN] /\
  cells_of 2 [ofZ 4; minf; ofZ 3; ofZ 2] = Ok [CInt 2; CStr "UF"; CInt 2; CStr "UF"]%string /\
  cells_of 1 [ofZ 4; minf; ofZ 3; ofZ 2] = Ok [CStr "UF"; CStr "UF"; CStr "UF"; CStr "UF"]%string.
Proof. vm_compute. repeat split; reflexivity. Qed.
Print Assumptions C115_plus_infinity. Print Assumptions C115_minus_infinity. Print Assumptions C115_example.
