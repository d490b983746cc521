(** C90: the quantile edges in binary64. *)
From Coq Require Import String ZArith List Bool Reals Lia Lra Psatz Permutation.
Import ListNotations.
From Flocq Require Import Core BinarySingleNaN.
From Verif Require Import F64 Base Cells RSum FOrder BinModel SpecBin LinspaceProofs PropsBin BrentFModel BrentFProofs Chi2FModel SpecChi2F Chi2FProofs QuantileFModel QuantileFProofs SpecQuant QuantileFProofs2 PropsBin2.
Open Scope R_scope.

(** the points np.linspace(0, 1, n + 1) *)
Lemma points : forall n, (1 <= n <= 2 ^ 40)%Z -> exists q, linspace fzero fone (n + 1) = Ok q /\ length q = (Z.to_nat n + 1)%nat /\
  (forall k, (k <= Z.to_nat n)%nat -> ffin (nth k q fnan) = true /\ 0 <= f2R (nth k q fnan) <= 1 /\ Rabs (f2R (nth k q fnan) - INR k / IZR n) <= b2 (-50)) /\
  (forall i j, (i <= j <= Z.to_nat n)%nat -> f2R (nth i q fnan) <= f2R (nth j q fnan)) /\
  f2R (nth 0 q fnan) = 0 /\ f2R (nth (Z.to_nat n) q fnan) = 1.
Proof.
  intros n Hn. destruct fone_val as [OV OF]. assert (ZV : f2R fzero = 0) by reflexivity. assert (ZF : ffin fzero = true) by reflexivity.
  assert (P1 : (1 <= n <= 2 ^ 50)%Z) by (change (2 ^ 50)%Z with 1125899906842624%Z; change (2 ^ 40)%Z with 1099511627776%Z in Hn; lia).
  assert (BZ : Rabs (f2R fzero) <= b2 1022) by (rewrite ZV, Rabs_R0; apply bpow_ge_0).
  assert (BO : Rabs (f2R fone) <= b2 1022) by (rewrite OV, Rabs_R1; change 1 with (b2 0); apply bpow_le; lia).
  assert (G : f2R fone = f2R fzero \/ b2 (-49) <= f2R fone - f2R fzero) by (right; rewrite OV, ZV, Rminus_0_r; change 1 with (b2 0); apply bpow_le; lia).
  assert (L : f2R fzero <= f2R fone) by (rewrite ZV, OV; lra).
  destruct (linspace_spec fzero fone n P1 ZF OF L BZ BO G) as (q & E & LQ & FQ & AQ & Q0 & QN).
  pose proof (linspace_near fzero fone n P1 ZF OF L BZ BO G q E) as NQ. rewrite ZV, OV in NQ. rewrite ZV in Q0.
  exists q. split; [exact E|]. split; [exact LQ|].
  assert (QN' : f2R (nth (Z.to_nat n) q fnan) = 1) by (rewrite QN; exact OV).
  assert (M : forall i j, (i <= j <= Z.to_nat n)%nat -> f2R (nth i q fnan) <= f2R (nth j q fnan)).
  { intros i j H. assert (A := AQ i j ltac:(lia)). apply fle_spec in A; [exact A|apply FQ; lia|apply FQ; lia]. }
  split; [|split; [exact M|split; [exact Q0|exact QN']]].
  intros k Hk. split; [apply FQ; lia|]. split; [split; [rewrite <- Q0; apply M; lia|rewrite <- QN'; apply M; lia]|].
  specialize (NQ k Hk). rewrite Rabs_R0, Rabs_R1, Rplus_0_l, Rplus_0_l, Rminus_0_r, Rmult_1_r in NQ. replace (INR k / IZR n) with (INR k * (1 / IZR n)) by (unfold Rdiv; ring). exact NQ.
Qed.

Section Quant.
  Variable vals : list f64.
  Variable n : Z.
  Hypothesis HN : (1 <= n <= 2 ^ 40)%Z.
  Hypothesis HV : (1 <= Z.of_nat (length vals) <= 2 ^ 50)%Z.
  Hypothesis OKV : forall x, In x vals -> ok64 x.
  Let a := fsort vals.
  Let n1 := (Z.of_nat (length a) - 1)%Z.
  Lemma a_len : length a = length vals. Proof. apply Permutation_length, fsort_perm. Qed.
  Lemma a_ok : forall x, In x a -> ok64 x.
  Proof. intros x H. apply OKV. apply (Permutation_in _ (fsort_perm vals)). exact H. Qed.
  Lemma a_sorted : sorted64 a.
  Proof. apply fsort_sorted. intros y Hy. apply OKV, Hy. Qed.
  Lemma n1_rng : (0 <= n1 <= 2 ^ 50)%Z.
  Proof. unfold n1. rewrite a_len. lia. Qed.
  Lemma nR : 1 <= IZR n <= 1099511627776.
  Proof. split; [apply (IZR_le 1); lia|apply (IZR_le n 1099511627776); exact (proj2 HN)]. Qed.
  (** neighbouring points are far apart compared with the rounding of the position *)
  Lemma pos_gap : forall q1 q2 k, ffin q1 = true -> ffin q2 = true -> 0 <= f2R q1 <= 1 -> 0 <= f2R q2 <= 1 ->
    Rabs (f2R q1 - INR k / IZR n) <= b2 (-50) -> Rabs (f2R q2 - INR (S k) / IZR n) <= b2 (-50) -> n1 = 0%Z \/ hh a q1 + b2 (-41) <= hh a q2.
  Proof.
    intros q1 q2 k F1 F2 B1 B2 N1 N2. destruct (Z.eq_dec n1 0) as [->|NZ]; [left; reflexivity|right]. pose proof n1_rng as R1. pose proof nR as RN.
    assert (NN : 1 <= IZR n1 <= 1125899906842624) by (split; [apply (IZR_le 1); lia|apply (IZR_le n1 1125899906842624); exact (proj2 R1)]).
    unfold hh. fold n1. pose proof (rnd_err (IZR n1 * f2R q1)) as E1. pose proof (rnd_err (IZR n1 * f2R q2)) as E2.
    assert (M1 : 0 <= IZR n1 * f2R q1 <= IZR n1) by (split; [apply Rmult_le_pos; lra|apply Rle_trans with (IZR n1 * 1); [apply Rmult_le_compat_l; lra|lra]]).
    assert (M2 : 0 <= IZR n1 * f2R q2 <= IZR n1) by (split; [apply Rmult_le_pos; lra|apply Rle_trans with (IZR n1 * 1); [apply Rmult_le_compat_l; lra|lra]]).
    rewrite (Rabs_pos_eq (IZR n1 * f2R q1)) in E1 by lra. rewrite (Rabs_pos_eq (IZR n1 * f2R q2)) in E2 by lra. apply Rabs_le_inv in E1. apply Rabs_le_inv in E2. apply Rabs_le_inv in N1. apply Rabs_le_inv in N2.
    change (b2 (-50)) with (/ 1125899906842624) in *. change (b2 (-41)) with (/ 2199023255552).
    assert (ET : eta0 <= / 1152921504606846976) by (unfold eta0; apply Rle_trans with (b2 (-60)); [apply bpow_le; lia|right; reflexivity]).
    assert (G : / 1099511627776 <= / IZR n) by (apply Rinv_le_contravar; lra).
    assert (D : INR (S k) / IZR n = INR k / IZR n + / IZR n) by (rewrite S_INR; unfold Rdiv; ring). rewrite D in N2.
    assert (GQ : / 1099511627776 - 2 * / 1125899906842624 <= f2R q2 - f2R q1) by lra.
    assert (GM : IZR n1 * (/ 1099511627776 - 2 * / 1125899906842624) <= IZR n1 * f2R q2 - IZR n1 * f2R q1) by (rewrite <- Rmult_minus_distr_l; apply Rmult_le_compat_l; lra).
    unfold u53 in *. lra.
  Qed.

  Lemma quant_all : forall lo hi, (forall x, In x vals -> f2R lo <= f2R x <= f2R hi) -> In lo vals -> In hi vals -> quantiles_ok (np_quantile64 vals n) n lo hi.
  Proof.
    intros lo hi B IL IH. destruct (points n HN) as (q & E & LQ & PQ & MQ & Q0 & QN).
    assert (EQ : np_quantile64 vals n = map (quantile1_64 a) q). { unfold np_quantile64, quantiles_with. rewrite E. destruct vals as [|x v]; [destruct IL|reflexivity]. }
    rewrite EQ. pose proof a_sorted as SA. pose proof a_ok as OA. pose proof n1_rng as R1.
    assert (NT : forall k, (k <= Z.to_nat n)%nat -> nth k (map (quantile1_64 a) q) fnan = quantile1_64 a (nth k q fnan)).
    { intros k Hk. rewrite nth_indep with (d' := quantile1_64 a fnan) by (rewrite map_length; lia). apply map_nth. }
    assert (FN : forall k, (k <= Z.to_nat n)%nat -> ffin (nth k (map (quantile1_64 a) q) fnan) = true).
    { intros k Hk. rewrite NT by exact Hk. destruct (PQ k Hk) as (A & C & _). apply (one_view a SA OA R1 _ A C). }
    assert (LA : (0 < length a)%nat) by (rewrite a_len; lia).
    assert (EX : forall k, (k < length a)%nat -> f2R lo <= f2R (nth k a fnan) <= f2R hi) by (intros k Hk; apply B, (Permutation_in _ (fsort_perm vals)), nth_In, Hk).
    assert (IN : forall x, In x vals -> exists k, (k < length a)%nat /\ nth k a fnan = x) by (intros x Hx; apply In_nth; apply (Permutation_in _ (Permutation_sym (fsort_perm vals))), Hx).
    unfold quantiles_ok. rewrite map_length. split; [exact LQ|]. split; [|split; [|split]].
    - intros i j H. rewrite map_length in H.
      assert (ST : forall m k, (k + m <= Z.to_nat n)%nat -> f2R (nth k (map (quantile1_64 a) q) fnan) <= f2R (nth (k + m) (map (quantile1_64 a) q) fnan)).
      { induction m as [|m IHm]; intros k Hk; [rewrite Nat.add_0_r; lra|]. apply Rle_trans with (1 := IHm k ltac:(lia)). replace (k + S m)%nat with (S (k + m)) by lia.
        rewrite !NT by lia. destruct (PQ (k + m)%nat ltac:(lia)) as (A1 & A2 & A3). destruct (PQ (S (k + m)) ltac:(lia)) as (B1 & B2 & B3).
        apply (one_mono a SA OA R1); try assumption; try lra; [apply MQ; lia|]. apply (pos_gap _ _ (k + m)); assumption. }
      apply fle_spec; [apply FN; lia|apply FN; lia|]. replace j with (i + (j - i))%nat by lia. apply ST. lia.
    - intros x Hx. destruct (In_nth _ _ fnan Hx) as (k & Hk & <-). rewrite map_length in Hk. apply FN. lia.
    - rewrite NT by lia. destruct (PQ 0%nat ltac:(lia)) as (A1 & _ & _). rewrite (one_first a SA OA R1 _ A1 Q0). apply Rle_antisym; [|apply EX; lia].
      destruct (IN lo IL) as (k & Hk & <-). apply sorted_nth; [exact SA|lia].
    - rewrite NT by lia. destruct (PQ (Z.to_nat n) ltac:(lia)) as (A1 & _ & _). rewrite (one_last a SA OA R1 _ A1 QN). fold n1. apply Rle_antisym; [apply EX; unfold n1; lia|].
      destruct (IN hi IH) as (k & Hk & <-). apply sorted_nth; [exact SA|unfold n1; lia].
  Qed.
End Quant.

Section Err.
  Variable vals : list f64.
  Variable n : Z.
  Hypothesis HN : (1 <= n <= 2 ^ 40)%Z.
  Hypothesis HV : (1 <= Z.of_nat (length vals) <= 2 ^ 50)%Z.
  Hypothesis OKV : forall x, In x vals -> ok64 x.
  Let a := fsort vals.
  Let n1 := (Z.of_nat (length a) - 1)%Z.
  Let s := map f2R a.
  Let lo := nth 0 s 0.
  Let hi := nth (length s - 1) s 0.
  Lemma s_len : length s = length a. Proof. apply map_length. Qed.
  Lemma s_nth : forall k, (k < length a)%nat -> nth k s 0 = f2R (nth k a fnan).
  Proof. intros k H. unfold s. rewrite nth_indep with (d' := f2R fnan) by (rewrite map_length; exact H). apply map_nth. Qed.
  Lemma s_sorted : forall i j, (i <= j < length s)%nat -> nth i s 0 <= nth j s 0.
  Proof. intros i j H. rewrite s_len in H. rewrite !s_nth by lia. apply sorted_nth; [apply a_sorted; exact OKV|exact H]. Qed.
  Lemma s_rng : forall k, (k < length a)%nat -> lo <= nth k s 0 <= hi.
  Proof. intros k H. unfold lo, hi. split; apply s_sorted; rewrite s_len; lia. Qed.
  Lemma edge_err : forall q k, ffin q = true -> 0 <= f2R q <= 1 -> Rabs (f2R q - INR k / IZR n) <= b2 (-50) -> (k <= Z.to_nat n)%nat ->
    Rabs (f2R (quantile1_64 a q) - at_pos s (IZR n1 * (INR k / IZR n))) <= (IZR n1 * b2 (-49) + b2 (-50)) * (hi - lo) + b2 (-52) * (Rabs lo + Rabs hi) + b2 (-1073).
  Proof.
    intros q k F H NQ Hk. pose proof (a_sorted vals OKV) as SA. pose proof (a_ok vals OKV) as OA. assert (R1 := n1_rng vals HV). fold a in SA, OA, R1. fold n1 in R1. assert (RN : 1 <= IZR n <= 1099511627776) by (split; [apply (IZR_le 1); exact (proj1 HN)|apply (IZR_le n 1099511627776); exact (proj2 HN)]).
    assert (NN : 0 <= IZR n1 <= 1125899906842624) by (split; [apply (IZR_le 0); lia|apply (IZR_le n1 1125899906842624); exact (proj2 R1)]).
    assert (LA : (0 < length a)%nat) by (unfold a; rewrite a_len; lia). pose proof (s_rng 0%nat LA) as [RG0 RG1]. fold lo in RG1. clear RG0.
    assert (K0 : 0 <= INR k / IZR n <= 1). { pose proof (pos_INR k). assert (INR k <= IZR n) by (rewrite INR_IZR_INZ; apply IZR_le; lia). split; [apply Rmult_le_pos; [lra|left; apply Rinv_0_lt_compat; lra]|]. apply Rmult_le_reg_r with (IZR n); [lra|]. unfold Rdiv. rewrite Rmult_assoc, Rinv_l by lra. lra. }
    assert (ET0 : 0 < eta0) by (unfold eta0; apply bpow_gt_0). assert (ET : eta0 <= / 1152921504606846976) by (unfold eta0; apply Rle_trans with (b2 (-60)); [apply bpow_le; lia|right; reflexivity]).
    destruct (h_val a R1 q F H) as (_ & _ & HB). fold n1 in HB.
    (* the position *)
    assert (EP : Rabs (hh a q - IZR n1 * (INR k / IZR n)) <= IZR n1 * b2 (-49)).
    { destruct (Z.eq_dec n1 0) as [Z|NZ].
      - unfold hh. fold n1. rewrite Z, !Rmult_0_l, rnd_0, Rminus_0_r, Rabs_R0. lra.
      - assert (1 <= IZR n1) by (apply (IZR_le 1); lia). pose proof (rnd_err (IZR n1 * f2R q)) as E1. assert (M1 : 0 <= IZR n1 * f2R q <= IZR n1) by (split; [apply Rmult_le_pos; lra|apply Rle_trans with (IZR n1 * 1); [apply Rmult_le_compat_l; lra|lra]]).
        rewrite (Rabs_pos_eq (IZR n1 * f2R q)) in E1 by lra. unfold hh. fold n1. replace (rnd (IZR n1 * f2R q) - IZR n1 * (INR k / IZR n)) with ((rnd (IZR n1 * f2R q) - IZR n1 * f2R q) + IZR n1 * (f2R q - INR k / IZR n)) by ring.
        eapply Rle_trans; [apply Rabs_triang|]. rewrite Rabs_mult, (Rabs_pos_eq (IZR n1)) by lra. assert (E2 : IZR n1 * Rabs (f2R q - INR k / IZR n) <= IZR n1 * b2 (-50)) by (apply Rmult_le_compat_l; lra).
        change (b2 (-50)) with (/ 1125899906842624) in *. change (b2 (-49)) with (/ 562949953421312). unfold u53 in *. lra. }
    assert (MV : Rabs (at_pos s (hh a q) - at_pos s (IZR n1 * (INR k / IZR n))) <= IZR n1 * b2 (-49) * (hi - lo)).
    { eapply Rle_trans; [apply at_lip_abs; [exact s_sorted|apply Rmult_le_pos; lra|lra]|]. fold lo hi. apply Rmult_le_compat_r; [lra|exact EP]. }
    assert (RE : b2 (-1073) = 4 * eta0) by (unfold eta0; change (-1073)%Z with (2 + -1075)%Z; rewrite bpow_plus; reflexivity). rewrite RE.
    assert (UU : b2 (-50) = 8 * u53) by (unfold u53; change (b2 (-50)) with (/ 1125899906842624); lra). rewrite UU. assert (U2 : b2 (-52) = 2 * u53) by (unfold u53; change (b2 (-52)) with (/ 4503599627370496); lra). rewrite U2.
    assert (UP : 0 < u53) by (unfold u53; lra). assert (UR : 0 <= u53 * (hi - lo)) by (apply Rmult_le_pos; lra). assert (UM : 0 <= u53 * (Rabs lo + Rabs hi)) by (apply Rmult_le_pos; [lra|pose proof (Rabs_pos lo); pose proof (Rabs_pos hi); lra]).
    assert (VE : Rabs (f2R (quantile1_64 a q) - at_pos s (hh a q)) <= 8 * u53 * (hi - lo) + 2 * u53 * (Rabs lo + Rabs hi) + 4 * eta0).
    { destruct (one_view a SA OA R1 q F H) as [_ [[E V]|(j & L & B & T & V)]].
      - fold n1 in E, V. assert (HL : hh a q = INR (length s - 1)). { rewrite E, INR_IZR_INZ. f_equal. unfold n1. rewrite s_len. lia. }
        rewrite HL, at_last by (intros X; apply (f_equal (@length R)) in X; rewrite s_len in X; cbn [length] in X; lia). rewrite s_len, s_nth by lia. rewrite V. replace (Z.to_nat n1) with (length a - 1)%nat by (unfold n1; lia). rewrite Rminus_eq_0, Rabs_R0. lra.
      - rewrite (at_nth s j) by (try rewrite s_len; try lia; lra). rewrite !s_nth by lia. rewrite V. replace (S j) with (j + 1)%nat by lia. set (x := f2R (nth j a fnan)) in *. set (y := f2R (nth (j + 1) a fnan)) in *. set (t := rnd (hh a q - INR j)) in *.
        assert (X0 : lo <= x <= hi) by (unfold x; rewrite <- s_nth by lia; apply s_rng; lia). assert (Y0 : lo <= y <= hi) by (unfold y; rewrite <- s_nth by lia; apply s_rng; lia).
        assert (XY : x <= y) by (apply sorted_nth; [exact SA|lia]).
        pose proof (lerp_err x y t (fmt_B2R _) (fmt_B2R _) (fmt_rnd _) XY T) as E1.
        pose proof (rnd_err (hh a q - INR j)) as E2. fold t in E2. rewrite (Rabs_pos_eq (hh a q - INR j)) in E2 by lra.
        assert (E3 : Rabs (t - (hh a q - INR j)) <= 2 * u53) by (assert (u53 * (hh a q - INR j) <= u53 * 1) by (apply Rmult_le_compat_l; lra); assert (eta0 <= u53) by (unfold u53; lra); lra).
        replace (lerpR x y t - (x + (hh a q - INR j) * (y - x))) with ((lerpR x y t - (x + t * (y - x))) + (t - (hh a q - INR j)) * (y - x)) by ring.
        eapply Rle_trans; [apply Rabs_triang|]. rewrite Rabs_mult, (Rabs_pos_eq (y - x)) by lra.
        assert (E4 : Rabs (t - (hh a q - INR j)) * (y - x) <= 2 * u53 * (y - x)) by (apply Rmult_le_compat_r; lra).
        assert (E5 : u53 * (y - x) <= u53 * (hi - lo)) by (apply Rmult_le_compat_l; lra).
        assert (AB : forall z, lo <= z <= hi -> Rabs z <= Rabs lo + Rabs hi) by (intros z Hz; pose proof (Rle_abs (- lo)); pose proof (Rle_abs hi); pose proof (Rabs_pos lo); pose proof (Rabs_pos hi); rewrite Rabs_Ropp in *; apply Rabs_le; lra).
        assert (E6 : u53 * (Rabs x + Rabs y) <= u53 * (2 * (Rabs lo + Rabs hi))) by (apply Rmult_le_compat_l; [lra|pose proof (AB x X0); pose proof (AB y Y0); lra]). lra. }
    replace (f2R (quantile1_64 a q) - at_pos s (IZR n1 * (INR k / IZR n))) with ((f2R (quantile1_64 a q) - at_pos s (hh a q)) + (at_pos s (hh a q) - at_pos s (IZR n1 * (INR k / IZR n)))) by ring. eapply Rle_trans; [apply Rabs_triang|]. lra.
  Qed.
  Lemma edge_err_old : forall q k, ffin q = true -> 0 <= f2R q <= 1 -> Rabs (f2R q - INR k / IZR n) <= b2 (-50) -> (k <= Z.to_nat n)%nat ->
    Rabs (f2R (quantile1_old a q) - at_pos s (IZR n1 * (INR k / IZR n))) <= (IZR n1 * b2 (-49) + b2 (-50)) * (hi - lo) + b2 (-50) * (Rabs lo + Rabs hi) + b2 (-1072).
  Proof.
    intros q k F H NQ Hk. pose proof (a_sorted vals OKV) as SA. pose proof (a_ok vals OKV) as OA. assert (R1 := n1_rng vals HV). fold a in SA, OA, R1. fold n1 in R1. assert (RN : 1 <= IZR n <= 1099511627776) by (split; [apply (IZR_le 1); exact (proj1 HN)|apply (IZR_le n 1099511627776); exact (proj2 HN)]).
    assert (NN : 0 <= IZR n1 <= 1125899906842624) by (split; [apply (IZR_le 0); lia|apply (IZR_le n1 1125899906842624); exact (proj2 R1)]).
    assert (LA : (0 < length a)%nat) by (unfold a; rewrite a_len; lia). pose proof (s_rng 0%nat LA) as [RG0 RG1]. fold lo in RG1. clear RG0.
    assert (K0 : 0 <= INR k / IZR n <= 1). { pose proof (pos_INR k). assert (INR k <= IZR n) by (rewrite INR_IZR_INZ; apply IZR_le; lia). split; [apply Rmult_le_pos; [lra|left; apply Rinv_0_lt_compat; lra]|]. apply Rmult_le_reg_r with (IZR n); [lra|]. unfold Rdiv. rewrite Rmult_assoc, Rinv_l by lra. lra. }
    assert (ET0 : 0 < eta0) by (unfold eta0; apply bpow_gt_0). assert (ET : eta0 <= / 1152921504606846976) by (unfold eta0; apply Rle_trans with (b2 (-60)); [apply bpow_le; lia|right; reflexivity]).
    destruct (h_val a R1 q F H) as (_ & _ & HB). fold n1 in HB.
    (* the position *)
    assert (EP : Rabs (hh a q - IZR n1 * (INR k / IZR n)) <= IZR n1 * b2 (-49)).
    { destruct (Z.eq_dec n1 0) as [Z|NZ].
      - unfold hh. fold n1. rewrite Z, !Rmult_0_l, rnd_0, Rminus_0_r, Rabs_R0. lra.
      - assert (1 <= IZR n1) by (apply (IZR_le 1); lia). pose proof (rnd_err (IZR n1 * f2R q)) as E1. assert (M1 : 0 <= IZR n1 * f2R q <= IZR n1) by (split; [apply Rmult_le_pos; lra|apply Rle_trans with (IZR n1 * 1); [apply Rmult_le_compat_l; lra|lra]]).
        rewrite (Rabs_pos_eq (IZR n1 * f2R q)) in E1 by lra. unfold hh. fold n1. replace (rnd (IZR n1 * f2R q) - IZR n1 * (INR k / IZR n)) with ((rnd (IZR n1 * f2R q) - IZR n1 * f2R q) + IZR n1 * (f2R q - INR k / IZR n)) by ring.
        eapply Rle_trans; [apply Rabs_triang|]. rewrite Rabs_mult, (Rabs_pos_eq (IZR n1)) by lra. assert (E2 : IZR n1 * Rabs (f2R q - INR k / IZR n) <= IZR n1 * b2 (-50)) by (apply Rmult_le_compat_l; lra).
        change (b2 (-50)) with (/ 1125899906842624) in *. change (b2 (-49)) with (/ 562949953421312). unfold u53 in *. lra. }
    assert (MV : Rabs (at_pos s (hh a q) - at_pos s (IZR n1 * (INR k / IZR n))) <= IZR n1 * b2 (-49) * (hi - lo)).
    { eapply Rle_trans; [apply at_lip_abs; [exact s_sorted|apply Rmult_le_pos; lra|lra]|]. fold lo hi. apply Rmult_le_compat_r; [lra|exact EP]. }
    assert (RE : b2 (-1072) = 8 * eta0) by (unfold eta0; change (-1072)%Z with (3 + -1075)%Z; rewrite bpow_plus; reflexivity). rewrite RE.
    assert (UU : b2 (-50) = 8 * u53) by (unfold u53; change (b2 (-50)) with (/ 1125899906842624); lra). rewrite UU.
    assert (UP : 0 < u53) by (unfold u53; lra). assert (UR : 0 <= u53 * (hi - lo)) by (apply Rmult_le_pos; lra). assert (UM : 0 <= u53 * (Rabs lo + Rabs hi)) by (apply Rmult_le_pos; [lra|pose proof (Rabs_pos lo); pose proof (Rabs_pos hi); lra]).
    assert (VE : Rabs (f2R (quantile1_old a q) - at_pos s (hh a q)) <= 8 * u53 * (hi - lo) + 8 * u53 * (Rabs lo + Rabs hi) + 8 * eta0).
    { destruct (old_view a OA R1 q F H) as [_ (j & j' & L & L' & JJ & B & T & V)]. set (w := rnd (hh a q - INR j)) in *.
      assert (AP : at_pos s (hh a q) = nth j s 0 + (hh a q - INR j) * (nth j' s 0 - nth j s 0)).
      { destruct JJ as [->|[-> ->]].
        - replace (j + 1)%nat with (S j) in * by lia. apply at_nth; [rewrite s_len; exact L'|lra].
        - fold n1 in B, L. assert (NI : INR (Z.to_nat n1) = IZR n1) by (rewrite INR_IZR_INZ; f_equal; lia). fold n1. assert (E : hh a q = INR (Z.to_nat n1)) by lra. rewrite E, Rminus_eq_0, Rmult_0_l, Rplus_0_r. replace (Z.to_nat n1) with (length s - 1)%nat by (rewrite s_len; unfold n1; lia).
          apply at_last. intros X. apply (f_equal (@length R)) in X. rewrite s_len in X. cbn [length] in X. lia. }
      rewrite AP, V, !s_nth by assumption. set (x := f2R (nth j a fnan)) in *. set (y := f2R (nth j' a fnan)) in *.
      assert (X0 : lo <= x <= hi) by (unfold x; rewrite <- s_nth by assumption; apply s_rng; assumption). assert (Y0 : lo <= y <= hi) by (unfold y; rewrite <- s_nth by assumption; apply s_rng; assumption).
      assert (AB : forall z, lo <= z <= hi -> Rabs z <= Rabs lo + Rabs hi) by (intros z Hz; pose proof (Rle_abs (- lo)); pose proof (Rle_abs hi); pose proof (Rabs_pos lo); pose proof (Rabs_pos hi); rewrite Rabs_Ropp in *; apply Rabs_le; lra).
      pose proof (old_err x y w _ (fmt_rnd _) T (AB x X0) (AB y Y0)) as E1.
      pose proof (rnd_err (hh a q - INR j)) as E2. fold w in E2. rewrite (Rabs_pos_eq (hh a q - INR j)) in E2 by lra.
      assert (E3 : Rabs (w - (hh a q - INR j)) <= 2 * u53) by (assert (u53 * (hh a q - INR j) <= u53 * 1) by (apply Rmult_le_compat_l; lra); assert (eta0 <= u53) by (unfold u53; lra); lra).
      replace (rnd (rnd (x * rnd (1 - w)) + rnd (y * w)) - (x + (hh a q - INR j) * (y - x))) with ((rnd (rnd (x * rnd (1 - w)) + rnd (y * w)) - (x + w * (y - x))) + (w - (hh a q - INR j)) * (y - x)) by ring.
      eapply Rle_trans; [apply Rabs_triang|]. rewrite Rabs_mult. assert (YX : Rabs (y - x) <= hi - lo) by (apply Rabs_le; lra).
      assert (E4 : Rabs (w - (hh a q - INR j)) * Rabs (y - x) <= 2 * u53 * (hi - lo)) by (apply Rmult_le_compat; [apply Rabs_pos|apply Rabs_pos|exact E3|exact YX]). lra. }
    replace (f2R (quantile1_old a q) - at_pos s (IZR n1 * (INR k / IZR n))) with ((f2R (quantile1_old a q) - at_pos s (hh a q)) + (at_pos s (hh a q) - at_pos s (IZR n1 * (INR k / IZR n)))) by ring. eapply Rle_trans; [apply Rabs_triang|]. lra.
  Qed.
End Err.

Lemma clean_ok : forall arr lo hi, data_range arr lo hi -> (forall x, In x (filter (fun v => negb (fisnan v)) arr) -> ok64 x /\ f2R lo <= f2R x <= f2R hi) /\
  In lo (filter (fun v => negb (fisnan v)) arr) /\ In hi (filter (fun v => negb (fisnan v)) arr).
Proof.
  intros arr lo hi (A & B & C & D & E & F). split; [|split].
  - intros x Hx. apply filter_In in Hx. destruct Hx as [H1 H2]. apply negb_true_iff in H2. split; [apply A; assumption|apply F; assumption].
  - apply filter_In. split; [exact B|]. apply negb_true_iff, fin_not_nan, D.
  - apply filter_In. split; [exact C|]. apply negb_true_iff, fin_not_nan, E.
Qed.

(** C90: the quantiles numpy hands to the binning are n+1 finite edges that ascend from the smallest to the largest value *)
Theorem C90_quantiles_ascend : forall arr n lo hi,
  data_range arr lo hi -> (1 <= n <= 2 ^ 40)%Z -> (Z.of_nat (length (filter (fun v => negb (fisnan v)) arr)) <= 2 ^ 50)%Z ->
  quantiles_ok (np_quantile64 (filter (fun v => negb (fisnan v)) arr) n) n lo hi.
Proof.
  intros arr n lo hi HD HN HV. destruct (clean_ok arr lo hi HD) as (A & B & C). apply quant_all; try assumption.
  - destruct (filter _ arr); [destruct B|cbn [length] in *; lia].
  - intros x Hx. apply A, Hx.
  - intros x Hx. apply A, Hx.
Qed.
Print Assumptions C90_quantiles_ascend.

(** so the quantile edges put every value into a bin, except the smallest where 1e-14 is absorbed (C05, without a hypothesis on numpy) *)
Theorem C90_quantile_binning : forall arr n lo hi,
  data_range arr lo hi -> (1 <= n <= 2 ^ 40)%Z -> (Z.of_nat (length (filter (fun v => negb (fisnan v)) arr)) <= 2 ^ 50)%Z ->
  exists e, bin_edges np_quantile64 arr n true = Ok e /\ Forall2 (fun v c =>
      (fisnan v = true -> c = CNaN) /\
      (fisnan v = false -> f2R lo < f2R v \/ -128 < f2R lo <= 128 -> exists i, (1 <= i <= n)%Z /\ c = CInt i) /\
      (fisnan v = false -> f2R v = f2R lo -> ~ (-128 < f2R lo <= 128) -> c = CStr "UF"))
    arr (fst (bin_array arr e)).
Proof. intros arr n lo hi HD HN HV. apply C05_quantile_binning with hi; [exact HD|lia|apply C90_quantiles_ascend; assumption]. Qed.
Print Assumptions C90_quantile_binning.

(** and edge k is the exact k/n quantile up to rounding *)
Theorem C90_quantile_accuracy : forall arr n lo hi s k,
  data_range arr lo hi -> (1 <= n <= 2 ^ 40)%Z -> let vals := filter (fun v => negb (fisnan v)) arr in (Z.of_nat (length vals) <= 2 ^ 50)%Z ->
  sorted_form (map f2R vals) s -> (k <= Z.to_nat n)%nat ->
  let N := INR (length vals) - 1 in
  Rabs (f2R (nth k (np_quantile64 vals n) fnan) - at_pos s (N * (INR k / IZR n))) <=
    (N * bpow radix2 (-49) + bpow radix2 (-50)) * (f2R hi - f2R lo) + bpow radix2 (-52) * (Rabs (f2R lo) + Rabs (f2R hi)) + bpow radix2 (-1073).
Proof.
  intros arr n lo hi s k HD HN vals HV [SP SS] Hk N. destruct (clean_ok arr lo hi HD) as (A & B & C). fold vals in A, B, C.
  assert (HV' : (1 <= Z.of_nat (length vals) <= 2 ^ 50)%Z) by (destruct vals; [destruct B|cbn [length] in *; lia]).
  assert (OKV : forall x, In x vals -> ok64 x) by (intros x Hx; apply A, Hx).
  destruct (points n HN) as (q & E & LQ & PQ & MQ & Q0 & QN).
  assert (EQ : np_quantile64 vals n = map (quantile1_64 (fsort vals)) q). { unfold np_quantile64, quantiles_with. rewrite E. destruct vals as [|x v]; [destruct B|reflexivity]. }
  rewrite EQ, nth_indep with (d' := quantile1_64 (fsort vals) fnan) by (rewrite map_length; lia). rewrite map_nth. destruct (PQ k Hk) as (P1 & P2 & P3).
  pose proof (edge_err vals n HN HV' OKV (nth k q fnan) k P1 P2 P3 Hk) as X.
  assert (ES : s = map f2R (fsort vals)). { apply sorted_unique; [|exact SS|apply s_sorted; exact OKV]. apply Permutation_trans with (map f2R vals); [apply Permutation_sym; exact SP|]. apply Permutation_map, Permutation_sym, fsort_perm. }
  assert (LA : length (fsort vals) = length vals) by (apply Permutation_length, fsort_perm).
  assert (EN : IZR (Z.of_nat (length (fsort vals)) - 1) = N) by (rewrite LA, minus_IZR, <- INR_IZR_INZ; reflexivity).
  assert (IN : forall x, In x vals -> exists i, (i < length (fsort vals))%nat /\ nth i (fsort vals) fnan = x) by (intros x Hx; apply In_nth; apply (Permutation_in _ (Permutation_sym (fsort_perm vals))), Hx).
  assert (EXT : forall i, (i < length (fsort vals))%nat -> f2R lo <= f2R (nth i (fsort vals) fnan) <= f2R hi) by (intros i Hi; apply A; apply (Permutation_in _ (fsort_perm vals)), nth_In, Hi).
  assert (SA := a_sorted vals OKV).
  assert (ELO : nth 0 (map f2R (fsort vals)) 0 = f2R lo). { rewrite s_nth by (rewrite LA; lia). apply Rle_antisym; [|apply EXT; lia]. destruct (IN lo B) as (i & Hi & <-). apply sorted_nth; [exact SA|lia]. }
  assert (EHI : nth (length (map f2R (fsort vals)) - 1) (map f2R (fsort vals)) 0 = f2R hi). { rewrite map_length, s_nth by (rewrite LA; lia). apply Rle_antisym; [apply EXT; lia|]. destruct (IN hi C) as (i & Hi & <-). apply sorted_nth; [exact SA|lia]. }
  rewrite ELO, EHI, EN, <- ES in X. exact X.
Qed.
Print Assumptions C90_quantile_accuracy.

(** a column with a NaN meets the hypotheses; its three quantile edges *)
Example C90_hypotheses_met : data_range ex_arr (ofZ 200) (ofZ 300) /\ (Z.of_nat (length (filter (fun v => negb (fisnan v)) ex_arr)) <= 2 ^ 50)%Z /\
  sorted_form (map f2R (filter (fun v => negb (fisnan v)) ex_arr)) [200; 300] /\ at_pos [200; 300] (1 * (1 / 2)) = 250.
Proof.
  split; [exact C04_hypotheses_met|]. split; [vm_compute; discriminate|].
  assert (EF : filter (fun v => negb (fisnan v)) ex_arr = [ofZ 200; ofZ 300]) by reflexivity. rewrite EF. cbn [map]. rewrite (proj1 (ofZ_spec 200 ltac:(lia))), (proj1 (ofZ_spec 300 ltac:(lia))). split.
  - split; [apply Permutation_refl|]. intros i j H. cbn [length] in H. destruct i as [|[|i]]; destruct j as [|[|j]]; try lia; cbn [nth]; lra.
  - cbn [at_pos]. destruct (Rle_dec (1 * (1 / 2)) 1) as [E|E]; [lra|exfalso; lra].
Qed.

(** the quantiles of numpy 1.18 and 1.19 are as accurate ... *)
Theorem C90_old_accuracy : forall arr n lo hi s k,
  data_range arr lo hi -> (1 <= n <= 2 ^ 40)%Z -> let vals := filter (fun v => negb (fisnan v)) arr in (Z.of_nat (length vals) <= 2 ^ 50)%Z ->
  sorted_form (map f2R vals) s -> (k <= Z.to_nat n)%nat ->
  let N := INR (length vals) - 1 in
  Rabs (f2R (nth k (np_quantile_old vals n) fnan) - at_pos s (N * (INR k / IZR n))) <=
    (N * bpow radix2 (-49) + bpow radix2 (-50)) * (f2R hi - f2R lo) + bpow radix2 (-50) * (Rabs (f2R lo) + Rabs (f2R hi)) + bpow radix2 (-1072).
Proof.
  intros arr n lo hi s k HD HN vals HV [SP SS] Hk N. destruct (clean_ok arr lo hi HD) as (A & B & C). fold vals in A, B, C.
  assert (HV' : (1 <= Z.of_nat (length vals) <= 2 ^ 50)%Z) by (destruct vals; [destruct B|cbn [length] in *; lia]).
  assert (OKV : forall x, In x vals -> ok64 x) by (intros x Hx; apply A, Hx).
  destruct (points n HN) as (q & E & LQ & PQ & MQ & Q0 & QN).
  assert (EQ : np_quantile_old vals n = map (quantile1_old (fsort vals)) q). { unfold np_quantile_old, quantiles_with. rewrite E. destruct vals as [|x v]; [destruct B|reflexivity]. }
  rewrite EQ, nth_indep with (d' := quantile1_old (fsort vals) fnan) by (rewrite map_length; lia). rewrite map_nth. destruct (PQ k Hk) as (P1 & P2 & P3).
  pose proof (edge_err_old vals n HN HV' OKV (nth k q fnan) k P1 P2 P3 Hk) as X.
  assert (ES : s = map f2R (fsort vals)). { apply sorted_unique; [|exact SS|apply s_sorted; exact OKV]. apply Permutation_trans with (map f2R vals); [apply Permutation_sym; exact SP|]. apply Permutation_map, Permutation_sym, fsort_perm. }
  assert (LA : length (fsort vals) = length vals) by (apply Permutation_length, fsort_perm).
  assert (EN : IZR (Z.of_nat (length (fsort vals)) - 1) = N) by (rewrite LA, minus_IZR, <- INR_IZR_INZ; reflexivity).
  assert (IN : forall x, In x vals -> exists i, (i < length (fsort vals))%nat /\ nth i (fsort vals) fnan = x) by (intros x Hx; apply In_nth; apply (Permutation_in _ (Permutation_sym (fsort_perm vals))), Hx).
  assert (EXT : forall i, (i < length (fsort vals))%nat -> f2R lo <= f2R (nth i (fsort vals) fnan) <= f2R hi) by (intros i Hi; apply A; apply (Permutation_in _ (fsort_perm vals)), nth_In, Hi).
  assert (SA := a_sorted vals OKV).
  assert (ELO : nth 0 (map f2R (fsort vals)) 0 = f2R lo). { rewrite s_nth by (rewrite LA; lia). apply Rle_antisym; [|apply EXT; lia]. destruct (IN lo B) as (i & Hi & <-). apply sorted_nth; [exact SA|lia]. }
  assert (EHI : nth (length (map f2R (fsort vals)) - 1) (map f2R (fsort vals)) 0 = f2R hi). { rewrite map_length, s_nth by (rewrite LA; lia). apply Rle_antisym; [apply EXT; lia|]. destruct (IN hi C) as (i & Hi & <-). apply sorted_nth; [exact SA|lia]. }
  rewrite ELO, EHI, EN, <- ES in X. exact X.
Qed.
Print Assumptions C90_old_accuracy.

(** numpy 1.18 and 1.19, which setup.py allows, interpolate as x1*(1-w) + x2*w: there a constant column can get descending edges *)
Theorem C90_old_numpy_refuted : let tenth := fdiv (ofZ 1) (ofZ 10) in
  (fun e => existsb (fun k => flt (nth (S k) e fnan) (nth k e fnan)) (seq 0 7)) (np_quantile_old [tenth; tenth] 7) = true /\
  (fun e => existsb (fun k => flt (nth (S k) e fnan) (nth k e fnan)) (seq 0 7)) (np_quantile64 [tenth; tenth] 7) = false.
Proof. vm_compute. split; reflexivity. Qed.
Print Assumptions C90_old_numpy_refuted.
