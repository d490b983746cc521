(** C91: Monte-Carlo and hybrid p-values in binary64. *)
From Coq Require Import ZArith List Bool Reals Lia Lra.
Import ListNotations.
From Flocq Require Import Core BinarySingleNaN.
From Verif Require Import F64 Num StatsModel StatsProofs LinspaceProofs BrentFModel BrentFProofs SpecChi2F Chi2FProofs SpecSig SigModel SigProofs SpecSigF SigFModel.
Open Scope R_scope.

Section P.
  Variable l : list f64.
  Variable c : f64.
  Hypothesis FL : forall x, In x l -> ffin x = true.
  Hypothesis FC : ffin c = true.
  Hypothesis HL : (1 <= Z.of_nat (length l) <= 2 ^ 40)%Z.
  Let n := Z.of_nat (length l).
  Let k := rank2 l c.
  Lemma lt_count : length (filter (fun x => flt x c) l) = length (filter (fun x => rltb x (f2R c)) (map f2R l)).
  Proof.
    clear HL n k. induction l as [|x l' IH]; [reflexivity|]. cbn [filter map]. assert (FX := FL x (or_introl eq_refl)). specialize (IH (fun y Hy => FL y (or_intror Hy))).
    destruct (flt x c) eqn:E; destruct (rltb (f2R x) (f2R c)) eqn:E'; cbn [length]; try (f_equal; exact IH); try exact IH; exfalso.
    - apply flt_spec in E; try assumption. apply rltb_false in E'. lra.
    - apply rltb_true in E'. apply (flt_spec x c FX FC) in E'. congruence.
  Qed.
  Lemma le_count : length (filter (fun x => fle x c) l) = length (filter (fun x => rleb x (f2R c)) (map f2R l)).
  Proof.
    clear HL n k. induction l as [|x l' IH]; [reflexivity|]. cbn [filter map]. assert (FX := FL x (or_introl eq_refl)). specialize (IH (fun y Hy => FL y (or_intror Hy))).
    destruct (fle x c) eqn:E; destruct (rleb (f2R x) (f2R c)) eqn:E'; cbn [length]; try (f_equal; exact IH); try exact IH; exfalso.
    - apply fle_spec in E; try assumption. apply rleb_false in E'. lra.
    - apply rleb_true in E'. apply (fle_spec x c FX FC) in E'. congruence.
  Qed.
  Lemma n_R : 1 <= IZR n <= 1099511627776. Proof. split; [apply (IZR_le 1); apply HL|apply (IZR_le n 1099511627776); apply HL]. Qed.
  (** the exact p-value *)
  Lemma rank_p : fraction_above (f2R c) (map f2R l) = 1 - IZR k / (2 * IZR n).
  Proof.
    assert (NE : map f2R l <> []) by (intros X; apply map_eq_nil in X; rewrite X in HL; cbn [length] in HL; lia).
    pose proof (MC_p (mkSlib (fun _ _ => NaN) (fun _ _ _ => NaN) (fun x => x) (fun _ _ => 0) (fun _ _ _ => 0) (fun _ _ => Base.Raise Base.ValueError) NaN) (f2R c) (map f2R l) NE) as M.
    unfold percentileofscore in M. destruct (map f2R l) as [|y l0] eqn:EM; [congruence|]. rewrite <- EM in *. rewrite <- lt_count, <- le_count in M. cbn [one_minus_percent] in M. injection M as M.
    change (fraction_above (f2R c) (map f2R l)) with (mc_p (f2R c) (map f2R l)). rewrite <- M. pose proof n_R as RN. unfold k, rank2. fold n.
    set (L := length (filter (fun x => flt x c) l)). set (R := length (filter (fun x => fle x c) l)).
    assert (EK : INR (L + R + (if Nat.ltb L R then 1 else 0)) = IZR (Z.of_nat L + Z.of_nat R + (if (Z.of_nat L <? Z.of_nat R)%Z then 1 else 0))).
    { rewrite INR_IZR_INZ. f_equal. destruct (Nat.ltb_spec L R) as [A|A]; destruct (Z.ltb_spec (Z.of_nat L) (Z.of_nat R)); lia. }
    rewrite EK, map_length, (INR_IZR_INZ (length l)). fold n. field. lra.
  Qed.
  Lemma k_rng : (0 <= k <= 2 * n)%Z.
  Proof.
    pose proof rank_p as E. pose proof n_R as RN. assert (NE : map f2R l <> []) by (intros X; apply map_eq_nil in X; rewrite X in HL; cbn [length] in HL; lia).
    pose proof (mc_p_range (f2R c) (map f2R l) NE) as B. change (mc_p (f2R c) (map f2R l)) with (fraction_above (f2R c) (map f2R l)) in B. rewrite E in B.
    assert (IZR k / (2 * IZR n) * (2 * IZR n) = IZR k) by (field; lra). assert (0 <= IZR k / (2 * IZR n) <= 1) by lra. split; apply le_IZR; [|rewrite mult_IZR]; rewrite <- H.
    - apply Rmult_le_pos; lra.
    - apply Rle_trans with (1 * (2 * IZR n)); [apply Rmult_le_compat_r; lra|lra].
  Qed.
  Lemma K_R : 0 <= IZR k <= 2 * IZR n.
  Proof. split; [apply (IZR_le 0); apply k_rng|rewrite <- mult_IZR; apply IZR_le; apply k_rng]. Qed.
  Lemma k_val : f2R (ofZ k) = IZR k /\ ffin (ofZ k) = true.
  Proof. pose proof k_rng as K. fold n in HL. apply ofZ_spec. change (2 ^ 53)%Z with 9007199254740992%Z. change (2 ^ 40)%Z with 1099511627776%Z in HL. lia. Qed.
  Lemma n_val : f2R (ofZ n) = IZR n /\ ffin (ofZ n) = true.
  Proof. fold n in HL. apply ofZ_spec. change (2 ^ 53)%Z with 9007199254740992%Z. change (2 ^ 40)%Z with 1099511627776%Z in HL. lia. Qed.
  Lemma small_z : forall z, (0 <= z <= 100)%Z -> f2R (ofZ z) = IZR z /\ ffin (ofZ z) = true /\ fmt (IZR z).
  Proof. intros z H. destruct (ofZ_spec z) as [A B]; [change (2 ^ 53)%Z with 9007199254740992%Z; lia|]. split; [exact A|]. split; [exact B|]. apply fmt_IZR. change (2 ^ 53)%Z with 9007199254740992%Z. lia. Qed.
  (** the last two operations *)
  Lemma tail_val : forall x, ffin x = true -> 0 <= f2R x <= 200 -> let t := rnd (f2R x / 100) in 0 <= t <= 2 /\
    f2R (fminus fone (fdiv x (ofZ 100))) = rnd (1 - t) /\ ffin (fminus fone (fdiv x (ofZ 100))) = true.
  Proof.
    intros x FX HX t. destruct (small_z 100 ltac:(lia)) as (V & F & _). destruct fone_val as [OV OF].
    destruct (fdiv_spec x (ofZ 100) 1 FX ltac:(rewrite V; lra) ltac:(lia)) as [A B]; [rewrite V; apply Rabs_le; change (b2 1) with 2; lra|]. rewrite V in A. fold t in A.
    assert (T : 0 <= t <= 2) by (unfold t; split; [apply rnd_lb; [apply (fmt_IZR 0); lia|lra]|apply rnd_ub; [apply (fmt_IZR 2); lia|lra]]). split; [exact T|].
    destruct (fminus_spec fone (fdiv x (ofZ 100)) 1 OF B ltac:(lia)) as [C D]; [rewrite OV, A; apply Rabs_le; change (b2 1) with 2; lra|]. rewrite OV, A in C. split; assumption.
  Qed.
  Definition told : R := rnd (rnd (50 * IZR k / IZR n) / 100).
  Definition tnew : R := rnd (rnd (IZR k * rnd (50 / IZR n)) / 100).
  Lemma ratio : 0 <= 50 * IZR k / IZR n <= 100.
  Proof.
    pose proof n_R as RN. pose proof K_R as KR. split; [apply Rmult_le_pos; [lra|left; apply Rinv_0_lt_compat; lra]|]. apply Rmult_le_reg_r with (IZR n); [lra|]. unfold Rdiv. rewrite Rmult_assoc, Rinv_l by lra. lra.
  Qed.
  Lemma old_val : 0 <= told <= 1 /\ f2R (mc_p64 percentile_old c l) = rnd (1 - told) /\ ffin (mc_p64 percentile_old c l) = true.
  Proof.
    pose proof n_R as RN. pose proof K_R as KR. pose proof ratio as RA. destruct k_val as [KV KF]. destruct n_val as [NV NF]. destruct (small_z 50 ltac:(lia)) as (V5 & F5 & _). unfold mc_p64, percentile_old. fold n k.
    destruct (fmult_spec (ofZ k) (ofZ 50) 60 KF F5 ltac:(lia)) as [A B]; [rewrite KV, V5; apply Rabs_le; change (b2 60) with 1152921504606846976; lra|].
    assert (A' : f2R (fmult (ofZ k) (ofZ 50)) = 50 * IZR k). { rewrite A, KV, V5, <- mult_IZR, rnd_id; [rewrite mult_IZR; ring|]. apply fmt_IZR. pose proof k_rng as K. fold n in HL. change (2 ^ 53)%Z with 9007199254740992%Z. change (2 ^ 40)%Z with 1099511627776%Z in HL. lia. }
    destruct (fdiv_spec (fmult (ofZ k) (ofZ 50)) (ofZ n) 7 B ltac:(rewrite NV; lra) ltac:(lia)) as [C D]; [rewrite A', NV; apply Rabs_le; change (b2 7) with 128; lra|]. rewrite A', NV in C.
    assert (P : 0 <= rnd (50 * IZR k / IZR n) <= 100) by (split; [apply rnd_lb; [apply (fmt_IZR 0); lia|lra]|apply rnd_ub; [apply (fmt_IZR 100); lia|lra]]).
    destruct (tail_val _ D ltac:(rewrite C; lra)) as (T & X & Y). rewrite C in T, X. split; [|split; assumption]. split; [apply T|]. unfold told. apply rnd_ub; [apply (fmt_IZR 1); lia|lra].
  Qed.
  Lemma etab : 0 < eta0 <= / 1152921504606846976.
  Proof. unfold eta0. split; [apply bpow_gt_0|]. apply Rle_trans with (b2 (-60)); [apply bpow_le; lia|right; reflexivity]. Qed.
  Lemma etab2 : eta0 <= / 1152921504606846976 * / 1152921504606846976.
  Proof. unfold eta0. apply Rle_trans with (b2 (-60) * b2 (-60)); [rewrite <- bpow_plus; apply bpow_le; lia|right; reflexivity]. Qed.
  (** a rounding that multiplies by at most 1 + 2^-53 *)
  Lemma rel : forall x, 0 <= x -> Rabs (rnd x - x) <= u53 * x + eta0.
  Proof. intros x H. pose proof (rnd_err x) as E. rewrite (Rabs_pos_eq x) in E by exact H. exact E. Qed.
  Lemma told_err : Rabs (told - IZR k / (2 * IZR n)) <= 2 * u53 + / 562949953421312 * u53.
  Proof.
    pose proof n_R as RN. pose proof ratio as RA. pose proof etab as ET. pose proof etab2 as ET2. unfold told. replace (IZR k / (2 * IZR n)) with (50 * IZR k / IZR n / 100) by (field; lra). set (x := 50 * IZR k / IZR n) in *.
    pose proof (rel x ltac:(lra)) as E1. apply Rabs_le_inv in E1. assert (P : 0 <= rnd x <= 100) by (split; [apply rnd_lb; [apply (fmt_IZR 0); lia|lra]|apply rnd_ub; [apply (fmt_IZR 100); lia|lra]]).
    pose proof (rel (rnd x / 100) ltac:(lra)) as E2. apply Rabs_le_inv in E2. apply Rabs_le. unfold u53 in *. lra.
  Qed.
  Lemma tnew_err : 0 <= tnew /\ Rabs (tnew - IZR k / (2 * IZR n)) <= 3 * u53 + / 1048576 * u53 /\ 0 <= rnd (IZR k * rnd (50 / IZR n)) <= 101.
  Proof.
    pose proof n_R as RN. pose proof K_R as KR. pose proof ratio as RA. pose proof etab as ET. pose proof etab2 as ET2. unfold tnew. replace (IZR k / (2 * IZR n)) with (50 * IZR k / IZR n / 100) by (field; lra).
    assert (IV : 0 < / IZR n <= 1) by (split; [apply Rinv_0_lt_compat; lra|rewrite <- Rinv_1; apply Rinv_le_contravar; lra]).
    pose proof (rel (50 / IZR n) ltac:(unfold Rdiv; lra)) as E0. set (q := rnd (50 / IZR n)) in *.
    assert (Q0 : 0 <= q) by (unfold q; apply rnd_lb; [apply (fmt_IZR 0); lia|unfold Rdiv; lra]).
    set (x := 50 * IZR k / IZR n) in *. assert (XE : IZR k * (50 / IZR n) = x) by (unfold x; field; lra).
    assert (E1 : Rabs (IZR k * q - x) <= u53 * x + IZR k * eta0).
    { replace (IZR k * q - x) with (IZR k * (q - 50 / IZR n)) by (rewrite <- XE; ring). rewrite Rabs_mult, (Rabs_pos_eq (IZR k)) by lra. replace (u53 * x + IZR k * eta0) with (IZR k * (u53 * (50 / IZR n) + eta0)) by (rewrite <- XE; ring). apply Rmult_le_compat_l; lra. }
    assert (KE : IZR k * eta0 <= / 1152921504606846976 * / 524288). { apply Rle_trans with (2199023255552 * (/ 1152921504606846976 * / 1152921504606846976)); [apply Rmult_le_compat; lra|lra]. }
    apply Rabs_le_inv in E1. assert (Y0 : 0 <= IZR k * q) by (apply Rmult_le_pos; lra). pose proof (rel (IZR k * q) Y0) as E2. apply Rabs_le_inv in E2.
    set (y := rnd (IZR k * q)) in *. assert (Y : 0 <= y) by (unfold y; apply rnd_lb; [apply (fmt_IZR 0); lia|lra]).
    pose proof (rel (y / 100) ltac:(lra)) as E3. apply Rabs_le_inv in E3. split; [apply rnd_lb; [apply (fmt_IZR 0); lia|lra]|]. split; [apply Rabs_le; unfold u53 in *; lra|]. unfold u53 in *. lra.
  Qed.
  Lemma new_val : f2R (mc_p64 percentile_new c l) = rnd (1 - tnew) /\ ffin (mc_p64 percentile_new c l) = true.
  Proof.
    pose proof n_R as RN. pose proof K_R as KR. destruct k_val as [KV KF]. destruct n_val as [NV NF]. destruct (small_z 50 ltac:(lia)) as (V5 & F5 & _). unfold mc_p64, percentile_new. fold n k.
    assert (IV : 0 < / IZR n <= 1) by (split; [apply Rinv_0_lt_compat; lra|rewrite <- Rinv_1; apply Rinv_le_contravar; lra]).
    destruct (fdiv_spec (ofZ 50) (ofZ n) 6 F5 ltac:(rewrite NV; lra) ltac:(lia)) as [A B]; [rewrite V5, NV; apply Rabs_le; change (b2 6) with 64; unfold Rdiv; lra|]. rewrite V5, NV in A. destruct tnew_err as (_ & _ & Y).
    assert (Q0 : 0 <= rnd (50 / IZR n) <= 50) by (split; [apply rnd_lb; [apply (fmt_IZR 0); lia|unfold Rdiv; lra]|apply rnd_ub; [apply (fmt_IZR 50); lia|unfold Rdiv; lra]]).
    destruct (fmult_spec (ofZ k) (fdiv (ofZ 50) (ofZ n)) 60 KF B ltac:(lia)) as [C D]; [rewrite KV, A; change (b2 60) with 1152921504606846976; rewrite Rabs_pos_eq by (apply Rmult_le_pos; lra); apply Rle_trans with (2199023255552 * 50); [apply Rmult_le_compat; lra|lra]|]. rewrite KV, A in C.
    destruct (tail_val _ D ltac:(rewrite C; lra)) as (_ & X & Z). rewrite C in X. split; assumption.
  Qed.
End P.

(** ** the claims *)
Definition sample_ok (l : list f64) (c : f64) : Prop := (forall x, In x l -> ffin x = true) /\ ffin c = true /\ (1 <= Z.of_nat (length l) <= 2 ^ 40)%Z.
Lemma rank_mono : forall l c c', sample_ok l c -> sample_ok l c' -> f2R c <= f2R c' -> (rank2 l c <= rank2 l c')%Z.
Proof.
  intros l c c' (A & B & C) (_ & B' & _) H. pose proof (rank_p l c A B C) as E. pose proof (rank_p l c' A B' C) as E'. pose proof (n_R l C) as RN.
  assert (NE : map f2R l <> []) by (intros X; apply map_eq_nil in X; rewrite X in C; cbn [length] in C; lia).
  pose proof (mc_p_mono (f2R c) (f2R c') (map f2R l) NE H) as M. change mc_p with fraction_above in M. rewrite E, E' in M. apply le_IZR.
  apply Rmult_le_reg_r with (/ (2 * IZR (Z.of_nat (length l)))); [apply Rinv_0_lt_compat; lra|]. unfold Rdiv in M. lra.
Qed.

(** scipy 1.5-1.8: the p-value is a probability, accurate, 0 and 1 exactly where it should be, and never increases with chi2 *)
Theorem C91_mc_p_old : forall l c, sample_ok l c -> let p := mc_p64 percentile_old c l in let exact := fraction_above (f2R c) (map f2R l) in
  ffin p = true /\ 0 <= f2R p <= 1 /\ Rabs (f2R p - exact) <= bpow radix2 (-51) /\ (f2R p = 0 <-> exact = 0) /\ (f2R p = 1 <-> exact = 1) /\
  (forall c', sample_ok l c' -> f2R c <= f2R c' -> f2R (mc_p64 percentile_old c' l) <= f2R p).
Proof.
  intros l c HS p exact. pose proof HS as (A & B & C). destruct (old_val l c A B C) as (T & V & F). pose proof (rank_p l c A B C) as E. pose proof (told_err l c A B C) as TE. pose proof (n_R l C) as RN. pose proof (K_R l c A B C) as KR. pose proof (k_rng l c A B C) as KZ.
  fold p in V, F. fold exact in E. set (n := Z.of_nat (length l)) in *. set (k := rank2 l c) in *. set (t := told l c) in *. split; [exact F|].
  assert (FT : fmt t) by apply fmt_rnd. assert (F1 : fmt 1) by (apply (fmt_IZR 1); lia). pose proof (rnd_minus_err 1 t F1 FT) as PE. rewrite (Rabs_pos_eq (1 - t)) in PE by lra.
  assert (X2 : / 2199023255552 <= / (2 * IZR n)) by (apply Rinv_le_contravar; lra).
  assert (KN : forall j, IZR j / (2 * IZR n) = IZR j * / (2 * IZR n)) by (intros; reflexivity).
  split; [rewrite V; split; [apply rnd_lb; [apply (fmt_IZR 0); lia|lra]|apply rnd_ub; [exact F1|lra]]|]. split; [|split; [|split]].
  - rewrite V, E. apply Rabs_le_inv in PE. apply Rabs_le_inv in TE. apply Rabs_le. change (b2 (-51)) with (/ 2251799813685248). unfold u53 in *. lra.
  - rewrite V, E. split.
    + intros Z. assert (T1 : t = 1). { rewrite Z in PE. apply Rabs_le_inv in PE. unfold u53 in PE. lra. }
      destruct (Z.eq_dec k (2 * n)) as [->|NK]; [rewrite mult_IZR; field; lra|]. exfalso. assert (IZR k <= 2 * IZR n - 1) by (rewrite <- mult_IZR, <- minus_IZR; apply IZR_le; lia).
      assert (IZR k / (2 * IZR n) <= 1 - / (2 * IZR n)) by (replace (1 - / (2 * IZR n)) with ((2 * IZR n - 1) / (2 * IZR n)) by (field; lra); apply Rmult_le_compat_r; [left; apply Rinv_0_lt_compat; lra|lra]).
      apply Rabs_le_inv in TE. unfold u53 in TE. lra.
    + intros Z. assert (K : IZR k = 2 * IZR n) by (apply Rmult_eq_reg_r with (/ (2 * IZR n)); [rewrite Rinv_r by lra; unfold Rdiv in Z; lra|apply Rinv_neq_0_compat; lra]).
      assert (T1 : t = 1). { unfold t, told. fold n k. rewrite K. replace (50 * (2 * IZR n) / IZR n) with 100 by (field; lra). rewrite (rnd_id 100) by (apply (fmt_IZR 100); lia). replace (100 / 100) with 1 by lra. apply rnd_id. exact F1. }
      rewrite T1, Rminus_eq_0. apply rnd_0.
  - rewrite V, E. split.
    + intros Z. destruct (Z.eq_dec k 0) as [->|NK]; [rewrite KN; lra|]. exfalso. assert (1 <= IZR k) by (apply (IZR_le 1); lia).
      assert (/ (2 * IZR n) <= IZR k / (2 * IZR n)) by (unfold Rdiv; rewrite <- (Rmult_1_l (/ (2 * IZR n))) at 1; apply Rmult_le_compat_r; [left; apply Rinv_0_lt_compat; lra|lra]).
      rewrite Z in PE. apply Rabs_le_inv in PE. apply Rabs_le_inv in TE. unfold u53 in *. lra.
    + intros Z. assert (K : IZR k = 0) by (apply Rmult_eq_reg_r with (/ (2 * IZR n)); [unfold Rdiv in Z; lra|apply Rinv_neq_0_compat; lra]).
      assert (T1 : t = 0). { unfold t, told. fold n k. rewrite K. replace (50 * 0 / IZR n) with 0 by (field; lra). rewrite rnd_0. replace (0 / 100) with 0 by lra. apply rnd_0. }
      rewrite T1, Rminus_0_r. apply rnd_id. exact F1.
  - intros c' HS' H. pose proof HS' as (_ & B' & _). destruct (old_val l c' A B' C) as (T' & V' & _). rewrite V, V'. pose proof (rank_mono l c c' HS HS' H) as RM.
    apply rnd_le. assert (t <= told l c'); [|lra]. unfold t, told. fold n k. fold k in RM. apply IZR_le in RM. apply rnd_le. apply Rmult_le_compat_r; [lra|]. apply rnd_le. apply Rmult_le_compat_r; [left; apply Rinv_0_lt_compat; lra|lra].
Qed.
Print Assumptions C91_mc_p_old.

(** scipy >= 1.9: as accurate and as monotone ... *)
Theorem C91_mc_p_new : forall l c, sample_ok l c -> let p := mc_p64 percentile_new c l in let exact := fraction_above (f2R c) (map f2R l) in
  ffin p = true /\ - bpow radix2 (-51) <= f2R p <= 1 /\ Rabs (f2R p - exact) <= 5 * bpow radix2 (-53) /\ (f2R p = 1 <-> exact = 1) /\
  (forall c', sample_ok l c' -> f2R c <= f2R c' -> f2R (mc_p64 percentile_new c' l) <= f2R p).
Proof.
  intros l c HS p exact. pose proof HS as (A & B & C). destruct (new_val l c A B C) as (V & F). pose proof (rank_p l c A B C) as E. destruct (tnew_err l c A B C) as (T0 & TE & _). pose proof (n_R l C) as RN. pose proof (K_R l c A B C) as KR. pose proof (k_rng l c A B C) as KZ.
  fold p in V, F. fold exact in E. set (n := Z.of_nat (length l)) in *. set (k := rank2 l c) in *. set (t := tnew l c) in *. split; [exact F|].
  assert (FT : fmt t) by apply fmt_rnd. assert (F1 : fmt 1) by (apply (fmt_IZR 1); lia). pose proof (rnd_minus_err 1 t F1 FT) as PE.
  assert (X2 : / 2199023255552 <= / (2 * IZR n)) by (apply Rinv_le_contravar; lra). assert (IP : 0 < / (2 * IZR n)) by (apply Rinv_0_lt_compat; lra).
  assert (KU : 0 <= IZR k / (2 * IZR n) <= 1) by (split; [apply Rmult_le_pos; lra|apply Rmult_le_reg_r with (2 * IZR n); [lra|]; unfold Rdiv; rewrite Rmult_assoc, Rinv_l by lra; lra]).
  apply Rabs_le_inv in TE. assert (A1 : Rabs (1 - t) <= 1 + / 1024) by (apply Rabs_le; unfold u53 in *; lra).
  assert (PE' : Rabs (rnd (1 - t) - (1 - t)) <= u53 * (1 + / 1024)) by (apply Rle_trans with (1 := PE); apply Rmult_le_compat_l; [unfold u53; lra|exact A1]). apply Rabs_le_inv in PE'.
  split; [|split; [|split]].
  - rewrite V. change (b2 (-51)) with (/ 2251799813685248). split; [|apply rnd_ub; [exact F1|lra]].
    apply rnd_lb; [|unfold u53 in *; lra]. replace (- / 2251799813685248) with (- b2 (-51)) by reflexivity. apply fmt_opp, fmt_bpow. lia.
  - rewrite V, E. apply Rabs_le. change (b2 (-53)) with (/ 9007199254740992). unfold u53 in *. lra.
  - rewrite V, E. split.
    + intros Z. destruct (Z.eq_dec k 0) as [->|NK]; [unfold Rdiv; lra|]. exfalso. assert (1 <= IZR k) by (apply (IZR_le 1); lia).
      assert (/ (2 * IZR n) <= IZR k / (2 * IZR n)) by (unfold Rdiv; rewrite <- (Rmult_1_l (/ (2 * IZR n))) at 1; apply Rmult_le_compat_r; lra).
      unfold u53 in *. lra.
    + intros Z. assert (K : IZR k = 0) by (apply Rmult_eq_reg_r with (/ (2 * IZR n)); [unfold Rdiv in Z; lra|apply Rinv_neq_0_compat; lra]).
      assert (T1 : t = 0). { unfold t, tnew. fold n k. rewrite K, Rmult_0_l, rnd_0. replace (0 / 100) with 0 by lra. apply rnd_0. }
      rewrite T1, Rminus_0_r. apply rnd_id. exact F1.
  - intros c' HS' H. pose proof HS' as (_ & B' & _). destruct (new_val l c' A B' C) as (V' & _). rewrite V, V'. pose proof (rank_mono l c c' HS HS' H) as RM.
    apply rnd_le. assert (t <= tnew l c'); [|lra]. unfold t, tnew. fold n k. fold k in RM. apply IZR_le in RM. apply rnd_le. apply Rmult_le_compat_r; [lra|]. apply rnd_le. apply Rmult_le_compat_r; [|lra].
    apply rnd_lb; [apply (fmt_IZR 0); lia|]. apply Rmult_le_pos; [lra|left; apply Rinv_0_lt_compat; lra].
Qed.
Print Assumptions C91_mc_p_new.

(** ... but not a probability: with 11 simulations and a chi2 above all of them it is negative, with 97 it is positive *)
Theorem C91_mc_p_new_refuted :
  flt (mc_p64 percentile_new (ofZ 5) (repeat (ofZ 1) 11)) fzero = true /\ flt fzero (mc_p64 percentile_new (ofZ 5) (repeat (ofZ 1) 97)) = true /\
  feqb (mc_p64 percentile_old (ofZ 5) (repeat (ofZ 1) 11)) fzero = true /\ feqb (mc_p64 percentile_old (ofZ 5) (repeat (ofZ 1) 97)) fzero = true.
Proof. vm_compute. repeat split; reflexivity. Qed.
Print Assumptions C91_mc_p_new_refuted.
Example C91_hypotheses_met : sample_ok (repeat (ofZ 1) 97) (ofZ 5).
Proof. split; [|split; [apply (ofZ_spec 5); lia|rewrite repeat_length; vm_compute; split; discriminate]]. intros x Hx. apply repeat_spec in Hx. subst x. apply (ofZ_spec 1); lia. Qed.

(** the mixture of the hybrid method: a probability, whatever the roundings *)
Theorem C91_mixture : forall f p q, ffin f = true -> ffin p = true -> ffin q = true -> 0 <= f2R f <= 1 -> 0 <= f2R p <= 1 -> 0 <= f2R q <= 1 ->
  let r := mix64 f p q in ffin r = true /\ 0 <= f2R r <= 1 /\ Rabs (f2R r - (f2R f * f2R p + (1 - f2R f) * f2R q)) <= bpow radix2 (-51).
Proof.
  intros f p q Ff Fp Fq Hf Hp Hq r. unfold r, mix64. destruct fone_val as [OV OF].
  assert (M : forall a b, 0 <= a <= 1 -> 0 <= b <= 1 -> 0 <= a * b <= 1 /\ a * b <= a) by (intros a b Ha Hb; split; [split; [apply Rmult_le_pos; lra|apply Rle_trans with (a * 1); [apply Rmult_le_compat_l; lra|lra]]|apply Rle_trans with (a * 1); [apply Rmult_le_compat_l; lra|lra]]).
  assert (R01 : forall v, 0 <= v <= 1 -> 0 <= rnd v <= 1) by (intros v Hv; split; [apply rnd_lb; [apply (fmt_IZR 0); lia|lra]|apply rnd_ub; [apply (fmt_IZR 1); lia|lra]]).
  assert (NE : forall v, 0 <= v <= 1 -> Rabs (rnd v - v) <= / 9007199254740992). { intros v Hv. pose proof (near v) as N. rewrite b2_m53 in N. apply N. rewrite Rabs_pos_eq; lra. }
  destruct (M (f2R f) (f2R p) Hf Hp) as [A1 A2]. destruct (fmult_spec f p 0 Ff Fp ltac:(lia)) as [V1 F1]; [change (b2 0) with 1; apply Rabs_le; lra|].
  destruct (fminus_spec fone f 0 OF Ff ltac:(lia)) as [V2 F2]; [rewrite OV; change (b2 0) with 1; apply Rabs_le; lra|]. rewrite OV in V2.
  pose proof (R01 (1 - f2R f) ltac:(lra)) as G. set (g := rnd (1 - f2R f)) in *. rewrite <- V2 in G.
  destruct (M (f2R (fminus fone f)) (f2R q) G Hq) as [B1 B2]. destruct (fmult_spec (fminus fone f) q 0 F2 Fq ltac:(lia)) as [V3 F3]; [change (b2 0) with 1; apply Rabs_le; lra|].
  assert (U1 : rnd (f2R f * f2R p) <= f2R f) by (apply rnd_ub; [apply fmt_B2R|exact A2]). assert (U2 : rnd (f2R (fminus fone f) * f2R q) <= f2R (fminus fone f)) by (apply rnd_ub; [apply fmt_B2R|exact B2]).
  pose proof (R01 _ A1) as C1. pose proof (R01 _ B1) as C2.
  destruct (fplus_spec (fmult f p) (fmult (fminus fone f) q) 2 F1 F3 ltac:(lia)) as [V4 F4]; [rewrite V1, V3; change (b2 2) with 4; apply Rabs_le; lra|]. rewrite V1, V3 in V4.
  split; [exact F4|]. rewrite V4.
  assert (GE : f2R (fminus fone f) <= (1 - f2R f) + / 18014398509481984).
  { rewrite V2. destruct (Rle_lt_dec (1 - f2R f) (1 / 2)) as [L|L].
    - pose proof (rnd_minus_err 1 (f2R f) (fmt_IZR 1 ltac:(lia)) (fmt_B2R f)) as E. rewrite (Rabs_pos_eq (1 - f2R f)) in E by lra. apply Rabs_le_inv in E. unfold u53 in E. fold g in E. lra.
    - destruct (Rle_lt_dec (1 - / 18014398509481984) (1 - f2R f)) as [L2|L2]; [rewrite V2 in G; unfold g in *; lra|].
      pose proof (error_le_half_ulp radix2 (SpecFloat.fexp 53 1024) (fun x => negb (Z.even x)) (1 - f2R f)) as E. fold (rnd (1 - f2R f)) in E. apply Rabs_le_inv in E.
      assert (MG : mag_val radix2 (1 - f2R f) (mag radix2 (1 - f2R f)) = 0%Z) by (apply mag_unique; rewrite Rabs_pos_eq by lra; change (b2 (0 - 1)) with (/ 2); change (b2 0) with 1; lra).
      rewrite ulp_neq_0 in E by lra. unfold cexp in E. rewrite MG in E. change (SpecFloat.fexp 53 1024 0) with (-53)%Z in E. change (b2 (-53)) with (/ 9007199254740992) in E. fold g in E. lra. }
  assert (S : rnd (f2R f * f2R p) + rnd (f2R (fminus fone f) * f2R q) <= 1 + / 18014398509481984) by lra.
  assert (R1 : rnd (1 + / 18014398509481984) <= 1).
  { apply round_N_le_midp; [exact vexp|exact (fmt_IZR 1 ltac:(lia))|]. rewrite succ_eq_pos by lra. rewrite ulp_neq_0 by lra. unfold cexp. rewrite (mag_unique radix2 1 1) by (rewrite Rabs_R1; change (b2 (1 - 1)) with 1; change (b2 1) with 2; lra).
    change (SpecFloat.fexp 53 1024 1) with (-52)%Z. change (b2 (-52)) with (/ 4503599627370496). lra. }
  split; [split; [apply rnd_lb; [apply (fmt_IZR 0); lia|lra]|]|].
  - apply Rle_trans with (2 := R1). apply rnd_le. exact S.
  - pose proof (NE _ A1) as E1. pose proof (NE _ B1) as E3. pose proof (NE (1 - f2R f) ltac:(lra)) as E2. fold g in E2. rewrite V2 in *.
    assert (SP : 0 <= rnd (f2R f * f2R p) + rnd (g * f2R q)) by lra. set (s := rnd (f2R f * f2R p) + rnd (g * f2R q)) in *. pose proof (near s) as E4. rewrite b2_m53 in E4. specialize (E4 ltac:(rewrite Rabs_pos_eq; lra)).
    apply Rabs_le_inv in E1. apply Rabs_le_inv in E2. apply Rabs_le_inv in E3. apply Rabs_le_inv in E4. change (b2 (-51)) with (/ 2251799813685248).
    assert (E5 : Rabs (g * f2R q - (1 - f2R f) * f2R q) <= / 9007199254740992). { replace (g * f2R q - (1 - f2R f) * f2R q) with ((g - (1 - f2R f)) * f2R q) by ring. rewrite Rabs_mult, (Rabs_pos_eq (f2R q)) by lra. apply Rle_trans with (/ 9007199254740992 * 1); [apply Rmult_le_compat; [apply Rabs_pos|lra|apply Rabs_le; lra|lra]|lra]. }
    apply Rabs_le_inv in E5. apply Rabs_le. unfold s in *. lra.
Qed.
Print Assumptions C91_mixture.
