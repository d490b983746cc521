(** Proofs about uniform automatic bin edges in binary64 (C03, C04). *)
From Coq Require Import String ZArith List Bool Reals Lia Lra.
Import ListNotations.
From Flocq Require Import Core BinarySingleNaN Relative.
From Verif Require Import F64 Base Cells FOrder BinModel SpecBin BinProofs.
Open Scope R_scope.

Notation b2 := (bpow radix2).
Definition dl : R := f2R tiny.
Lemma dl_val : dl = 6338253001141147 * / 633825300114114700748351602688.
Proof.
  unfold dl, tiny. destruct (flit_spec 6338253001141147 (-99)) as [-> _]; try lia.
  f_equal.
Qed.
Lemma tiny_fin : ffin tiny = true.
Proof. destruct (flit_spec 6338253001141147 (-99)) as [_ H]; try lia. exact H. Qed.

Lemma b2_m47 : b2 (-47) = / 140737488355328. Proof. reflexivity. Qed.
Lemma b2_m46 : b2 (-46) = / 70368744177664. Proof. reflexivity. Qed.
Lemma b2_m45 : b2 (-45) = / 35184372088832. Proof. reflexivity. Qed.
Lemma b2_m49 : b2 (-49) = / 562949953421312. Proof. reflexivity. Qed.
Lemma b2_7 : b2 7 = 128. Proof. reflexivity. Qed.

Notation fe := (SpecFloat.fexp 53 1024).
Notation ulp := (ulp radix2 fe).
Notation pred := (pred radix2 fe).
Notation succ := (succ radix2 fe).

Lemma ulp_128 : ulp 128 = b2 (-45).
Proof. rewrite <- b2_7, ulp_bpow. reflexivity. Qed.

Global Instance mexp : Monotone_exp fe.
Proof. exact (fexp_monotone 53 1024). Qed.

Lemma fmt_128 : fmt 128.
Proof. apply (fmt_IZR 128). lia. Qed.

(** rounding absorbs the offset outside (-128, 128] *)
Lemma off_absorbed : forall m, fmt m -> 128 < m \/ m <= -128 -> rnd (m - dl) = m.
Proof.
  intros m Hm H. assert (Hd := dl_val). assert (E45 := b2_m45).
  apply Rle_antisym.
  - rewrite <- (rnd_id m) at 2 by exact Hm. apply rnd_le. lra.
  - apply round_N_ge_midp; [exact vexp|exact Hm|].
    destruct H as [H|H].
    + assert (Hp : 128 <= pred m) by (apply pred_ge_gt; [exact vexp|apply fmt_128|exact Hm|exact H]).
      assert (Hu : pred m + ulp (pred m) = m) by (apply pred_plus_ulp; [exact vexp|lra|exact Hm]).
      assert (Hl : ulp 128 <= ulp (pred m)) by (apply ulp_le_pos; [exact vexp|exact mexp|lra|exact Hp]).
      rewrite ulp_128 in Hl. lra.
    + assert (Hp : pred m = m - ulp (- m)).
      { rewrite <- (Ropp_involutive m) at 1. rewrite pred_opp. rewrite succ_eq_pos by lra. lra. }
      assert (Hl : ulp 128 <= ulp (- m)) by (apply ulp_le_pos; [exact vexp|exact mexp|lra|lra]).
      rewrite ulp_128 in Hl. rewrite Hp. lra.
Qed.

(** ... and is effective inside *)
Lemma off_effective : forall m, fmt m -> -128 < m <= 128 -> rnd (m - dl) <= m - b2 (-49).
Proof.
  intros m Hm H. assert (Hd := dl_val). assert (E46 := b2_m46). assert (E47 := b2_m47). assert (E49 := b2_m49).
  assert (Hb : Rabs (m - dl) < b2 7).
  { rewrite b2_7. apply Rabs_def1; [lra|].
    assert (Hp : - m <= pred 128) by (apply pred_ge_gt; [exact vexp|apply fmt_opp; exact Hm|apply fmt_128|lra]).
    rewrite <- b2_7, pred_bpow in Hp. rewrite b2_7 in Hp.
    change (fe 7) with (-46)%Z in Hp. lra. }
  destruct (Req_dec (m - dl) 0) as [E|E]; [rewrite E, rnd_0; lra|].
  assert (Hu : ulp (m - dl) <= b2 (-46)).
  { unfold Ulp.ulp. rewrite Req_bool_false by exact E. change (-46)%Z with (fe 7).
    apply bpow_le. unfold cexp. apply mexp. apply mag_le_bpow; assumption. }
  assert (He : Rabs (rnd (m - dl) - (m - dl)) <= / 2 * ulp (m - dl)) by (apply error_le_half_ulp; exact vexp).
  apply Rabs_le_inv in He. lra.
Qed.

Lemma rel_err : forall x, b2 (-1022) <= Rabs x -> exists eps, Rabs eps <= b2 (-53) /\ rnd x = x * (1 + eps).
Proof.
  intros x Hx. destruct (relative_error_N_FLT_ex radix2 (-1074) 53 ltac:(lia) (fun z => negb (Z.even z)) x Hx) as (eps & He & Hr).
  exists eps. split; [|exact Hr].
  replace (b2 (-53)) with (/ 2 * b2 (-53 + 1)); [exact He|]. rewrite bpow_plus. change (b2 1) with 2. lra.
Qed.

Lemma rel_err_up : forall x, 0 <= x -> x = 0 \/ b2 (-1022) <= x -> 0 <= rnd x <= x * (1 + b2 (-53)).
Proof.
  intros x Hx [->|H]; [rewrite rnd_0; lra|].
  destruct (rel_err x) as (eps & He & Hr); [rewrite Rabs_pos_eq; assumption|].
  rewrite Hr. apply Rabs_le_inv in He. split.
  - rewrite <- Hr. rewrite <- rnd_0. apply rnd_le. exact Hx.
  - apply Rmult_le_compat_l; lra.
Qed.

Lemma set_last_length : forall A (l : list A) a, length (set_last l a) = length l.
Proof. induction l as [|b [|c l] IH]; intros a; [reflexivity|reflexivity|]. cbn [set_last length] in *. rewrite IH. reflexivity. Qed.
Lemma set_last_nth : forall A (l : list A) a i d, (i + 1 < length l)%nat -> nth i (set_last l a) d = nth i l d.
Proof.
  induction l as [|b [|c l] IH]; intros a i d H; [reflexivity|simpl in H; lia|].
  destruct i as [|i]; [reflexivity|]. cbn [set_last nth]. apply IH. cbn [length] in *. lia.
Qed.
Lemma set_last_last : forall A (l : list A) a d, (1 <= length l)%nat -> nth (length l - 1) (set_last l a) d = a.
Proof.
  induction l as [|b [|c l] IH]; intros a d H; [simpl in H; lia|reflexivity|].
  cbn [set_last length nth]. cbn [length] in IH. replace (S (S (length l)) - 1)%nat with (S (S (length l) - 1)) by lia.
  cbn [nth]. apply IH. lia.
Qed.

Lemma nmul_bound : forall n x, 1 <= n <= 1125899906842624 -> 0 <= x -> (n - 1) * x * (1 + b2 (-53)) * (1 + b2 (-53)) * (1 + b2 (-53)) <= n * x.
Proof.
  intros n x Hn Hx. change (b2 (-53)) with (/ 9007199254740992).
  set (u := / 9007199254740992).
  assert (Hu : 0 < u < / 9007199254740991) by (unfold u; split; lra).
  assert (Hu2 : (1 + u) * (1 + u) * (1 + u) <= 1 + 4 * u) by (unfold u; lra).
  assert (H2 : (n - 1) * ((1 + u) * (1 + u) * (1 + u)) <= n).
  { apply Rle_trans with ((n - 1) * (1 + 4 * u)); [apply Rmult_le_compat_l; lra|].
    assert (n * u <= 1125899906842624 * u) by (apply Rmult_le_compat_r; lra). unfold u in *; lra. }
  replace ((n - 1) * x * (1 + u) * (1 + u) * (1 + u)) with (((n - 1) * ((1 + u) * (1 + u) * (1 + u))) * x) by ring.
  apply Rmult_le_compat_r; assumption.
Qed.

Lemma b2_mono : forall a b, (a <= b)%Z -> b2 a <= b2 b.
Proof. intros. apply bpow_le. assumption. Qed.

Lemma feqb_zero : forall x, ffin x = true -> (feqb x fzero = true <-> f2R x = 0).
Proof.
  intros x H. unfold feqb. rewrite Beqb_correct by (assumption || reflexivity).
  change (B2R fzero) with 0. fold (f2R x). destruct (Req_bool_spec (f2R x) 0); split; intros; auto; try discriminate; contradiction.
Qed.

Lemma prod_err2 : forall a b A B, Rabs a <= A -> Rabs b <= B -> Rabs ((1 + a) * (1 + b) - 1) <= A + B + A * B.
Proof.
  intros a b A B HA HB. replace ((1 + a) * (1 + b) - 1) with (a + b + a * b) by ring.
  apply Rle_trans with (1 := Rabs_triang _ _). apply Rplus_le_compat.
  - apply Rle_trans with (1 := Rabs_triang _ _). lra.
  - rewrite Rabs_mult. apply Rmult_le_compat; auto using Rabs_pos.
Qed.
Lemma prod_err3 : forall a b c u, 0 <= u <= 1/1000 -> Rabs a <= u -> Rabs b <= u -> Rabs c <= u -> Rabs ((1 + a) * (1 + b) * (1 + c) - 1) <= 4 * u.
Proof.
  intros a b c u Hu HA HB HC. assert (P := prod_err2 a b u u HA HB).
  replace ((1 + a) * (1 + b)) with (1 + ((1 + a) * (1 + b) - 1)) by ring.
  apply Rle_trans with (1 := prod_err2 _ c _ u P HC). nra.
Qed.

Section Linspace.
Variables (start stop : f64) (n : Z).
Hypothesis Hn : (1 <= n <= 2 ^ 50)%Z.
Hypothesis Fs : ffin start = true.
Hypothesis Ft : ffin stop = true.
Let s := f2R start.
Let t := f2R stop.
Hypothesis Hst : s <= t.
Hypothesis Bs : Rabs s <= b2 1022.
Hypothesis Bt : Rabs t <= b2 1022.
Hypothesis Hgap : t = s \/ b2 (-49) <= t - s.

Let delta := fminus stop start.
Let step := fdiv delta (ofZ n).
Let scaled (i : Z) := if (0 <? n)%Z
      then if feqb step fzero then fmult (fdiv (ofZ i) (ofZ n)) delta else fmult (ofZ i) step
      else fmult (ofZ i) delta.
Let D := f2R delta.
Let S := f2R step.

Lemma lN : 1 <= IZR n <= 1125899906842624.
Proof. split; [apply IZR_le; lia|]. change 1125899906842624 with (IZR (2 ^ 50)). apply IZR_le. lia. Qed.

Lemma l_diff : t - s <= b2 1023.
Proof.
  apply Rabs_le_inv in Bs, Bt. change 1023%Z with (1022 + 1)%Z. rewrite bpow_plus. change (b2 1) with 2. lra.
Qed.

Lemma l_delta : ffin delta = true /\ D = rnd (t - s) /\ D <= b2 1023 /\ 0 <= D <= (t - s) * (1 + b2 (-53)) /\ (t = s /\ D = 0 \/ b2 (-49) <= D).
Proof.
  destruct (fminus_spec stop start 1023 Ft Fs ltac:(lia)) as [H1 H2].
  { fold s t. rewrite Rabs_pos_eq by lra. apply l_diff. }
  fold delta in H1, H2. fold D s t in H1. repeat split; try assumption.
  - rewrite H1. rewrite <- (rnd_id (b2 1023)) by (apply fmt_bpow; lia). apply rnd_le, l_diff.
  - rewrite H1, <- rnd_0. apply rnd_le. lra.
  - rewrite H1. apply rel_err_up; [lra|]. destruct Hgap as [E|E]; [left; lra|right].
    apply Rle_trans with (b2 (-49)); [apply b2_mono; lia|exact E].
  - destruct Hgap as [E|E]; [left|right].
    + split; [exact E|]. rewrite H1, E. replace (s - s) with 0 by ring. apply rnd_0.
    + rewrite H1, <- (rnd_id (b2 (-49))) by (apply fmt_bpow; lia). apply rnd_le, E.
Qed.

Lemma l_ofn : f2R (ofZ n) = IZR n.
Proof. apply ofZ_spec. lia. Qed.

Lemma l_quot : D = 0 \/ b2 (-99) <= D / IZR n.
Proof.
  destruct l_delta as (_ & _ & _ & _ & [[_ H]|H]); [left; exact H|right].
  assert (HN := lN). apply Rmult_le_reg_r with (IZR n); [lra|].
  unfold Rdiv. rewrite Rmult_assoc, Rinv_l, Rmult_1_r by lra.
  apply Rle_trans with (2 := H). change (-49)%Z with (-99 + 50)%Z. rewrite bpow_plus.
  apply Rmult_le_compat_l; [apply bpow_ge_0|]. change (b2 50) with 1125899906842624. lra.
Qed.

Lemma l_step : ffin step = true /\ 0 <= S <= D / IZR n * (1 + b2 (-53)) /\ (D = 0 /\ S = 0 \/ b2 (-99) <= S).
Proof.
  destruct l_delta as (F & HD & B & [P1 P2] & _). assert (HN := lN). assert (HQ := l_quot).
  assert (HP : 0 <= D / IZR n) by (apply Rmult_le_pos; [exact P1|left; apply Rinv_0_lt_compat; lra]).
  destruct (fdiv_spec delta (ofZ n) 1023 F) as [H1 H2]; [rewrite l_ofn; lra|lia| |].
  { rewrite l_ofn. fold D. rewrite Rabs_pos_eq by exact HP.
    apply Rle_trans with (2 := B). unfold Rdiv. rewrite <- (Rmult_1_r D) at 2.
    apply Rmult_le_compat_l; [exact P1|]. rewrite <- Rinv_1. apply Rinv_le; lra. }
  fold step in H1, H2. rewrite l_ofn in H1. fold D S in H1.
  split; [exact H2|]. split.
  - rewrite H1. apply rel_err_up; [exact HP|]. destruct HQ as [E|E]; [left; rewrite E; unfold Rdiv; ring|right].
    apply Rle_trans with (2 := E). apply b2_mono. lia.
  - destruct HQ as [E|E]; [left|right].
    + split; [exact E|]. rewrite H1, E. unfold Rdiv. rewrite Rmult_0_l. apply rnd_0.
    + rewrite H1, <- (rnd_id (b2 (-99))) by (apply fmt_bpow; lia). apply rnd_le, E.
Qed.

Lemma l_scaled : forall i, (0 <= i <= n - 1)%Z -> ffin (scaled i) = true /\ f2R (scaled i) = rnd (IZR i * S) /\ 0 <= f2R (scaled i) <= t - s.
Proof.
  intros i Hi. destruct l_delta as (F & HD & B & [P1 P2] & _). destruct l_step as (FS & [S1 S2] & HS).
  assert (HN := lN). assert (Hu := bpow_ge_0 radix2 (-53)).
  assert (HI : 0 <= IZR i <= IZR n - 1).
  { split; [apply IZR_le; lia|]. rewrite <- minus_IZR. apply IZR_le. lia. }
  assert (HiS : IZR i * S * (1 + b2 (-53)) <= t - s).
  { apply Rmult_le_reg_l with (IZR n); [lra|].
    apply Rle_trans with ((IZR n - 1) * (t - s) * (1 + b2 (-53)) * (1 + b2 (-53)) * (1 + b2 (-53))); [|apply nmul_bound; lra].
    assert (E1 : IZR n * S <= D * (1 + b2 (-53))).
    { apply Rle_trans with (IZR n * (D / IZR n * (1 + b2 (-53)))); [apply Rmult_le_compat_l; lra|].
      right. field. lra. }
    assert (E2 : IZR n * S <= (t - s) * (1 + b2 (-53)) * (1 + b2 (-53))).
    { apply Rle_trans with (1 := E1). apply Rmult_le_compat_r; lra. }
    replace (IZR n * (IZR i * S * (1 + b2 (-53)))) with (IZR i * (IZR n * S) * (1 + b2 (-53))) by ring.
    replace ((IZR n - 1) * (t - s) * (1 + b2 (-53)) * (1 + b2 (-53)) * (1 + b2 (-53)))
      with ((IZR n - 1) * ((t - s) * (1 + b2 (-53)) * (1 + b2 (-53))) * (1 + b2 (-53))) by ring.
    apply Rmult_le_compat_r; [lra|]. apply Rmult_le_compat; try lra.
    apply Rmult_le_pos; lra. }
  assert (HP : 0 <= IZR i * S) by (apply Rmult_le_pos; lra).
  assert (HR : 0 <= rnd (IZR i * S) <= t - s).
  { destruct (rel_err_up (IZR i * S) HP) as [R1 R2]; [|lra].
    destruct HS as [[_ E]|E]; [left; rewrite E; ring|].
    destruct (Z.eq_dec i 0) as [->|Hne]; [left; ring|right].
    apply Rle_trans with (b2 (-99)); [apply b2_mono; lia|].
    apply Rle_trans with (1 * S); [lra|]. apply Rmult_le_compat_r; [lra|]. apply IZR_le. lia. }
  unfold scaled. replace (0 <? n)%Z with true by (symmetry; apply Z.ltb_lt; lia).
  assert (Hoi : f2R (ofZ i) = IZR i /\ ffin (ofZ i) = true) by (apply ofZ_spec; lia). destruct Hoi as [Ei Fi].
  destruct (feqb step fzero) eqn:E0.
  - apply feqb_zero in E0; [|exact FS]. fold S in E0.
    destruct HS as [[ED ES]|HS]; [|exfalso; assert (0 < b2 (-99)) by apply bpow_gt_0; lra].
    destruct (fdiv_spec (ofZ i) (ofZ n) 0 Fi) as [G1 G2]; [rewrite l_ofn; lra|lia| |].
    { rewrite Ei, l_ofn. rewrite Rabs_pos_eq; [|apply Rmult_le_pos; [lra|left; apply Rinv_0_lt_compat; lra]].
      change (b2 0) with 1. apply Rmult_le_reg_r with (IZR n); [lra|]. unfold Rdiv. rewrite Rmult_assoc, Rinv_l; lra. }
    destruct (fmult_spec (fdiv (ofZ i) (ofZ n)) delta 0 G2 F ltac:(lia)) as [G3 G4].
    { fold D. rewrite ED, Rmult_0_r, Rabs_R0. apply bpow_ge_0. }
    fold D in G3. rewrite ED, Rmult_0_r in G3. rewrite ES, Rmult_0_r. rewrite rnd_0 in *. repeat split; [exact G4|exact G3|lra|lra].
  - destruct (fmult_spec (ofZ i) step 1023 Fi FS ltac:(lia)) as [G3 G4].
    { rewrite Ei. fold S. rewrite Rabs_pos_eq by exact HP.
      apply Rle_trans with (IZR i * S * (1 + b2 (-53))).
      - rewrite <- (Rmult_1_r (IZR i * S)) at 1. apply Rmult_le_compat_l; lra.
      - apply Rle_trans with (1 := HiS). apply l_diff. }
    rewrite Ei in G3. fold S in G3. rewrite G3. repeat split; [exact G4|lra|lra].
Qed.

Let pt (i : Z) := fplus (scaled i) start.
Lemma l_pt : forall i, (0 <= i <= n - 1)%Z -> ffin (pt i) = true /\ f2R (pt i) = rnd (rnd (IZR i * S) + s) /\ s <= f2R (pt i) <= t.
Proof.
  intros i Hi. destruct (l_scaled i Hi) as (F & E & P1 & P2).
  assert (B : s <= f2R (scaled i) + s <= t) by lra.
  destruct (fplus_spec (scaled i) start 1022 F Fs ltac:(lia)) as [G1 G2].
  { fold s. apply Rabs_le. apply Rabs_le_inv in Bs, Bt. lra. }
  fold (pt i) in G1, G2. fold s in G1. repeat split.
  - exact G2.
  - rewrite G1, E. reflexivity.
  - rewrite G1. rewrite <- (rnd_id s) at 1 by apply fmt_B2R. apply rnd_le. lra.
  - rewrite G1. rewrite <- (rnd_id t) by apply fmt_B2R. apply rnd_le. lra.
Qed.

Lemma l_step_eq : S = rnd (D / IZR n).
Proof.
  destruct l_delta as (F & HD & B & [P1 P2] & _). assert (HN := lN).
  assert (HP : 0 <= D / IZR n) by (apply Rmult_le_pos; [exact P1|left; apply Rinv_0_lt_compat; lra]).
  destruct (fdiv_spec delta (ofZ n) 1023 F) as [H1 H2]; [rewrite l_ofn; lra|lia| |].
  - rewrite l_ofn. fold D. rewrite Rabs_pos_eq by exact HP. apply Rle_trans with (2 := B). apply Rmult_le_reg_r with (IZR n); [lra|].
    unfold Rdiv. rewrite Rmult_assoc, Rinv_l, Rmult_1_r by lra. nra.
  - unfold S, step. rewrite H1, l_ofn. reflexivity.
Qed.
(** every edge is within rounding of the exact equally spaced point *)
Lemma l_near : forall i, (0 <= i <= n - 1)%Z -> Rabs (f2R (pt i) - (s + IZR i * ((t - s) / IZR n))) <= b2 (-50) * (Rabs s + Rabs t).
Proof.
  intros i Hi. destruct (l_pt i Hi) as (_ & EP & _). destruct (l_scaled i Hi) as (_ & ES & SC). destruct l_delta as (_ & HD & _ & _ & Hc). destruct l_step as (_ & _ & Hs). assert (HN := lN).
  assert (HST := Hst). assert (HG := Hgap).
  assert (AB : t - s <= Rabs s + Rabs t) by (pose proof (Rle_abs t); pose proof (Rle_abs (- s)); rewrite Rabs_Ropp in *; lra).
  assert (NB : 0 <= Rabs s + Rabs t) by (pose proof (Rabs_pos s); pose proof (Rabs_pos t); lra).
  assert (U50 : b2 (-50) = 8 * b2 (-53)) by (change (-50)%Z with (3 + -53)%Z; rewrite bpow_plus; reflexivity).
  assert (U : b2 (-53) = / 9007199254740992) by reflexivity.
  destruct Hc as [[Et E0]|HD49].
  - assert (S0 : S = 0) by (rewrite l_step_eq, E0; unfold Rdiv; rewrite Rmult_0_l; apply rnd_0).
    rewrite EP, S0, Rmult_0_r, rnd_0, Rplus_0_l, (rnd_id s) by apply fmt_B2R. rewrite Et. replace (s - (s + IZR i * ((s - s) / IZR n))) with 0 by (field; lra). rewrite Rabs_R0. apply Rmult_le_pos; [apply bpow_ge_0|rewrite <- Et at 2; exact NB].
  - assert (P49 : b2 (-49) <= t - s) by (destruct HG as [C|C]; [|exact C]; exfalso; rewrite HD, C, Rminus_diag_eq, rnd_0 in HD49 by reflexivity; pose proof (bpow_gt_0 radix2 (-49)); lra).
    assert (B1022 : b2 (-1022) <= b2 (-99)) by (apply b2_mono; lia). assert (B99 : b2 (-99) <= b2 (-49)) by (apply b2_mono; lia).
    destruct (rel_err (t - s)) as (e1 & X1 & Y1); [rewrite Rabs_pos_eq; lra|]. rewrite <- HD in Y1.
    assert (Q := l_quot). destruct Q as [Q|Q]; [pose proof (bpow_gt_0 radix2 (-49)); lra|].
    destruct (rel_err (D / IZR n)) as (e2 & X2 & Y2); [rewrite Rabs_pos_eq; [lra|pose proof (bpow_ge_0 radix2 (-99)); lra]|]. rewrite <- l_step_eq in Y2.
    assert (I0 : 0 <= IZR i <= IZR n - 1) by (split; [apply (IZR_le 0); lia|rewrite <- minus_IZR; apply IZR_le; lia]).
    assert (X : Rabs (rnd (IZR i * S) - IZR i * ((t - s) / IZR n)) <= 4 * b2 (-53) * (t - s)).
    { assert (E3 : exists e3, Rabs e3 <= b2 (-53) /\ rnd (IZR i * S) = IZR i * S * (1 + e3)).
      { destruct (Z.eq_dec i 0) as [Zi|Zi].
        - exists 0. rewrite Rabs_R0. split; [apply bpow_ge_0|]. rewrite Zi, !Rmult_0_l. apply rnd_0.
        - destruct Hs as [[C _]|Hs]; [pose proof (bpow_gt_0 radix2 (-49)); lra|]. assert (1 <= IZR i) by (apply IZR_le; lia).
          apply rel_err. pose proof (bpow_ge_0 radix2 (-99)). rewrite Rabs_pos_eq by nra. nra. }
      destruct E3 as (e3 & X3 & Y3). rewrite Y3, Y2, Y1. apply Rabs_le_inv in X1, X2, X3. set (u := b2 (-53)) in *.
      assert (F : (t - s) / IZR n * IZR i <= t - s) by (unfold Rdiv; apply Rmult_le_reg_r with (IZR n); [lra|]; replace ((t - s) * / IZR n * IZR i * IZR n) with ((t - s) * IZR i) by (field; lra); apply Rmult_le_compat_l; lra).
      assert (F0 : 0 <= (t - s) / IZR n * IZR i) by (apply Rmult_le_pos; [apply Rmult_le_pos; [lra|left; apply Rinv_0_lt_compat; lra]|lra]).
      replace (IZR i * ((t - s) * (1 + e1) / IZR n * (1 + e2)) * (1 + e3) - IZR i * ((t - s) / IZR n)) with (((t - s) / IZR n * IZR i) * ((1 + e1) * (1 + e2) * (1 + e3) - 1)) by (field; lra).
      rewrite Rabs_mult, (Rabs_pos_eq ((t - s) / IZR n * IZR i)) by exact F0.
      assert (G : Rabs ((1 + e1) * (1 + e2) * (1 + e3) - 1) <= 4 * u).
      { clear - X1 X2 X3 U. assert (u1 : 0 < u < 1/1000) by (rewrite U; lra). clear U. apply prod_err3; [split; lra|apply Rabs_le; exact X1|apply Rabs_le; exact X2|apply Rabs_le; exact X3]. }
      rewrite (Rmult_comm (4 * u)). apply Rmult_le_compat; [exact F0|apply Rabs_pos|exact F|exact G]. }
    rewrite EP. rewrite ES in SC. set (q := rnd (IZR i * S)) in *.
    destruct (error_N_FLT radix2 (-1074) 53 ltac:(lia) (fun z => negb (Z.even z)) (q + s)) as (ep & et & Z1 & Z2 & _ & Z3).
    change (round radix2 (FLT_exp (-1074) 53) (Znearest (fun z => negb (Z.even z))) (q + s)) with (rnd (q + s)) in Z3. rewrite Z3.
    assert (Z1' : Rabs ep <= b2 (-53)) by (apply Rle_trans with (1 := Z1); right; change (b2 (-53)) with (b2 (-1 + -52)); rewrite (bpow_plus radix2 (-1) (-52)); change (-53 + 1)%Z with (-52)%Z; change (b2 (-1)) with (/2); reflexivity).
    assert (Z2' : Rabs et <= b2 (-53) * b2 (-49)) by (apply Rle_trans with (1 := Z2); rewrite <- bpow_plus; apply Rle_trans with (b2 (-1074)); [pose proof (bpow_ge_0 radix2 (-1074)); lra|apply b2_mono; lia]).
    assert (QB : Rabs (q + s) <= Rabs s + Rabs t) by (apply Rabs_le; pose proof (Rle_abs t); pose proof (Rle_abs s); pose proof (Rle_abs (- s)); pose proof (Rle_abs (- t)); rewrite !Rabs_Ropp in *; pose proof (Rabs_pos s); pose proof (Rabs_pos t); lra).
    replace ((q + s) * (1 + ep) + et - (s + IZR i * ((t - s) / IZR n))) with ((q - IZR i * ((t - s) / IZR n)) + (q + s) * ep + et) by ring.
    apply Rle_trans with (1 := Rabs_triang _ _). apply Rle_trans with (4 * b2 (-53) * (t - s) + b2 (-53) * (Rabs s + Rabs t) + b2 (-53) * b2 (-49)).
    + apply Rplus_le_compat; [|exact Z2']. apply Rle_trans with (1 := Rabs_triang _ _). apply Rplus_le_compat; [exact X|]. rewrite Rabs_mult, Rmult_comm. apply Rmult_le_compat; auto using Rabs_pos.
    + rewrite U50. assert (UP : 0 < b2 (-53)) by apply bpow_gt_0. clear - UP AB P49 NB. nra.
Qed.

Lemma linspace_near : forall e, linspace start stop (n + 1) = Ok e -> forall k, (k <= Z.to_nat n)%nat -> Rabs (f2R (nth k e fnan) - (s + INR k * ((t - s) / IZR n))) <= b2 (-50) * (Rabs s + Rabs t).
Proof.
  intros e E k Hk. unfold linspace in E. replace (n + 1 <? 0)%Z with false in E by (symmetry; apply Z.ltb_ge; lia).
  replace (1 <? n + 1)%Z with true in E by (symmetry; apply Z.ltb_lt; lia). replace (n + 1 - 1)%Z with n in E by lia. cbv zeta in E.
  change (fun i : nat => fplus _ start) with (fun i : nat => pt (Z.of_nat i)) in E. apply (f_equal (fun r => match r with Ok v => v | Raise _ => nil end)) in E. cbn beta iota in E. subst e.
  set (y := map (fun i => pt (Z.of_nat i)) (seq 0 (Z.to_nat (n + 1)))).
  assert (HL : length y = (Z.to_nat n + 1)%nat) by (unfold y; rewrite map_length, seq_length; lia). assert (HN := lN).
  destruct (Nat.eq_dec k (Z.to_nat n)) as [->|NE].
  - replace (Z.to_nat n) with (length y - 1)%nat at 1 by lia. rewrite set_last_last by lia. fold t. rewrite INR_IZR_INZ, Z2Nat.id by lia. replace (t - (s + IZR n * ((t - s) / IZR n))) with 0 by (field; lra).
    rewrite Rabs_R0. apply Rmult_le_pos; [apply bpow_ge_0|pose proof (Rabs_pos s); pose proof (Rabs_pos t); lra].
  - rewrite set_last_nth by lia. unfold y. rewrite nth_indep with (d' := pt (Z.of_nat 0)) by (rewrite map_length, seq_length; lia).
    rewrite (map_nth (fun i => pt (Z.of_nat i))), seq_nth by lia. cbn [plus]. rewrite INR_IZR_INZ. apply l_near. lia.
Qed.

Lemma linspace_spec : exists e, linspace start stop (n + 1) = Ok e /\ length e = (Z.to_nat n + 1)%nat /\
  (forall i, (i < length e)%nat -> ffin (nth i e fnan) = true) /\ ascending e /\
  f2R (nth 0 e fnan) = s /\ nth (Z.to_nat n) e fnan = stop.
Proof.
  set (y := map (fun i => pt (Z.of_nat i)) (seq 0 (Z.to_nat (n + 1)))).
  assert (HL : length y = (Z.to_nat n + 1)%nat) by (unfold y; rewrite map_length, seq_length; lia).
  exists (set_last y stop). split.
  { unfold linspace. replace (n + 1 <? 0)%Z with false by (symmetry; apply Z.ltb_ge; lia).
    replace (1 <? n + 1)%Z with true by (symmetry; apply Z.ltb_lt; lia).
    replace (n + 1 - 1)%Z with n by lia. reflexivity. }
  rewrite set_last_length. split; [exact HL|].
  assert (HY : forall i, (i < Z.to_nat n)%nat -> nth i (set_last y stop) fnan = pt (Z.of_nat i)).
  { intros i Hi. rewrite set_last_nth by lia. unfold y.
    rewrite nth_indep with (d' := pt (Z.of_nat 0)) by (rewrite map_length, seq_length; lia).
    rewrite (map_nth (fun i => pt (Z.of_nat i))). rewrite seq_nth by lia. reflexivity. }
  assert (HZ : nth (Z.to_nat n) (set_last y stop) fnan = stop).
  { replace (Z.to_nat n) with (length y - 1)%nat by lia. apply set_last_last. lia. }
  assert (HF : forall i, (i < length y)%nat -> ffin (nth i (set_last y stop) fnan) = true).
  { intros i Hi. destruct (Nat.eq_dec i (Z.to_nat n)) as [->|Hne]; [rewrite HZ; exact Ft|].
    rewrite HY by lia. apply l_pt. lia. }
  split; [exact HF|]. split; [|split; [|exact HZ]].
  - intros i j. rewrite set_last_length. intros Hij.
    apply fle_spec; [apply HF; lia|apply HF; lia|].
    destruct (Nat.eq_dec i (Z.to_nat n)) as [->|Hi].
    { replace j with (Z.to_nat n) by lia. lra. }
    rewrite HY by lia. destruct (l_pt (Z.of_nat i)) as (_ & Ei & Bi1 & Bi2); [lia|].
    destruct (Nat.eq_dec j (Z.to_nat n)) as [->|Hj]; [rewrite HZ; exact Bi2|].
    rewrite HY by lia. destruct (l_pt (Z.of_nat j)) as (_ & Ej & _ & _); [lia|]. rewrite Ei, Ej.
    apply rnd_le. apply Rplus_le_compat_r. apply rnd_le. apply Rmult_le_compat_r; [apply l_step|apply IZR_le; lia].
  - rewrite HY by lia. destruct (l_pt (Z.of_nat 0)) as (_ & E0 & _ & _); [lia|]. rewrite E0.
    change (Z.of_nat 0) with 0%Z. rewrite Rmult_0_l, rnd_0, Rplus_0_l. apply rnd_id. apply fmt_B2R.
Qed.
End Linspace.

Lemma fminl_spec : forall l a, ffin a = true -> (forall v, In v l -> ffin v = true) ->
  In (fold_left fmin2 l a) (a :: l) /\ forall v, In v (a :: l) -> f2R (fold_left fmin2 l a) <= f2R v.
Proof.
  induction l as [|b l IH]; intros a Fa Fl; cbn [fold_left].
  - split; [left; reflexivity|]. intros v [->|[]]. lra.
  - assert (Fb : ffin b = true) by (apply Fl; left; reflexivity).
    assert (Fm : ffin (fmin2 a b) = true) by (unfold fmin2; destruct (flt b a); assumption).
    destruct (IH (fmin2 a b) Fm) as [H1 H2]; [intros v Hv; apply Fl; right; exact Hv|].
    split.
    + destruct H1 as [H1|H1]; [|right; right; exact H1].
      rewrite <- H1. unfold fmin2. destruct (flt b a); [right; left; reflexivity|left; reflexivity].
    + assert (Hab : f2R (fmin2 a b) <= f2R a /\ f2R (fmin2 a b) <= f2R b).
      { unfold fmin2. destruct (flt b a) eqn:E.
        - apply flt_spec in E; [lra|assumption|assumption].
        - assert (~ f2R b < f2R a) by (intros C; apply flt_spec in C; [congruence|assumption|assumption]). lra. }
      specialize (H2 (fmin2 a b) (or_introl eq_refl)) as H3.
      intros v [<-|[<-|Hv]]; [lra|lra|]. apply H2. right. exact Hv.
Qed.

Lemma fmaxl_spec : forall l a, ffin a = true -> (forall v, In v l -> ffin v = true) ->
  In (fold_left fmax2 l a) (a :: l) /\ forall v, In v (a :: l) -> f2R v <= f2R (fold_left fmax2 l a).
Proof.
  induction l as [|b l IH]; intros a Fa Fl; cbn [fold_left].
  - split; [left; reflexivity|]. intros v [->|[]]. lra.
  - assert (Fb : ffin b = true) by (apply Fl; left; reflexivity).
    assert (Fm : ffin (fmax2 a b) = true) by (unfold fmax2; destruct (flt a b); assumption).
    destruct (IH (fmax2 a b) Fm) as [H1 H2]; [intros v Hv; apply Fl; right; exact Hv|].
    split.
    + destruct H1 as [H1|H1]; [|right; right; exact H1].
      rewrite <- H1. unfold fmax2. destruct (flt a b); [right; left; reflexivity|left; reflexivity].
    + assert (Hab : f2R a <= f2R (fmax2 a b) /\ f2R b <= f2R (fmax2 a b)).
      { unfold fmax2. destruct (flt a b) eqn:E.
        - apply flt_spec in E; [lra|assumption|assumption].
        - assert (~ f2R a < f2R b) by (intros C; apply flt_spec in C; [congruence|assumption|assumption]). lra. }
      specialize (H2 (fmax2 a b) (or_introl eq_refl)) as H3.
      intros v [<-|[<-|Hv]]; [lra|lra|]. apply H2. right. exact Hv.
Qed.

Lemma fin_not_nan : forall v, ffin v = true -> fisnan v = false.
Proof. intros v H. destruct v; try discriminate; reflexivity. Qed.

(** C03 *)
Lemma bin_edges_pre : forall npq arr n lo hi,
  data_range arr lo hi ->
  exists start x, bin_edges npq arr n false = linspace start x (n + 1) /\ ffin start = true /\ ffin x = true /\ f2R start <= f2R x /\
    Rabs (f2R start) <= b2 1022 /\ Rabs (f2R x) <= b2 1022 /\ (f2R x = f2R start \/ b2 (-49) <= f2R x - f2R start) /\
    f2R start = rnd (f2R lo - dl) /\ f2R x = f2R hi.
Proof.
  intros npq arr n lo hi (Hfin & Hlo & Hhi & Flo & Fhi & Hr).
  unfold bin_edges. set (vals := filter (fun v => negb (fisnan v)) arr).
  assert (Hin : forall v, In v vals <-> In v arr /\ fisnan v = false).
  { intros v. unfold vals. rewrite filter_In, negb_true_iff. tauto. }
  assert (HV : forall v, In v vals -> ffin v = true /\ Rabs (f2R v) <= b2 1022 /\ f2R lo <= f2R v <= f2R hi).
  { intros v Hv. apply Hin in Hv. destruct Hv as [H1 H2]. destruct (Hfin v H1 H2). repeat split; auto; apply Hr; auto. }
  destruct vals as [|a l] eqn:Ev.
  { exfalso. apply (proj2 (Hin lo)). split; [exact Hlo|apply fin_not_nan; exact Flo]. }
  assert (Fa : ffin a = true) by (apply HV; left; reflexivity).
  assert (Fl : forall v, In v l -> ffin v = true) by (intros v Hv; apply HV; right; exact Hv).
  destruct (fminl_spec l a Fa Fl) as [Mi Mb]. destruct (fmaxl_spec l a Fa Fl) as [Xi Xb].
  change (fold_left fmin2 l a) with (fminl (a :: l)) in *. change (fold_left fmax2 l a) with (fmaxl (a :: l)) in *.
  assert (ML : f2R (fminl (a :: l)) = f2R lo).
  { apply Rle_antisym; [apply Mb; apply Hin; split; [exact Hlo|apply fin_not_nan; exact Flo]|]. apply HV; exact Mi. }
  assert (XL : f2R (fmaxl (a :: l)) = f2R hi).
  { apply Rle_antisym; [apply HV; exact Xi|]. apply Xb; apply Hin; split; [exact Hhi|apply fin_not_nan; exact Fhi]. }
  destruct (HV _ Mi) as (Fm & Bm & Cm). destruct (HV _ Xi) as (Fx & Bx & Cx).
  set (m := fminl (a :: l)) in *. set (x := fmaxl (a :: l)) in *.
  assert (Hd := dl_val).
  assert (Bd : Rabs (f2R m - dl) <= b2 1023).
  { apply Rabs_le_inv in Bm. apply Rabs_le. change 1023%Z with (1022 + 1)%Z. rewrite bpow_plus. change (b2 1) with 2.
    assert (1 <= b2 1022) by (change 1 with (b2 0); apply b2_mono; lia). lra. }
  destruct (fminus_spec m tiny 1023 Fm tiny_fin ltac:(lia) Bd) as [ES FS].
  fold dl in ES.
  assert (Hfm : fmt (f2R m)) by apply fmt_B2R.
  assert (Hcase : -128 < f2R m <= 128 \/ (128 < f2R m \/ f2R m <= -128)) by lra.
  exists (fminus m tiny), x. split; [reflexivity|]. split; [exact FS|]. split; [exact Fx|]. split; [|split; [|split; [|split; [|split]]]].
  - rewrite ES. apply Rle_trans with (f2R m); [|lra]. rewrite <- (rnd_id (f2R m)) at 2 by exact Hfm. apply rnd_le. lra.
  - rewrite ES. destruct Hcase as [Hc|Hc].
    + apply rnd_abs_le; [apply fmt_bpow; lia|]. apply Rabs_le.
      assert (256 <= b2 1022) by (change 256 with (b2 8); apply b2_mono; lia). lra.
    + rewrite off_absorbed by assumption. exact Bm.
  - exact Bx.
  - rewrite ES. destruct Hcase as [Hc|Hc].
    + right. assert (H := off_effective (f2R m) Hfm Hc). lra.
    + rewrite off_absorbed by assumption.
      destruct (Req_dec (f2R x) (f2R m)) as [E|E]; [left; exact E|right].
      assert (Hlt : f2R m < f2R x) by lra.
      assert (Hs : succ (f2R m) <= f2R x) by (apply succ_le_lt; [exact vexp|exact Hfm|apply fmt_B2R|exact Hlt]).
      assert (E49 := b2_m49). assert (E46 := b2_m46). assert (E45 := b2_m45).
      destruct Hc as [Hc|Hc].
      * rewrite succ_eq_pos in Hs by lra.
        assert (Hl : ulp 128 <= ulp (f2R m)) by (apply ulp_le_pos; [exact vexp|exact mexp|lra|lra]).
        rewrite ulp_128 in Hl. lra.
      * (* pred of a number >= 128 *)
        replace (succ (f2R m)) with (- pred (- f2R m)) in Hs by (rewrite pred_opp; ring).
        destruct (Req_dec (f2R m) (-128)) as [E2|E2].
        -- rewrite E2 in *. replace (- -128) with (b2 7) in Hs by (rewrite b2_7; ring).
           rewrite pred_bpow, b2_7 in Hs. change (fe 7) with (-46)%Z in Hs. lra.
        -- assert (Hp : 128 <= pred (- f2R m)) by (apply pred_ge_gt; [exact vexp|apply fmt_128|apply fmt_opp; exact Hfm|lra]).
           assert (Hu : pred (- f2R m) + ulp (pred (- f2R m)) = - f2R m) by (apply pred_plus_ulp; [exact vexp|lra|apply fmt_opp; exact Hfm]).
           assert (Hl : ulp 128 <= ulp (pred (- f2R m))) by (apply ulp_le_pos; [exact vexp|exact mexp|lra|exact Hp]).
           rewrite ulp_128 in Hl. lra.
  - rewrite ES, ML. reflexivity.
  - exact XL.
Qed.
Lemma bin_edges_uniform : forall npq arr n lo hi,
  data_range arr lo hi -> (1 <= n <= 2 ^ 50)%Z ->
  exists e, bin_edges npq arr n false = Ok e /\ length e = (Z.to_nat n + 1)%nat /\ ascending e /\
    (forall x, In x e -> ffin x = true) /\
    f2R (nth 0 e fnan) = rnd (f2R lo - f2R tiny) /\ f2R (nth (Z.to_nat n) e fnan) = f2R hi.
Proof.
  intros npq arr n lo hi Hd Hn. destruct (bin_edges_pre npq arr n lo hi Hd) as (s & x & E & Fs & Fx & L & Bs & Bx & G & ES & EX).
  destruct (linspace_spec s x n Hn Fs Fx L Bs Bx G) as (e & E1 & E2 & E3 & E4 & E5 & E6).
  exists e. split; [rewrite E; exact E1|]. split; [exact E2|]. split; [exact E4|]. split.
  - intros y Hy. apply In_nth with (d := fnan) in Hy. destruct Hy as (k & Hk & <-). apply E3; exact Hk.
  - split; [rewrite E5; exact ES|rewrite E6; exact EX].
Qed.
(** the edges are equally spaced, up to rounding *)
Lemma bin_edges_near : forall npq arr n lo hi e,
  data_range arr lo hi -> (1 <= n <= 2 ^ 50)%Z -> bin_edges npq arr n false = Ok e ->
  let a := rnd (f2R lo - f2R tiny) in
  forall k, (k <= Z.to_nat n)%nat -> Rabs (f2R (nth k e fnan) - (a + INR k * ((f2R hi - a) / IZR n))) <= b2 (-50) * (Rabs a + Rabs (f2R hi)).
Proof.
  intros npq arr n lo hi e Hd Hn He a k Hk. destruct (bin_edges_pre npq arr n lo hi Hd) as (s & x & E & Fs & Fx & L & Bs & Bx & G & ES & EX).
  rewrite E in He. assert (H := linspace_near s x n Hn Fs Fx L Bs Bx G e He k Hk). rewrite ES, EX in H. exact H.
Qed.

Lemma bin_of_cases : forall e v c, ascending e -> (2 <= length e)%nat -> ffin v = true ->
  (forall x, In x e -> ffin x = true) -> f2R v <= f2R (nth (length e - 1) e fnan) -> bin_of e v c ->
  (f2R v <= f2R (nth 0 e fnan) /\ c = CStr "UF") \/
  (f2R (nth 0 e fnan) < f2R v /\ exists i : nat, (1 <= i < length e)%nat /\ c = CInt (Z.of_nat i)).
Proof.
  intros e v c Ha Hl Fv Fe Hv H.
  assert (F0 : forall i, (i < length e)%nat -> ffin (nth i e fnan) = true) by (intros i Hi; apply Fe, nth_In; exact Hi).
  destruct H as [H|H|H|i Hi H1 H2].
  - rewrite fin_not_nan in H by exact Fv. discriminate.
  - left. split; [|reflexivity]. apply fle_spec in H; [exact H|exact Fv|apply F0; lia].
  - exfalso. apply flt_spec in H; [lra|apply F0; lia|exact Fv].
  - right. split; [|exists i; auto].
    apply flt_spec in H1; [|apply F0; lia|exact Fv].
    assert (H := Ha 0%nat (i - 1)%nat ltac:(lia)). apply fle_spec in H; [lra|apply F0; lia|apply F0; lia].
Qed.

(** binning of values in [lo, hi] with ascending finite edges from rnd (lo - tiny) to hi *)
Lemma edges_binning : forall arr n lo hi e,
  (forall v, In v arr -> fisnan v = false -> ffin v = true /\ f2R lo <= f2R v <= f2R hi) -> (1 <= n)%Z ->
  length e = (Z.to_nat n + 1)%nat -> ascending e -> (forall x, In x e -> ffin x = true) ->
  f2R (nth 0 e fnan) = rnd (f2R lo - f2R tiny) -> f2R (nth (Z.to_nat n) e fnan) = f2R hi ->
  Forall2 (fun v c =>
      (fisnan v = true -> c = CNaN) /\
      (fisnan v = false -> f2R lo < f2R v \/ -128 < f2R lo <= 128 -> exists i, (1 <= i <= n)%Z /\ c = CInt i) /\
      (fisnan v = false -> f2R v = f2R lo -> ~ (-128 < f2R lo <= 128) -> c = CStr "UF"))
    arr (fst (bin_array arr e)).
Proof.
  intros arr n lo hi e HD Hn E2 E3 E4 E5 E6.
  assert (HB := bin_array_spec arr e ltac:(lia) E3).
  assert (Hd := dl_val). assert (Hfl : fmt (f2R lo)) by apply fmt_B2R. fold dl in E5.
  induction HB as [|v c l1 l2 H HB IH]; constructor.
  2:{ apply IH. intros w Hw. apply HD. right. exact Hw. }
  specialize (HD v (or_introl eq_refl)). clear IH HB.
  assert (HC : fisnan v = false -> (f2R v <= f2R (nth 0 e fnan) /\ c = CStr "UF") \/
     (f2R (nth 0 e fnan) < f2R v /\ exists i : nat, (1 <= i < length e)%nat /\ c = CInt (Z.of_nat i))).
  { intros Hv. destruct (HD Hv) as [Fv Bv]. apply bin_of_cases; try assumption; [lia|].
    replace (length e - 1)%nat with (Z.to_nat n) by lia. lra. }
  repeat split.
  - intros Hv. destruct H as [H|H|H|i Hi H1 H2]; [reflexivity| | |]; exfalso.
    + apply fle_nan in H. unfold fisnan in Hv. destruct H. congruence.
    + apply flt_nan in H. unfold fisnan in Hv. destruct H. congruence.
    + apply flt_nan in H1. unfold fisnan in Hv. destruct H1. congruence.
  - intros Hv Hc. destruct (HC Hv) as [[A B]|(A & i & Hi & B)].
    + exfalso. rewrite E5 in A. destruct (HD Hv) as [Fv Bv]. destruct Hc as [Hc|Hc].
      * assert (rnd (f2R lo - dl) <= f2R lo) by (rewrite <- (rnd_id (f2R lo)) at 2 by exact Hfl; apply rnd_le; lra). lra.
      * assert (H3 := off_effective (f2R lo) Hfl Hc). assert (0 < b2 (-49)) by apply bpow_gt_0. lra.
    + exists (Z.of_nat i). split; [lia|exact B].
  - intros Hv Hm Hc. destruct (HC Hv) as [[A B]|(A & i & Hi & B)]; [exact B|].
    exfalso. rewrite E5, off_absorbed in A by (try exact Hfl; lra). lra.
Qed.

(** C04 *)
Lemma uniform_binning : forall npq arr n lo hi, data_range arr lo hi -> (1 <= n <= 2 ^ 50)%Z ->
  exists e, bin_edges npq arr n false = Ok e /\ Forall2 (fun v c =>
      (fisnan v = true -> c = CNaN) /\
      (fisnan v = false -> f2R lo < f2R v \/ -128 < f2R lo <= 128 -> exists i, (1 <= i <= n)%Z /\ c = CInt i) /\
      (fisnan v = false -> f2R v = f2R lo -> ~ (-128 < f2R lo <= 128) -> c = CStr "UF"))
    arr (fst (bin_array arr e)).
Proof.
  intros npq arr n lo hi Hd Hn. destruct (bin_edges_uniform npq arr n lo hi Hd Hn) as (e & E1 & E2 & E3 & E4 & E5 & E6).
  exists e. split; [exact E1|].
  destruct Hd as (Hfin & Hlo & Hhi & Flo & Fhi & Hr). apply edges_binning with hi; try assumption; [|lia].
  intros v H1 H2. destruct (Hfin v H1 H2). split; auto.
Qed.
