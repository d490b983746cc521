(** Rounding errors of the G statistic in binary64 (C102). *)
From Coq Require Import ZArith List Bool Reals Lia Lra Psatz Permutation.
Import ListNotations.
From Flocq Require Import Core BinarySingleNaN.
From Verif Require Import F64 Base RSum StatsModel SpecStats StatsProofs LinspaceProofs BrentFModel BrentFProofs Chi2FModel SpecChi2F Chi2FProofs Chi2FProofs2 GStatModel SpecGStat.
Open Scope R_scope.

(** ** sums of numbers of both signs in any order *)
Lemma added_signed : forall l s, added l s -> (forall x, In x l -> ffin x = true) -> INR (length l) * u53 <= 1 / 4 -> lsum (fun x => Rabs (f2R x)) l <= b2 500 ->
  ffin s = true /\ Rabs (f2R s - lsum f2R l) <= 2 * INR (length l) * u53 * lsum (fun x => Rabs (f2R x)) l.
Proof.
  pose proof u53_pos as U. induction 1 as [|x|l1 l2 s1 s2 H1 IH1 H2 IH2|l l' s H IH P]; intros NN LE BD.
  - split; [reflexivity|]. cbn. rewrite Rminus_0_r, Rabs_R0. lra.
  - split; [apply NN; left; reflexivity|]. rewrite !lsum_cons, !lsum_nil. cbn [length]. change (INR 1) with 1. rewrite !Rplus_0_r. unfold Rminus. rewrite Rplus_opp_r, Rabs_R0. pose proof (Rabs_pos (f2R x)). nra.
  - rewrite app_length, plus_INR in *. rewrite !lsum_app in *. pose proof (pos_INR (length l1)) as N1. pose proof (pos_INR (length l2)) as N2.
    set (A1 := lsum (fun x => Rabs (f2R x)) l1) in *. set (A2 := lsum (fun x => Rabs (f2R x)) l2) in *.
    assert (P1 : 0 <= A1) by (apply lsum_nonneg; intros; apply Rabs_pos). assert (P2 : 0 <= A2) by (apply lsum_nonneg; intros; apply Rabs_pos).
    destruct IH1 as (F1 & B1); [intros x Hx; apply NN, in_or_app; left; exact Hx|nra|lra|].
    destruct IH2 as (F2 & B2); [intros x Hx; apply NN, in_or_app; right; exact Hx|nra|lra|].
    assert (L1 : Rabs (lsum f2R l1) <= A1) by apply lsum_abs. assert (L2 : Rabs (lsum f2R l2) <= A2) by apply lsum_abs.
    set (n1 := INR (length l1)) in *. set (n2 := INR (length l2)) in *. set (S1 := lsum f2R l1) in *. set (S2 := lsum f2R l2) in *.
    assert (C1 : Rabs (f2R s1) <= A1 * (1 + 2 * n1 * u53)). { replace (f2R s1) with ((f2R s1 - S1) + S1) by ring. eapply Rle_trans; [apply Rabs_triang|]. lra. }
    assert (C2 : Rabs (f2R s2) <= A2 * (1 + 2 * n2 * u53)). { replace (f2R s2) with ((f2R s2 - S2) + S2) by ring. eapply Rle_trans; [apply Rabs_triang|]. lra. }
    assert (CS : Rabs (f2R s1 + f2R s2) <= A1 * (1 + 2 * n1 * u53) + A2 * (1 + 2 * n2 * u53)) by (eapply Rle_trans; [apply Rabs_triang|]; lra).
    assert (M1 : 2 * n1 * u53 <= 1 / 2) by nra. assert (M2 : 2 * n2 * u53 <= 1 / 2) by nra.
    assert (BB : Rabs (f2R s1 + f2R s2) <= b2 501). { replace (b2 501) with (2 * b2 500) by (change 501%Z with (1 + 500)%Z; rewrite bpow_plus; reflexivity). assert (A1 * (1 + 2 * n1 * u53) <= A1 * 2) by (apply Rmult_le_compat_l; lra). assert (A2 * (1 + 2 * n2 * u53) <= A2 * 2) by (apply Rmult_le_compat_l; lra). lra. }
    destruct (fplus_spec s1 s2 501 F1 F2 ltac:(lia) BB) as [V F]. split; [exact F|].
    pose proof (rnd_plus_err (f2R s1) (f2R s2) (fmt_B2R s1) (fmt_B2R s2)) as E. rewrite <- V in E.
    assert (T : Rabs (f2R (fplus s1 s2) - (S1 + S2)) <= Rabs (f2R (fplus s1 s2) - (f2R s1 + f2R s2)) + (2 * n1 * u53 * A1 + 2 * n2 * u53 * A2)).
    { eapply Rle_trans; [apply (rabs_split _ (f2R s1 + f2R s2))|]. replace (f2R s1 + f2R s2 - (S1 + S2)) with ((f2R s1 - S1) + (f2R s2 - S2)) by ring. pose proof (Rabs_triang (f2R s1 - S1) (f2R s2 - S2)). lra. }
    destruct l1 as [|a1 l1].
    { unfold A1, S1 in *. rewrite !lsum_nil in *. assert (Z1 : f2R s1 = 0). { destruct (Req_dec (f2R s1) 0) as [Z|Z]; [exact Z|]. pose proof (Rabs_pos_lt _ Z). lra. } rewrite V, Z1, (Rplus_0_l (f2R s2)), (rnd_id _ (fmt_B2R s2)). unfold n1. cbn [length]. change (INR 0) with 0. rewrite !Rplus_0_l. exact B2. }
    destruct l2 as [|a2 l2].
    { unfold A2, S2 in *. rewrite !lsum_nil in *. assert (Z1 : f2R s2 = 0). { destruct (Req_dec (f2R s2) 0) as [Z|Z]; [exact Z|]. pose proof (Rabs_pos_lt _ Z). lra. } rewrite V, Z1, (Rplus_0_r (f2R s1)), (rnd_id _ (fmt_B2R s1)). unfold n2. cbn [length]. change (INR 0) with 0. rewrite !Rplus_0_r. exact B1. }
    assert (G1 : 1 <= n1) by (unfold n1; cbn [length]; rewrite S_INR; pose proof (pos_INR (length l1)); lra). assert (G2 : 1 <= n2) by (unfold n2; cbn [length]; rewrite S_INR; pose proof (pos_INR (length l2)); lra).
    assert (UE : u53 * Rabs (f2R s1 + f2R s2) <= u53 * (A1 * (3 / 2)) + u53 * (A2 * (3 / 2))). { rewrite <- Rmult_plus_distr_l. apply Rmult_le_compat_l; [lra|]. assert (A1 * (1 + 2 * n1 * u53) <= A1 * (3 / 2)) by (apply Rmult_le_compat_l; lra). assert (A2 * (1 + 2 * n2 * u53) <= A2 * (3 / 2)) by (apply Rmult_le_compat_l; lra). lra. }
    assert (X1 : u53 * A1 * 1 <= u53 * A1 * n2) by (apply Rmult_le_compat_l; [apply Rmult_le_pos; lra|exact G2]). assert (X2 : u53 * A2 * 1 <= u53 * A2 * n1) by (apply Rmult_le_compat_l; [apply Rmult_le_pos; lra|exact G1]).
    replace (2 * (n1 + n2) * u53 * (A1 + A2)) with (2 * n1 * u53 * A1 + 2 * n2 * u53 * A2 + 2 * (u53 * A1 * n2) + 2 * (u53 * A2 * n1)) by ring.
    assert (0 <= u53 * A1) by (apply Rmult_le_pos; lra). assert (0 <= u53 * A2) by (apply Rmult_le_pos; lra). lra.
  - rewrite <- (Permutation_length P), <- !(lsum_perm _ _ _ _ P) in *. apply IH; [|exact LE|exact BD]. intros x Hx. apply NN. eapply Permutation_in; eassumption.
Qed.

(** ** logarithms *)
Lemma ln_sub1 : forall x, 0 < x -> ln x <= x - 1.
Proof. intros x Hx. pose proof (exp_ineq1_le (ln x)) as H. rewrite exp_ln in H by exact Hx. lra. Qed.
Lemma ln_near1 : forall u d, 0 <= u <= 1 / 1000 -> Rabs d <= u -> Rabs (ln (1 + d)) <= 1002 / 1000 * u.
Proof.
  intros u d U D. apply Rabs_le_inv in D. pose proof (ln_sub1 (1 + d) ltac:(lra)) as A. pose proof (ln_sub1 (/ (1 + d)) ltac:(apply Rinv_0_lt_compat; lra)) as B. rewrite ln_Rinv in B by lra.
  assert (C : / (1 + d) - 1 <= 1002 / 1000 * u). { apply Rmult_le_reg_r with (1 + d); [lra|]. rewrite Rmult_minus_distr_r, Rinv_l by lra. nra. }
  apply Rabs_le. lra.
Qed.
(** the term of one cell, with an abstract unit roundoff *)
Lemma g_term_err : forall u eta o' e oh eh yh lh ph th, 0 < u <= 1 / 1000000 -> 0 < o' -> 0 < e -> 0 <= eta <= u * u * o' ->
  Rabs (oh - o') <= 26 * u * o' -> Rabs (eh - e) <= 3 * u * e -> Rabs (yh - oh / eh) <= u * (oh / eh) -> Rabs (lh - ln yh) <= 2 * u * Rabs (ln yh) ->
  Rabs (ph - oh * lh) <= u * Rabs (oh * lh) + eta -> Rabs (th - 2 * ph) <= u * Rabs (2 * ph) + eta ->
  0 < yh /\ Rabs (th - 2 * (o' * ln (o' / e))) <= u * (62 * o' + 62 * (o' * Rabs (ln (o' / e)))) /\ Rabs lh <= Rabs (ln (o' / e)) * (1001 / 1000) + 1.
Proof.
  intros u eta o' e oh eh yh lh ph th U Ho He ET HO HE HY HL HP HT. set (L := ln (o' / e)).
  apply Rabs_le_inv in HO. apply Rabs_le_inv in HE.
  assert (PO : 0 < oh) by nra. assert (PE : 0 < eh) by nra. assert (PQ : 0 < oh / eh) by (apply Rdiv_lt_0_compat; assumption). assert (PR : 0 < o' / e) by (apply Rdiv_lt_0_compat; assumption).
  apply Rabs_le_inv in HY. assert (PY : 0 < yh) by nra. split; [exact PY|].
  (* yh = o'/e * (1 + d) *)
  set (d := yh / (o' / e) - 1).
  assert (QB : oh / eh * (e / o') <= 1 + 291 / 10 * u /\ 1 - 291 / 10 * u <= oh / eh * (e / o')).
  { replace (oh / eh * (e / o')) with ((oh * e) / (eh * o')) by (field; lra). assert (PD : 0 < eh * o') by (apply Rmult_lt_0_compat; assumption).
    assert (OE : 0 < o' * e) by (apply Rmult_lt_0_compat; assumption).
    assert (Z1 : oh * e <= (1 + 26 * u) * (o' * e)) by nra. assert (Z2 : (1 - 26 * u) * (o' * e) <= oh * e) by nra. assert (Z3 : eh * o' <= (1 + 3 * u) * (o' * e)) by nra. assert (Z4 : (1 - 3 * u) * (o' * e) <= eh * o') by nra.
    split; (apply Rmult_le_reg_r with (eh * o'); [exact PD|]); [unfold Rdiv at 1; rewrite Rmult_assoc, Rinv_l, Rmult_1_r by lra|unfold Rdiv at 2; rewrite (Rmult_assoc (oh * e)), Rinv_l, Rmult_1_r by lra].
    - eapply Rle_trans; [exact Z1|]. apply Rle_trans with ((1 + 291 / 10 * u) * ((1 - 3 * u) * (o' * e))); [|apply Rmult_le_compat_l; lra]. rewrite <- (Rmult_assoc _ (1 - 3 * u)). apply Rmult_le_compat_r; [lra|]. clear - U. nra.
    - eapply Rle_trans; [|exact Z2]. apply Rle_trans with ((1 - 291 / 10 * u) * ((1 + 3 * u) * (o' * e))); [apply Rmult_le_compat_l; lra|]. rewrite <- (Rmult_assoc _ (1 + 3 * u)). apply Rmult_le_compat_r; [lra|]. clear - U. nra. }
  assert (DB : Rabs d <= 302 / 10 * u).
  { unfold d. replace (yh / (o' / e)) with (yh * (e / o')) by (field; lra). assert (PIV : 0 < e / o') by (apply Rdiv_lt_0_compat; assumption).
    assert (K1 : yh * (e / o') <= (1 + u) * (oh / eh * (e / o'))) by nra. assert (K2 : (1 - u) * (oh / eh * (e / o')) <= yh * (e / o')) by nra. set (q := oh / eh * (e / o')) in *. destruct QB as [Q1 Q2]. clear - U K1 K2 Q1 Q2. apply Rabs_le. split; nra. }
  assert (YE : yh = o' / e * (1 + d)) by (unfold d; field; lra).
  assert (D1 : 0 < 1 + d) by (apply Rabs_le_inv in DB; lra).
  assert (LY : ln yh = L + ln (1 + d)) by (rewrite YE; apply ln_mult; assumption).
  pose proof (ln_near1 (302 / 10 * u) d ltac:(lra) DB) as LD. set (r := ln (1 + d)) in *. clearbody r.
  assert (PL : 0 <= Rabs L) by apply Rabs_pos. set (A := Rabs L) in *.
  assert (LYB : Rabs (ln yh) <= A + 303 / 10 * u). { rewrite LY. eapply Rle_trans; [apply Rabs_triang|]. fold A. lra. }
  assert (LL : Rabs (lh - L) <= u * (304 / 10 + 2 * A)).
  { eapply Rle_trans; [apply (rabs_split _ (ln yh))|]. replace (ln yh - L) with r by (rewrite LY; ring).
    assert (2 * u * Rabs (ln yh) <= 2 * u * (A + 303 / 10 * u)) by (apply Rmult_le_compat_l; lra). nra. }
  assert (LH : Rabs lh <= A * (1 + 2 * u) + 304 / 10 * u). { replace lh with ((lh - L) + L) by ring. eapply Rle_trans; [apply Rabs_triang|]. fold A. lra. }
  clear YE LY LYB HL HY PY PQ PR QB DB D1 LD d r.
  assert (PH : 0 <= Rabs lh) by apply Rabs_pos.
  assert (OA : Rabs oh = oh) by (apply Rabs_pos_eq; lra).
  assert (OH : Rabs (oh * lh - o' * L) <= u * o' * (305 / 10 + 281 / 10 * A)).
  { replace (oh * lh - o' * L) with ((oh - o') * lh + o' * (lh - L)) by ring. eapply Rle_trans; [apply Rabs_triang|]. rewrite !Rabs_mult, (Rabs_pos_eq o') by lra.
    assert (X1 : Rabs (oh - o') <= 26 * u * o') by (apply Rabs_le; lra).
    assert (X2 : Rabs (oh - o') * Rabs lh <= 26 * u * o' * (A * (1 + 2 * u) + 304 / 10 * u)) by (apply Rmult_le_compat; try apply Rabs_pos; assumption).
    assert (X3 : o' * Rabs (lh - L) <= o' * (u * (304 / 10 + 2 * A))) by (apply Rmult_le_compat_l; lra).
    eapply Rle_trans; [apply Rplus_le_compat; eassumption|]. replace (26 * u * o' * (A * (1 + 2 * u) + 304 / 10 * u) + o' * (u * (304 / 10 + 2 * A))) with (u * o' * (26 * (A * (1 + 2 * u) + 304 / 10 * u) + (304 / 10 + 2 * A))) by ring.
    apply Rmult_le_compat_l; [apply Rmult_le_pos; lra|]. clear - U PL. nra. }
  assert (OB : Rabs (oh * lh) <= o' * (A * (10001 / 10000) + 1 / 100)).
  { replace (oh * lh) with ((oh * lh - o' * L) + o' * L) by ring. eapply Rle_trans; [apply Rabs_triang|]. rewrite (Rabs_mult o'), (Rabs_pos_eq o') by lra. fold A. eapply Rle_trans; [apply Rplus_le_compat_r; exact OH|].
    replace (u * o' * (305 / 10 + 281 / 10 * A) + o' * A) with (o' * (u * (305 / 10 + 281 / 10 * A) + A)) by ring. apply Rmult_le_compat_l; [lra|]. clear - U PL. nra. }
  assert (OU : 0 <= u * o') by (apply Rmult_le_pos; lra).
  assert (E1 : u * Rabs (oh * lh) <= u * o' * (A * (10001 / 10000) + 1 / 100)) by (rewrite Rmult_assoc; apply Rmult_le_compat_l; lra).
  assert (ET2 : eta <= u * o' * (1 / 1000)). { eapply Rle_trans; [apply ET|]. replace (u * u * o') with (u * o' * u) by ring. apply Rmult_le_compat_l; lra. }
  assert (PP : Rabs (ph - o' * L) <= u * o' * (306 / 10 + 292 / 10 * A)). { eapply Rle_trans; [apply (rabs_split _ (oh * lh))|]. assert (0 <= u * o' * A) by (apply Rmult_le_pos; assumption). lra. }
  assert (PB : Rabs (2 * ph) <= o' * (A * (20002 / 10000) + 2 / 100)).
  { rewrite Rabs_mult, (Rabs_pos_eq 2) by lra. replace ph with ((ph - o' * L) + o' * L) by ring. assert (X : Rabs (ph - o' * L + o' * L) <= u * o' * (306 / 10 + 292 / 10 * A) + o' * A). { eapply Rle_trans; [apply Rabs_triang|]. rewrite (Rabs_mult o'), (Rabs_pos_eq o') by lra. fold A. lra. }
    apply Rle_trans with (2 * (u * o' * (306 / 10 + 292 / 10 * A) + o' * A)); [lra|]. replace (2 * (u * o' * (306 / 10 + 292 / 10 * A) + o' * A)) with (o' * (2 * (u * (306 / 10 + 292 / 10 * A) + A))) by ring. apply Rmult_le_compat_l; [lra|]. clear - U PL. nra. }
  assert (E2 : u * Rabs (2 * ph) <= u * o' * (A * (20002 / 10000) + 2 / 100)) by (rewrite Rmult_assoc; apply Rmult_le_compat_l; lra).
  assert (UA : 0 <= u * o' * A) by (apply Rmult_le_pos; assumption).
  split.
  - eapply Rle_trans; [apply (rabs_split _ (2 * ph))|]. replace (2 * ph - 2 * (o' * L)) with (2 * (ph - o' * L)) by ring. rewrite (Rabs_mult 2), (Rabs_pos_eq 2) by lra. replace (u * (62 * o' + 62 * (o' * A))) with (62 * (u * o') + 62 * (u * o' * A)) by ring. lra.
  - clear - LH U PL. nra.
Qed.

(** ** one cell *)
Section GCell.
  Variables (fR fC fT fo : f64).
  Hypothesis WR : whole fR. Hypothesis WC : whole fC. Hypothesis WT : whole fT. Hypothesis Wo : whole fo.
  Let r := f2R fR. Let c := f2R fC. Let n := f2R fT. Let o := f2R fo.
  Hypothesis Hr : 1 <= r <= n. Hypothesis Hc : 1 <= c <= n. Hypothesis Hn : n <= 70368744177664. Hypothesis Ho : o <= n.
  Let e := r * c / n.
  Let eh := fdiv (fmult fR fC) fT.
  Lemma half_fmt : fmt (o + / 2).
  Proof.
    destruct Wo as [_ (k & E)]. unfold o. rewrite E. assert (KB : INR k <= 70368744177664) by (rewrite <- E; fold o; lra).
    replace (INR k + / 2) with (IZR (2 * Z.of_nat k + 1) * bpow radix2 (-1)); [|rewrite plus_IZR, mult_IZR, <- INR_IZR_INZ; change (bpow radix2 (-1)) with (/ 2); lra].
    apply fmt_F2R; [|lia]. rewrite INR_IZR_INZ in KB. apply le_IZR in KB. change (2 ^ 53)%Z with 9007199254740992%Z. lia.
  Qed.
  Lemma yates_rel : let oh := fyates fo eh in let o' := yates true o e in ffin oh = true /\ 0 < o' <= 70368744177664 + 1 /\ / 70368744177664 <= o' /\ Rabs (f2R oh - o') <= 26 * u53 * o'.
  Proof.
    cbn zeta. pose proof (yates_ok _ _ _ _ WR WC WT Wo Hr Hc Hn Ho) as (Y1 & Y2 & Y3). pose proof (yates_dist _ _ _ _ Wo Hr Hc Hn Ho) as ((D1 & D2) & _ & _ & _). fold r c n o e in D1, D2, Y3. fold r c n o e eh in Y1, Y2, Y3. cbn zeta in *. split; [exact Y1|].
    pose proof (e_range _ _ _ Hr Hc Hn) as ER. fold r c n e in ER. pose proof u53_pos as U. destruct (o_nat fo Wo) as [_ O2]. fold o in O2.
    assert (OP : / 70368744177664 <= yates true o e). { rewrite yates_cl. unfold cl, Rmax, Rmin. repeat (destruct (Rle_dec _ _)); destruct O2; try lra. }
    split; [lra|]. split; [exact OP|]. set (o' := yates true o e) in *.
    destruct (Rle_dec e (2 * o')) as [A|B].
    - eapply Rle_trans; [exact Y3|]. assert (W : e + Rabs (o' - e) <= 3 * o') by (unfold Rabs; destruct (Rcase_abs _); lra). apply Rle_trans with (13 / 2 * u53 * (3 * o')); [apply Rmult_le_compat_l; lra|]. assert (0 <= u53 * o') by (apply Rmult_le_pos; lra). lra.
    - apply Rnot_le_lt in B. assert (EO : o' = o + / 2 /\ o + / 2 <= e). { unfold o' in *. rewrite yates_cl in *. unfold cl, Rmax, Rmin in *. repeat (destruct (Rle_dec _ _)); destruct O2; split; lra. }
      destruct EO as [EO _]. pose proof (eh_ok _ _ _ WR WC WT Hr Hc Hn) as [FE EE]. fold r c n e eh in FE, EE. pose proof (eh_pos _ _ _ WR WC WT Hr Hc Hn) as EP. fold eh in EP. destruct Wo as [FO _].
      destruct (fminus_spec eh fo 48 FE FO ltac:(lia)) as [V F]; [change (b2 48) with 281474976710656; fold o; apply Rabs_le; destruct O2; lra|]. fold o in V.
      assert (GE : / 2 <= f2R (fminus eh fo)). { rewrite V. apply rnd_lb; [change (/ 2) with (bpow radix2 (-1)); apply fmt_bpow; lia|]. apply Rabs_le_inv in EE. assert (3 * u53 * e <= / 1000 * e) by (apply Rmult_le_compat_r; lra). destruct O2; lra. }
      assert (LE : f2R (fminus eh fo) <= b2 48). { rewrite V. apply rnd_ub; [apply fmt_bpow; lia|]. change (b2 48) with 281474976710656. destruct O2; lra. }
      destruct (fyates_shift (fminus eh fo) F) as [SF SV]; [rewrite Rabs_pos_eq by lra; eapply Rle_trans; [exact LE|apply bpow_le; lia]|]. cbn zeta in SF, SV.
      assert (CL : cl (f2R (fminus eh fo)) = / 2) by (unfold cl, Rmax, Rmin; repeat (destruct (Rle_dec _ _)); lra). rewrite CL in SV.
      unfold fyates. cbn zeta. destruct (fplus_spec fo _ 48 FO SF ltac:(lia)) as [V2 F2]; [fold o; rewrite SV; change (b2 48) with 281474976710656; rewrite Rabs_pos_eq by (destruct O2; lra); lra|].
      fold o in V2. rewrite SV, (rnd_id _ half_fmt) in V2. rewrite V2, EO. unfold Rminus. rewrite Rplus_opp_r, Rabs_R0. apply Rmult_le_pos; lra.
  Qed.
  Variable flog : f64 -> f64.
  Hypothesis GL : good_log flog.
  (** one term of the statistic *)
  Lemma fgterm_ok : forall oh o', ffin oh = true -> / 70368744177664 <= o' <= 70368744177664 + 1 -> Rabs (f2R oh - o') <= 26 * u53 * o' ->
    let L := ln (o' / e) in
    ffin (fgterm flog oh eh) = true /\ Rabs (f2R (fgterm flog oh eh) - 2 * (o' * L)) <= u53 * (62 * o' + 62 * (o' * Rabs L)) /\ o' * Rabs L <= o' * L + 2 * e /\ Rabs (f2R (fgterm flog oh eh)) <= b2 149.
  Proof.
    intros oh o' FO BO EO L. pose proof u53_pos as U. pose proof (eh_ok _ _ _ WR WC WT Hr Hc Hn) as [FE EE]. fold r c n e eh in FE, EE. pose proof (eh_pos _ _ _ WR WC WT Hr Hc Hn) as EP. fold eh in EP. pose proof (e_range _ _ _ Hr Hc Hn) as ER. fold r c n e in ER.
    assert (OB : / 140737488355328 <= f2R oh <= 140737488355328). { apply Rabs_le_inv in EO. assert (26 * u53 * o' <= / 1000 * o') by (apply Rmult_le_compat_r; lra). lra. }
    assert (EN : f2R eh <> 0) by lra. assert (IE : / 140737488355328 <= / f2R eh <= 140737488355328). { split; [apply Rinv_le_contravar; lra|]. replace 140737488355328 with (/ / 140737488355328) by field. apply Rinv_le_contravar; lra. }
    assert (QB : b2 (-94) <= f2R oh / f2R eh <= b2 94).
    { replace (b2 (-94)) with (/ 140737488355328 * / 140737488355328); [|rewrite <- b2_m47, <- bpow_plus; reflexivity]. replace (b2 94) with (140737488355328 * 140737488355328); [|change 94%Z with (47 + 47)%Z; rewrite bpow_plus; reflexivity]. unfold Rdiv. split; apply Rmult_le_compat; lra. }
    pose proof (bpow_gt_0 radix2 (-94)) as PB.
    destruct (fdiv_spec oh eh 94 FO EN ltac:(lia)) as [V1 F1]; [rewrite Rabs_pos_eq by lra; apply QB|]. set (yh := fdiv oh eh) in *.
    assert (HY : Rabs (f2R yh - f2R oh / f2R eh) <= u53 * (f2R oh / f2R eh)).
    { rewrite V1. destruct (rel_err (f2R oh / f2R eh)) as (e1 & E1 & Q1); [rewrite Rabs_pos_eq by lra; eapply Rle_trans; [|apply QB]; apply bpow_le; lia|]. rewrite u53_b2 in E1. rewrite Q1. replace (f2R oh / f2R eh * (1 + e1) - f2R oh / f2R eh) with (e1 * (f2R oh / f2R eh)) by ring. rewrite Rabs_mult, (Rabs_pos_eq (f2R oh / f2R eh)) by lra. apply Rmult_le_compat_r; lra. }
    assert (PY : 0 < f2R yh). { apply Rabs_le_inv in HY. assert (u53 * (f2R oh / f2R eh) <= / 1000 * (f2R oh / f2R eh)) by (apply Rmult_le_compat_r; lra). lra. }
    destruct (GL yh F1 PY) as [F2 HL].
    assert (PR : 0 < o' / e) by (apply Rdiv_lt_0_compat; lra).
    assert (LB : Rabs L <= b2 100).
    { assert (X : forall x, 0 < x -> x <= b2 100 -> ln x <= b2 100) by (intros x X1 X2; pose proof (ln_sub1 x X1); lra).
      assert (I2 : / e <= 70368744177664) by (replace 70368744177664 with (/ / 70368744177664) by field; apply Rinv_le_contravar; lra). assert (I3 : / o' <= 70368744177664) by (replace 70368744177664 with (/ / 70368744177664) by field; apply Rinv_le_contravar; lra).
      assert (IP1 : 0 < / e) by (apply Rinv_0_lt_compat; lra). assert (IP2 : 0 < / o') by (apply Rinv_0_lt_compat; lra).
      assert (B100 : 140737488355328 * 140737488355328 <= b2 100). { replace (140737488355328 * 140737488355328) with (b2 94); [apply bpow_le; lia|change 94%Z with (47 + 47)%Z; rewrite bpow_plus; reflexivity]. }
      assert (A1 : L <= b2 100). { apply X; [exact PR|]. eapply Rle_trans; [|exact B100]. unfold Rdiv. apply Rmult_le_compat; lra. }
      assert (A2 : - L <= b2 100). { unfold L. rewrite <- ln_Rinv by exact PR. replace (/ (o' / e)) with (e / o') by (field; lra). apply X; [apply Rdiv_lt_0_compat; lra|]. eapply Rle_trans; [|exact B100]. unfold Rdiv. apply Rmult_le_compat; lra. }
      apply Rabs_le. lra. }
    assert (LH : Rabs (f2R (flog yh)) <= b2 101).
    { destruct (g_term_err u53 0 o' e (f2R oh) (f2R eh) (f2R yh) (f2R (flog yh)) (f2R oh * f2R (flog yh)) (2 * (f2R oh * f2R (flog yh)))) as (_ & _ & X); try assumption; try lra.
      - split; [lra|]. apply Rmult_le_pos; [nra|lra].
      - unfold Rminus. rewrite Rplus_opp_r, Rabs_R0. pose proof (Rabs_pos (f2R oh * f2R (flog yh))). nra.
      - unfold Rminus. rewrite Rplus_opp_r, Rabs_R0. pose proof (Rabs_pos (2 * (f2R oh * f2R (flog yh)))). nra.
      - fold L in X. eapply Rle_trans; [exact X|]. change 101%Z with (1 + 100)%Z. rewrite bpow_plus. change (b2 1) with 2. assert (8 <= b2 100) by (change 8 with (b2 3); apply bpow_le; lia). lra. }
    assert (PB1 : Rabs (f2R oh * f2R (flog yh)) <= b2 148). { rewrite Rabs_mult, (Rabs_pos_eq (f2R oh)) by lra. change 148%Z with (47 + 101)%Z. rewrite bpow_plus. apply Rmult_le_compat; try apply Rabs_pos; try assumption; [lra|apply OB]. }
    destruct (fmult_spec oh (flog yh) 148 FO F2 ltac:(lia) PB1) as [V2 F3]. set (ph := fmult oh (flog yh)) in *.
    assert (HP : Rabs (f2R ph - f2R oh * f2R (flog yh)) <= u53 * Rabs (f2R oh * f2R (flog yh)) + eta0) by (rewrite V2; apply rnd_err).
    assert (PB2 : Rabs (f2R ph) <= b2 148) by (rewrite V2; apply rnd_abs_le; [apply fmt_bpow; lia|exact PB1]).
    destruct (ofZ_spec 2 ltac:(lia)) as [TV TF]. fold ftwo in TV, TF.
    destruct (fmult_spec ftwo ph 149 TF F3 ltac:(lia)) as [V3 F4]; [rewrite TV, Rabs_mult, (Rabs_pos_eq 2) by lra; change 149%Z with (1 + 148)%Z; rewrite bpow_plus; change (b2 1) with 2; lra|]. rewrite TV in V3.
    assert (HT : Rabs (f2R (fmult ftwo ph) - 2 * f2R ph) <= u53 * Rabs (2 * f2R ph) + eta0) by (rewrite V3; apply rnd_err).
    assert (GE : fgterm flog oh eh = fmult ftwo ph). { unfold fgterm, fxlogy. fold yh. destruct (feqb oh fzero) eqn:Q; [|reflexivity]. apply feqb_zero in Q; [lra|exact FO]. }
    rewrite GE. split; [exact F4|].
    assert (TB : Rabs (f2R (fmult ftwo ph)) <= b2 149) by (rewrite V3; apply rnd_abs_le; [apply fmt_bpow; lia|rewrite Rabs_mult, (Rabs_pos_eq 2) by lra; change 149%Z with (1 + 148)%Z; rewrite bpow_plus; change (b2 1) with 2; lra]).
    destruct (g_term_err u53 eta0 o' e (f2R oh) (f2R eh) (f2R yh) (f2R (flog yh)) (f2R ph) (f2R (fmult ftwo ph))) as (_ & X & _); try assumption; try lra.
    - split; [left; apply eta0_pos|]. apply Rle_trans with (b2 (-200)); [apply bpow_le; lia|]. rewrite <- u53_b2. apply Rle_trans with (b2 (-53) * b2 (-53) * b2 (-46)); [rewrite <- !bpow_plus; apply bpow_le; lia|].
      apply Rmult_le_compat_l; [rewrite <- bpow_plus; apply bpow_ge_0|]. rewrite b2_m46. lra.
    - split; [exact X|]. split; [|exact TB]. unfold L. destruct (Rle_dec 0 (ln (o' / e))) as [P|P]; [rewrite Rabs_pos_eq by exact P; lra|]. rewrite Rabs_left by lra.
      assert (Y : - ln (o' / e) <= e / o' - 1). { rewrite <- ln_Rinv by exact PR. replace (/ (o' / e)) with (e / o') by (field; lra). apply ln_sub1. apply Rdiv_lt_0_compat; lra. }
      assert (Z : o' * - ln (o' / e) <= e - o'). { apply Rle_trans with (o' * (e / o' - 1)); [apply Rmult_le_compat_l; lra|]. right. field. lra. } lra.
  Qed.
  (** a cell without records *)
  Lemma fgterm_zero : forall oh, ffin oh = true -> f2R oh = 0 -> ffin (fgterm flog oh eh) = true /\ f2R (fgterm flog oh eh) = 0.
  Proof.
    intros oh FO Z. pose proof (eh_pos _ _ _ WR WC WT Hr Hc Hn) as EP. fold eh in EP. assert (EN : f2R eh <> 0) by lra.
    destruct (fdiv_spec oh eh 0 FO EN ltac:(lia)) as [_ F1]; [rewrite Z; unfold Rdiv; rewrite Rmult_0_l, Rabs_R0; apply bpow_ge_0|].
    unfold fgterm, fxlogy. rewrite (proj2 (feqb_zero oh FO) Z). rewrite (fin_not_nan _ F1). cbn [negb andb].
    destruct (ofZ_spec 2 ltac:(lia)) as [TV TF]. fold ftwo in TV, TF.
    destruct (fmult_spec ftwo fzero 0 TF eq_refl ltac:(lia)) as [V3 F4]; [change (f2R fzero) with 0; rewrite Rmult_0_r, Rabs_R0; apply bpow_ge_0|]. split; [exact F4|]. rewrite V3. change (f2R fzero) with 0. rewrite Rmult_0_r. apply rnd_0.
  Qed.
End GCell.
