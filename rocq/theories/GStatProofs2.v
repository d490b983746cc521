(** The whole G statistic in binary64 (C102). *)
From Coq Require Import ZArith List Bool Reals Lia Lra Psatz.
Import ListNotations.
From Flocq Require Import Core BinarySingleNaN.
From Verif Require Import F64 Base RSum StatsModel SpecStats StatsProofs LinspaceProofs BrentFModel BrentFProofs Chi2FModel SpecChi2F Chi2FProofs Chi2FProofs2 GStatModel SpecGStat GStatProofs.
Open Scope R_scope.

Section Table.
  Variable add_up : site -> list f64 -> f64.
  Hypothesis AO : any_order add_up.
  Variable flog : f64 -> f64.
  Hypothesis GL : good_log flog.
  Variable m : fmat.
  Hypothesis CT : count_table64 m.
  Let T := real_table m.
  Let N := matsum T.
  Hypothesis HN : 1 <= N <= 70368744177664.
  Let K := INR (fr m * fc m).
  Hypothesis HK : K <= 1048576.
  Hypothesis RP : forall i, (i < fr m)%nat -> 0 < rowsum T i.
  Hypothesis CP : forall j, (j < fc m)%nat -> 0 < colsum T j.
  Let e (c : nat * nat) := expected T (fst c) (snd c).
  Let eh (c : nat * nat) := Chi2FModel.fexp add_up m (fst c) (snd c).
  Let o (c : nat * nat) := el T (fst c) (snd c).
  Variable y : bool.
  Let obs (i j : nat) : f64 := if y then fyates (fe m i j) (Chi2FModel.fexp add_up m i j) else fe m i j.
  Let o' (c : nat * nat) : R := if y then yates true (o c) (e c) else o c.
  Let oh (c : nat * nat) : f64 := obs (fst c) (snd c).
  Let w (c : nat * nat) : R := pd_term LogLikelihood (o' c) (e c) / 2.
  Let a (c : nat * nat) : R := Rabs (w c).
  Lemma g_cell : forall c, In c (fcells m) -> 0 <= o' c /\ ffin (fgterm flog (oh c) (eh c)) = true /\ Rabs (f2R (fgterm flog (oh c) (eh c)) - 2 * w c) <= u53 * (62 * o' c + 62 * a c) /\
    a c <= w c + 2 * e c /\ Rabs (f2R (fgterm flog (oh c) (eh c))) <= b2 149 /\ o' c - e c <= w c.
  Proof.
    intros c Hc. apply in_cells in Hc. destruct Hc as [Hi Hj]. destruct (frow_val add_up AO m CT HN _ Hi) as [WR VR]. destruct (fcol_val add_up AO m CT HN _ Hj) as [WC VC]. destruct (ftot_val add_up AO m CT HN) as [WT VT]. pose proof (CT _ _ Hi Hj) as WO. fold T N in VR, VC, VT.
    assert (R1 : 1 <= f2R (frow add_up m (fst c)) <= f2R (ftot add_up m)). { split; [apply whole_pos; [exact WR|rewrite VR; apply RP, Hi]|rewrite VR, VT; apply (row_le m CT), Hi]. }
    assert (C1 : 1 <= f2R (fcol add_up m (snd c)) <= f2R (ftot add_up m)). { split; [apply whole_pos; [exact WC|rewrite VC; apply CP, Hj]|rewrite VC, VT; apply (col_le m CT), Hj]. }
    assert (N1 : f2R (ftot add_up m) <= 70368744177664) by (rewrite VT; lra).
    assert (O1 : f2R (fe m (fst c) (snd c)) <= f2R (ftot add_up m)) by (rewrite VT; apply (el_le m CT); assumption).
    assert (EE : f2R (frow add_up m (fst c)) * f2R (fcol add_up m (snd c)) / f2R (ftot add_up m) = e c) by (unfold e, expected; rewrite VR, VC, VT; reflexivity).
    pose proof (e_range _ _ _ R1 C1 N1) as ER. rewrite EE in ER. pose proof u53_pos as U.
    assert (M : (y = false /\ oh c = fe m (fst c) (snd c) /\ o' c = f2R (fe m (fst c) (snd c)) /\ o' c = 0) \/ (ffin (oh c) = true /\ / 70368744177664 <= o' c <= 70368744177664 + 1 /\ Rabs (f2R (oh c) - o' c) <= 26 * u53 * o' c)).
    { unfold oh, obs, o'. destruct y.
      - right. pose proof (yates_rel _ _ _ _ WR WC WT WO R1 C1 N1 O1) as (Y1 & Y2 & Y3 & Y4). cbn zeta in *. rewrite EE in *. split; [exact Y1|]. split; [split; [exact Y3|apply Y2]|exact Y4].
      - destruct (Req_dec (o c) 0) as [Z|Z]; [left; repeat split; exact Z|]. right. split; [apply WO|]. assert (1 <= o c) by (apply (whole_pos (fe m (fst c) (snd c)) WO); pose proof (proj2 (whole_nonneg _ WO)) as P; change (f2R (fe m (fst c) (snd c))) with (o c) in *; destruct P as [P|P]; [exact P|congruence]).
        assert (o c <= 70368744177664) by (unfold o, T; cbn [el real_table]; lra). split; [lra|]. change (f2R (fe m (fst c) (snd c))) with (o c). unfold Rminus. rewrite Rplus_opp_r, Rabs_R0. apply Rmult_le_pos; lra. }
    destruct M as [(Y & E1 & E2 & Z)|(M1 & M2 & M3)].
    - destruct (fgterm_zero _ _ _ WR WC WT R1 C1 N1 flog (oh c)) as [F V]; [rewrite E1; apply WO|rewrite E1, <- E2; exact Z|]. change (fdiv (fmult (frow add_up m (fst c)) (fcol add_up m (snd c))) (ftot add_up m)) with (eh c) in F, V.
      assert (W0 : w c = 0). { unfold w, pd_term, xlogy. rewrite Z. destruct (Req_EM_T 0 0); [unfold Rdiv; ring|congruence]. }
      unfold a. rewrite V, W0, Z. rewrite Rmult_0_r, Rminus_0_r, Rabs_R0. repeat split; try lra; try assumption. apply bpow_ge_0.
    - pose proof (fgterm_ok _ _ _ WR WC WT R1 C1 N1 flog GL (oh c) (o' c) M1 M2 M3) as X. cbn zeta in X. change (fdiv (fmult (frow add_up m (fst c)) (fcol add_up m (snd c))) (ftot add_up m)) with (eh c) in X. rewrite EE in X. destruct X as (X1 & X2 & X3 & X4).
      assert (PO : 0 < o' c) by lra.
      assert (WE : w c = o' c * ln (o' c / e c)). { unfold w, pd_term, xlogy. destruct (Req_EM_T (o' c) 0); [lra|]. field. }
      unfold a. rewrite WE, Rabs_mult, (Rabs_pos_eq (o' c)) by lra. split; [lra|]. split; [exact X1|]. split; [exact X2|]. split; [exact X3|]. split; [exact X4|].
      assert (Y : - ln (o' c / e c) <= e c / o' c - 1). { rewrite <- ln_Rinv by (apply Rdiv_lt_0_compat; lra). replace (/ (o' c / e c)) with (e c / o' c) by (field; lra). apply ln_sub1. apply Rdiv_lt_0_compat; lra. }
      assert (Z : o' c * - ln (o' c / e c) <= e c - o' c). { apply Rle_trans with (o' c * (e c / o' c - 1)); [apply Rmult_le_compat_l; lra|]. right. field. lra. } lra.
  Qed.
  Hypothesis SO' : lsum o' (fcells m) = N.
  Let G := lsum (fun c => 2 * w c) (fcells m).
  Let ths := map (fun c => fgterm flog (oh c) (eh c)) (fcells m).
  Lemma g_nonneg : 0 <= G.
  Proof.
    assert (X : lsum (fun c => o' c - e c) (fcells m) <= lsum w (fcells m)) by (apply lsum_le; intros c Hc; apply (g_cell c Hc)). rewrite lsum_minus, SO' in X. pose proof (sum_e m HN) as SE. fold T N in SE. change (fun c : nat * nat => expected T (fst c) (snd c)) with e in SE. rewrite SE in X. unfold G. rewrite lsum_scal. lra.
  Qed.
  Lemma g_abs : lsum a (fcells m) <= G / 2 + 2 * N.
  Proof.
    eapply Rle_trans; [apply (lsum_le _ _ (fun c => w c + 2 * e c)); intros c Hc; apply (g_cell c Hc)|]. rewrite lsum_plus, lsum_scal. pose proof (sum_e m HN) as SE. fold T N in SE. change (fun c : nat * nat => expected T (fst c) (snd c)) with e in SE. rewrite SE. unfold G. rewrite lsum_scal. lra.
  Qed.
  Lemma g_total : ffin (add_up STerms ths) = true /\ Rabs (f2R (add_up STerms ths) - G) <= u53 * ((8 * K + 190) * N + (2 * K + 32) * G).
  Proof.
    pose proof u53_pos as U. pose proof g_nonneg as GN. pose proof g_abs as GA.
    assert (LK : INR (length ths) = K) by (unfold ths; rewrite map_length; apply cells_length).
    assert (KP : 0 <= K) by apply pos_INR. assert (KU : K * u53 <= / 8589934592) by (unfold u53; lra).
    assert (TS : lsum (fun c => u53 * (62 * o' c + 62 * a c)) (fcells m) <= u53 * (186 * N + 31 * G)). { rewrite lsum_scal, lsum_plus, !lsum_scal, SO'. apply Rmult_le_compat_l; lra. }
    assert (T1 : Rabs (lsum f2R ths - G) <= u53 * (186 * N + 31 * G)). { unfold ths. rewrite lsum_map. eapply Rle_trans; [apply (abs_close _ _ _ (fun c => u53 * (62 * o' c + 62 * a c))); intros c Hc; apply (g_cell c Hc)|exact TS]. }
    assert (T2 : lsum (fun x => Rabs (f2R x)) ths <= G + 4 * N + u53 * (186 * N + 31 * G)).
    { unfold ths. rewrite lsum_map. apply Rle_trans with (lsum (fun c => 2 * a c + u53 * (62 * o' c + 62 * a c)) (fcells m)); [|rewrite lsum_plus, lsum_scal; lra]. apply lsum_le. intros c Hc. destruct (g_cell c Hc) as (_ & _ & X & _).
      replace (f2R (fgterm flog (oh c) (eh c))) with ((f2R (fgterm flog (oh c) (eh c)) - 2 * w c) + 2 * w c) by ring. eapply Rle_trans; [apply Rabs_triang|]. rewrite (Rabs_mult 2), (Rabs_pos_eq 2) by lra. fold (a c). lra. }
    assert (SB : lsum (fun x => Rabs (f2R x)) ths <= b2 500).
    { apply Rle_trans with (lsum (fun _ : f64 => b2 149) ths).
      - apply lsum_le. intros x Hx. apply in_map_iff in Hx. destruct Hx as (c & <- & Hc). apply (g_cell c Hc).
      - rewrite lsum_const, LK. apply Rle_trans with (b2 20 * b2 149); [apply Rmult_le_compat_r; [apply bpow_ge_0|exact HK]|]. rewrite <- bpow_plus. apply bpow_le. lia. }
    destruct (added_signed ths (add_up STerms ths) (AO STerms ths)) as [F B]; [intros x Hx; apply in_map_iff in Hx; destruct Hx as (c & <- & Hc); apply (g_cell c Hc)|rewrite LK; lra|exact SB|].
    split; [exact F|]. rewrite LK in B. eapply Rle_trans; [apply (rabs_split _ (lsum f2R ths))|].
    assert (NU : 0 <= u53 * N) by (apply Rmult_le_pos; lra). assert (CU : 0 <= u53 * G) by (apply Rmult_le_pos; lra).
    assert (B2 : Rabs (f2R (add_up STerms ths) - lsum f2R ths) <= 2 * (K * u53) * (G + 4 * N + u53 * (186 * N + 31 * G))). { eapply Rle_trans; [exact B|]. replace (2 * K * u53) with (2 * (K * u53)) by ring. apply Rmult_le_compat_l; [nra|exact T2]. }
    assert (E3 : (186 * (u53 * N) + 31 * (u53 * G)) * (2 * (K * u53)) <= (186 * (u53 * N) + 31 * (u53 * G)) * (/ 1000)) by (apply Rmult_le_compat_l; lra).
    replace (2 * (K * u53) * (G + 4 * N + u53 * (186 * N + 31 * G))) with (u53 * (8 * K * N + 2 * K * G) + (186 * (u53 * N) + 31 * (u53 * G)) * (2 * (K * u53))) in B2 by ring. lra.
  Qed.
End Table.

Section Positive.
  Variable add_up : site -> list f64 -> f64.
  Hypothesis AO : any_order add_up.
  Variable flog : f64 -> f64.
  Hypothesis GL : good_log flog.
  Variable m : fmat.
  Hypothesis CT : count_table64 m.
  Let T := real_table m.
  Hypothesis HN : 1 <= matsum T <= 70368744177664.
  Hypothesis HK : INR (fr m * fc m) <= 1048576.
  Hypothesis RP : forall i, (i < fr m)%nat -> 0 < rowsum T i.
  Hypothesis CP : forall j, (j < fc m)%nat -> 0 < colsum T j.
  Let d := ((fr m - 1) * (fc m - 1))%nat.
  Lemma g_form : forall fl, g_contingency64 add_up fl m =
    Ok (if Nat.eqb d 0 then fzero else add_up STerms (map (fun c => fgterm fl (if Nat.eqb d 1 then fyates (fe m (fst c) (snd c)) (Chi2FModel.fexp add_up m (fst c) (snd c)) else fe m (fst c) (snd c)) (Chi2FModel.fexp add_up m (fst c) (snd c))) (fcells m))).
  Proof.
    intros fl. destruct (shape_pos m HN) as [SR SC]. pose proof (cell_facts add_up AO m CT HN RP CP false) as CF. unfold g_contingency64.
    assert (A1 : existsb (fun c => flt (fe m (fst c) (snd c)) fzero) (fcells m) = false).
    { unfold fcells. apply (existsb_cells_false _ _ (fun i j => flt (fe m i j) fzero)). intros i j Hi Hj. destruct (whole_nonneg _ (CT i j Hi Hj)) as [F P].
      destruct (flt (fe m i j) fzero) eqn:E; [|reflexivity]. apply flt_spec in E; [|exact F|reflexivity]. change (f2R fzero) with 0 in E. lra. }
    rewrite A1. rewrite (proj2 (Nat.eqb_neq _ _)) by nia.
    assert (A3 : existsb (fun c => feqb (Chi2FModel.fexp add_up m (fst c) (snd c)) fzero) (fcells m) = false).
    { apply not_true_is_false. intros E. apply existsb_exists in E. destruct E as (c & Hc & E). destruct (CF c Hc) as (_ & B1 & B2 & _). apply feqb_zero in E; [|exact B1]. lra. }
    rewrite A3. rewrite dof_nat by assumption. fold d.
    replace (Z.of_nat d =? 0)%Z with (Nat.eqb d 0) by (destruct (Nat.eqb_spec d 0); destruct (Z.eqb_spec (Z.of_nat d) 0); auto; lia).
    destruct (Nat.eqb d 0); [reflexivity|].
    replace (Z.of_nat d =? 1)%Z with (Nat.eqb d 1) by (destruct (Nat.eqb_spec d 1); destruct (Z.eqb_spec (Z.of_nat d) 1); auto; lia).
    destruct (Nat.eqb_spec d 1) as [D1|D1].
    - assert (SH : fr m = 2%nat /\ fc m = 2%nat) by (unfold d in D1; clear - D1 SR SC; nia). destruct SH as [S1 S2].
      rewrite (agree add_up AO m CT HN HK RP CP true (sum_yates22 m HN S1 S2)). reflexivity.
    - rewrite (agree add_up AO m CT HN HK RP CP false (sum_o m)). reflexivity.
  Qed.
  Lemma g_real_form : chi2_contingency true T LogLikelihood =
    Ok (if Nat.eqb d 0 then 0 else lsum (fun c => pd_term LogLikelihood (if Nat.eqb d 1 then yates true (el T (fst c) (snd c)) (expected T (fst c) (snd c)) else el T (fst c) (snd c)) (expected T (fst c) (snd c))) (fcells m)).
  Proof.
    destruct (shape_pos m HN) as [SR SC]. pose proof (cell_facts add_up AO m CT HN RP CP false) as CF. unfold chi2_contingency. cbn [nr nc T real_table]. fold T. change (list_prod (idx (fr m)) (idx (fc m))) with (fcells m).
    assert (A2 : existsb (fun c => rltb (el T (fst c) (snd c)) 0) (fcells m) = false).
    { unfold fcells. apply (existsb_cells_false _ _ (fun i j => rltb (el T i j) 0)). intros i j Hi Hj. apply rltb_false. apply (T_nonneg m CT i j Hi Hj). }
    rewrite A2. rewrite (proj2 (Nat.eqb_neq _ _)) by nia.
    assert (A4 : existsb (fun c => reqb (expected T (fst c) (snd c)) 0) (fcells m) = false).
    { apply not_true_is_false. intros E. apply existsb_exists in E. destruct E as (c & Hc & E). destruct (CF c Hc) as (B1 & _). apply reqb_true in E. fold T in B1. lra. }
    rewrite A4. rewrite dof_nat by assumption. fold d.
    replace (Z.of_nat d =? 0)%Z with (Nat.eqb d 0) by (destruct (Nat.eqb_spec d 0); destruct (Z.eqb_spec (Z.of_nat d) 0); auto; lia).
    destruct (Nat.eqb d 0); [reflexivity|].
    replace (Z.of_nat d =? 1)%Z with (Nat.eqb d 1) by (destruct (Nat.eqb_spec d 1); destruct (Z.eqb_spec (Z.of_nat d) 1); auto; lia).
    f_equal. unfold fcells. rewrite (lsum_cells (fun i j => pd_term LogLikelihood (if Nat.eqb d 1 then yates true (el T i j) (expected T i j) else el T i j) (expected T i j))). reflexivity.
  Qed.
  Lemma g_positive : exists c g, g_contingency64 add_up flog m = Ok c /\ chi2_contingency true T LogLikelihood = Ok g /\ ffin c = true /\ 0 <= g /\ Rabs (f2R c - g) <= g_tol T g.
  Proof.
    destruct (shape_pos m HN) as [SR SC]. pose proof u53_pos as U. rewrite g_form, g_real_form. eexists. eexists. split; [reflexivity|]. split; [reflexivity|].
    pose proof (pos_INR (fr m * fc m)) as KP. unfold g_tol. cbn [nr nc T real_table]. fold T.
    destruct (Nat.eqb_spec d 0) as [D0|D0].
    { split; [reflexivity|]. split; [lra|]. change (f2R fzero) with 0. rewrite Rmult_0_r, Rplus_0_r, Rminus_0_r, Rabs_R0. apply Rmult_le_pos; [lra|]. apply Rmult_le_pos; lra. }
    assert (SOY : lsum (fun c => if Nat.eqb d 1 then yates true (el T (fst c) (snd c)) (expected T (fst c) (snd c)) else el T (fst c) (snd c)) (fcells m) = matsum T).
    { destruct (Nat.eqb_spec d 1) as [D1|D1]; [|apply sum_o]. assert (SH : fr m = 2%nat /\ fc m = 2%nat) by (unfold d in D1; clear - D1 SR SC; nia). destruct SH as [S1 S2]. apply sum_yates22; assumption. }
    destruct (g_total add_up AO flog GL m CT HN HK RP CP (Nat.eqb d 1) SOY) as [F B]. pose proof (g_nonneg add_up AO flog GL m CT HN RP CP (Nat.eqb d 1) SOY) as GN. fold T in B, GN.
    assert (E : lsum (fun c => 2 * (pd_term LogLikelihood (if Nat.eqb d 1 then yates true (el T (fst c) (snd c)) (expected T (fst c) (snd c)) else el T (fst c) (snd c)) (expected T (fst c) (snd c)) / 2)) (fcells m) = lsum (fun c => pd_term LogLikelihood (if Nat.eqb d 1 then yates true (el T (fst c) (snd c)) (expected T (fst c) (snd c)) else el T (fst c) (snd c)) (expected T (fst c) (snd c))) (fcells m)) by (apply lsum_ext; intros c _; field).
    rewrite <- E. split; [exact F|]. split; [exact GN|exact B].
  Qed.
End Positive.
Lemma get_g_64_kept : forall add_up flog m, get_g_64 add_up flog m = g_contingency64 add_up flog (kept m). Proof. reflexivity. Qed.
Lemma kept_real_g : forall m, fin_table m -> chi2_contingency true (real_table (kept m)) LogLikelihood = get_chi2 true (real_table m) LogLikelihood.
Proof. intros m FT. unfold kept, get_chi2. cbn zeta. rewrite (fnz_cols_eq _ (fin1 m FT)). rewrite (fnz_rows_eq m FT). reflexivity. Qed.
Lemma g_tol_mono : forall N g k k', 0 <= N -> 0 <= g -> (k <= k')%nat -> u53 * ((8 * INR k + 190) * N + (2 * INR k + 32) * g) <= u53 * ((8 * INR k' + 190) * N + (2 * INR k' + 32) * g).
Proof. intros N g k k' HN Hg H. pose proof u53_pos. pose proof (le_INR _ _ H) as L. apply Rmult_le_compat_l; [lra|]. apply Rplus_le_compat; apply Rmult_le_compat_r; lra. Qed.
Lemma g_any : forall add_up flog m, any_order add_up -> good_log flog -> count_table64 m -> has_records (real_table m) -> moderate (real_table m) ->
  exists c g, get_g_64 add_up flog m = Ok c /\ get_chi2 true (real_table m) LogLikelihood = Ok g /\ ffin c = true /\ 0 <= g /\ Rabs (f2R c - g) <= g_tol (real_table m) g.
Proof.
  intros add_up flog m AO GL CT HR [HN HK]. destruct (kept_ok m CT HR HN HK) as (CK & M1 & MB & KK & RP & CP).
  assert (FT : fin_table m) by (intros i j Hi Hj; apply (CT i j Hi Hj)). pose proof (kept_shape m FT) as [S1 S2].
  destruct (g_positive add_up AO flog GL (kept m) CK MB KK RP CP) as (c & g & H1 & H2 & H3 & H4 & H5).
  exists c, g. rewrite get_g_64_kept, H1. rewrite (kept_real_g m FT) in H2. rewrite H2. repeat split; try assumption. eapply Rle_trans; [exact H5|]. unfold g_tol. cbn [nr nc real_table]. rewrite M1. apply g_tol_mono; [rewrite <- M1; lra|exact H4|].
  rewrite S1, S2. apply Nat.mul_le_mono; unfold nz_rows, nz_cols, idx; eapply Nat.le_trans; try apply filter_len; rewrite seq_length; reflexivity.
Qed.
