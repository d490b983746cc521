(** Independent tables, and the whole of phik_from_hist2d in binary64 (C88, C89). *)
From Coq Require Import ZArith List Bool Reals Lia Lra Psatz.
Import ListNotations.
From Flocq Require Import Core BinarySingleNaN.
From Verif Require Import F64 Base RSum StatsModel SpecStats StatsProofs LinspaceProofs BrentFModel BrentFProofs Chi2FModel SpecChi2F Chi2FProofs Chi2FProofs2.
Open Scope R_scope.

Lemma whole_fmt : forall k : nat, INR k <= 9007199254740992 -> rnd (INR k) = INR k.
Proof. intros k H. apply rnd_id. rewrite INR_IZR_INZ in *. apply fmt_IZR. apply le_IZR in H. change (2 ^ 53)%Z with 9007199254740992%Z. lia. Qed.

Section Exact.
  Variable add_up : site -> list f64 -> f64.
  Hypothesis AO : any_order add_up.
  Variable m : fmat.
  Hypothesis CT : count_table64 m.
  Let T := real_table m.
  Hypothesis HN : 1 <= matsum T <= 70368744177664.
  Hypothesis HK : INR (fr m * fc m) <= 1048576.
  Hypothesis RP : forall i, (i < fr m)%nat -> 0 < rowsum T i.
  Hypothesis CP : forall j, (j < fc m)%nat -> 0 < colsum T j.
  Let d := ((fr m - 1) * (fc m - 1))%nat.
  Lemma chi2_form : chi2_contingency64 add_up m =
    Ok (if Nat.eqb d 0 then fzero else add_up STerms (map (fun c => fterm (if Nat.eqb d 1 then fyates (fe m (fst c) (snd c)) (Chi2FModel.fexp add_up m (fst c) (snd c)) else fe m (fst c) (snd c)) (Chi2FModel.fexp add_up m (fst c) (snd c))) (fcells m))).
  Proof.
    destruct (shape_pos m HN) as [SR SC]. pose proof (cell_facts add_up AO m CT HN RP CP false) as CF. unfold chi2_contingency64.
    assert (A1 : existsb (fun c => flt (fe m (fst c) (snd c)) fzero) (fcells m) = false).
    { unfold fcells. apply (existsb_cells_false _ _ (fun i j => flt (fe m i j) fzero)). intros i j Hi Hj. destruct (whole_nonneg _ (CT i j Hi Hj)) as [F P].
      destruct (flt (fe m i j) fzero) eqn:E; [|reflexivity]. apply flt_spec in E; [|exact F|reflexivity]. change (f2R fzero) with 0 in E. lra. }
    rewrite A1. rewrite (proj2 (Nat.eqb_neq _ _)) by nia.
    assert (A3 : existsb (fun c => feqb (Chi2FModel.fexp add_up m (fst c) (snd c)) fzero) (fcells m) = false).
    { apply not_true_is_false. intros E. apply existsb_exists in E. destruct E as (c & Hc & E). destruct (CF c Hc) as (_ & B1 & B2 & _). apply feqb_zero in E; [|exact B1]. lra. }
    rewrite A3. rewrite dof_nat by assumption. fold d.
    replace (Z.of_nat d =? 0)%Z with (Nat.eqb d 0) by (destruct (Nat.eqb_spec d 0); destruct (Z.eqb_spec (Z.of_nat d) 0); auto; lia).
    destruct (Nat.eqb d 0); [reflexivity|].
    replace (Z.of_nat d =? 1)%Z with (Nat.eqb d 1) by (destruct (Nat.eqb_spec d 1); destruct (Z.eqb_spec (Z.of_nat d) 1); auto; lia).
    destruct (Nat.eqb_spec d 1) as [D1|D1].
    - assert (SH : fr m = 2%nat /\ fc m = 2%nat) by (unfold d in D1; clear - D1 SR SC; nia). destruct SH as [S1 S2].
      rewrite (agree add_up AO m CT HN HK RP CP true (sum_yates22 m HN S1 S2)). reflexivity.
    - rewrite (agree add_up AO m CT HN HK RP CP false (sum_o m)). reflexivity.
  Qed.
  (** independent tables whose margins multiply without rounding *)
  Hypothesis IT : independent_table T.
  Hypothesis SQ : matsum T * matsum T <= 9007199254740992.
  Lemma eh_exact : forall i j, (i < fr m)%nat -> (j < fc m)%nat -> ffin (Chi2FModel.fexp add_up m i j) = true /\ f2R (Chi2FModel.fexp add_up m i j) = f2R (fe m i j) /\ 0 < f2R (fe m i j).
  Proof.
    intros i j Hi Hj. destruct (frow_val add_up AO m CT HN i Hi) as [WR VR]. destruct (fcol_val add_up AO m CT HN j Hj) as [WC VC]. destruct (ftot_val add_up AO m CT HN) as [WT VT]. fold T in VR, VC, VT.
    pose proof (RP i Hi) as P1. pose proof (CP j Hj) as P2. pose proof (row_le m CT i Hi) as L1. pose proof (col_le m CT j Hj) as L2. fold T in L1, L2.
    destruct WR as [FR (kr & ER)]. destruct WC as [FC (kc & EC)]. destruct WT as [FT _]. destruct (CT i j Hi Hj) as [FO (ko & EO)].
    assert (PR : f2R (frow add_up m i) * f2R (fcol add_up m j) <= 9007199254740992) by (rewrite VR, VC; apply Rle_trans with (matsum T * matsum T); [apply Rmult_le_compat; lra|exact SQ]).
    assert (PP : 0 <= f2R (frow add_up m i) * f2R (fcol add_up m j)) by (rewrite VR, VC; apply Rmult_le_pos; lra).
    destruct (fmult_spec _ _ 53 FR FC ltac:(lia)) as [V1 F1]; [rewrite Rabs_pos_eq by exact PP; change (b2 53) with 9007199254740992; exact PR|].
    rewrite ER, EC, <- mult_INR, whole_fmt in V1 by (rewrite mult_INR, <- ER, <- EC; exact PR). rewrite mult_INR, <- ER, <- EC, VR, VC in V1.
    pose proof (IT i j Hi Hj) as I. cbn [el T real_table] in I. fold T in I.
    assert (QE : f2R (fmult (frow add_up m i) (fcol add_up m j)) / f2R (ftot add_up m) = f2R (fe m i j)) by (rewrite V1, VT, I; reflexivity).
    assert (OL : f2R (fe m i j) <= matsum T) by (apply (el_le m CT i j Hi Hj)).
    unfold Chi2FModel.fexp. destruct (fdiv_spec (fmult (frow add_up m i) (fcol add_up m j)) (ftot add_up m) 53 F1 ltac:(rewrite VT; lra) ltac:(lia)) as [V2 F2].
    { rewrite QE, EO, Rabs_pos_eq by apply pos_INR. rewrite <- EO. change (b2 53) with 9007199254740992. lra. }
    split; [exact F2|]. split; [rewrite V2, QE; apply rnd_id, fmt_B2R|]. rewrite I. apply Rdiv_lt_0_compat; [apply Rmult_lt_0_compat; assumption|lra].
  Qed.
  Lemma term_zero : forall o e, ffin o = true -> ffin e = true -> f2R e = f2R o -> 0 < f2R e -> nonneg64 (fterm o e) /\ f2R (fterm o e) = 0.
  Proof.
    intros o e FO FE E P. unfold fterm. cbn zeta. destruct (fminus_spec o e 0 FO FE ltac:(lia)) as [V F]; [rewrite E, Rminus_eq_0, Rabs_R0; apply bpow_ge_0|]. rewrite E, Rminus_eq_0, rnd_0 in V.
    destruct (fmult_spec _ _ 0 F F ltac:(lia)) as [V1 F1]; [rewrite V, Rmult_0_l, Rabs_R0; apply bpow_ge_0|]. rewrite V, Rmult_0_l, rnd_0 in V1.
    destruct (fdiv_spec _ e 0 F1 ltac:(lra) ltac:(lia)) as [V2 F2]; [rewrite V1; unfold Rdiv; rewrite Rmult_0_l, Rabs_R0; apply bpow_ge_0|]. rewrite V1 in V2. unfold Rdiv in V2. rewrite Rmult_0_l, rnd_0 in V2.
    split; [split; [exact F2|lra]|exact V2].
  Qed.
  Lemma yates_same : forall o e, ffin o = true -> ffin e = true -> f2R e = f2R o -> 0 <= f2R o <= 9007199254740992 -> ffin (fyates o e) = true /\ f2R (fyates o e) = f2R o.
  Proof.
    intros o e FO FE E B. unfold fyates. cbn zeta. destruct (fminus_spec e o 0 FE FO ltac:(lia)) as [V F]; [rewrite E, Rminus_eq_0, Rabs_R0; apply bpow_ge_0|]. rewrite E, Rminus_eq_0, rnd_0 in V.
    destruct (fyates_shift (fminus e o) F) as [S1 S2]; [rewrite V, Rabs_R0; apply bpow_ge_0|]. cbn zeta in S1, S2. rewrite V in S2.
    replace (cl 0) with 0 in S2 by (unfold cl, Rmax, Rmin; repeat (destruct (Rle_dec _ _)); lra).
    destruct (fplus_spec o _ 53 FO S1 ltac:(lia)) as [V2 F2]; [rewrite S2, Rplus_0_r, Rabs_pos_eq by lra; change (b2 53) with 9007199254740992; lra|].
    rewrite S2, Rplus_0_r, (rnd_id _ (fmt_B2R o)) in V2. split; assumption.
  Qed.
  Lemma chi2_exact_zero : exists c, chi2_contingency64 add_up m = Ok c /\ ffin c = true /\ f2R c = 0.
  Proof.
    rewrite chi2_form. eexists. split; [reflexivity|]. destruct (Nat.eqb d 0); [split; reflexivity|].
    set (t := fun c : nat * nat => fterm _ _).
    assert (TZ : forall c, In c (fcells m) -> nonneg64 (t c) /\ f2R (t c) = 0).
    { intros c Hc. apply in_cells in Hc. destruct Hc as [Hi Hj]. destruct (eh_exact _ _ Hi Hj) as (F & E & P). destruct (CT _ _ Hi Hj) as [FO _]. pose proof (el_le m CT _ _ Hi Hj) as OL. fold T in OL. pose proof HN as HN1.
      unfold t. destruct (Nat.eqb d 1); [|apply term_zero; try assumption; lra].
      destruct (yates_same (fe m (fst c) (snd c)) _ FO F E) as [Y1 Y2]; [lra|]. apply term_zero; try assumption; lra. }
    assert (Z : lsum f2R (map t (fcells m)) = 0) by (rewrite lsum_map; apply lsum_0; intros c Hc; apply TZ, Hc).
    destruct (added_bounds _ _ (AO STerms (map t (fcells m)))) as [F B].
    - intros x Hx. apply in_map_iff in Hx. destruct Hx as (c & <- & Hc). apply TZ, Hc.
    - rewrite map_length, cells_length. unfold u53. lra.
    - rewrite Z. apply bpow_ge_0.
    - split; [exact F|]. rewrite Z in B. lra.
  Qed.
End Exact.

Lemma kept_independent : forall m, fin_table m -> independent_table (real_table m) -> independent_table (real_table (kept m)).
Proof.
  intros m FT IT. pose proof (kept_core m FT) as KC. pose proof (kept_shape m FT) as [S1 S2]. set (T := real_table m) in *. pose proof (core_rearr T) as RR.
  intros i j Hi Hj. destruct KC as (K1 & K2 & K3). pose proof (conj K1 (conj K2 K3)) as KC. fold (mat_eq (real_table (kept m)) (core T)) in KC. cbn [nr nc real_table] in Hi, Hj.
  rewrite (K3 i j Hi Hj), (rowsum_eq _ _ i KC Hi), (colsum_eq _ _ j KC Hj), (matsum_eq _ _ KC). rewrite S1 in Hi. rewrite S2 in Hj. unfold core. rewrite (sub_rowsum _ _ _ RR) by exact Hi. rewrite (sub_colsum _ _ _ RR) by exact Hj. rewrite (sub_matsum _ _ _ RR).
  cbn [el submat]. apply IT.
  - assert (In (nth i (nz_rows T) 0%nat) (nz_rows T)) by (apply nth_In; exact Hi). apply in_nz_rows in H. apply H.
  - assert (In (nth j (nz_cols T) 0%nat) (nz_cols T)) by (apply nth_In; exact Hj). apply in_nz_cols in H. apply H.
Qed.
Lemma chi2_independent_zero : forall add_up m, any_order add_up -> count_table64 m -> has_records (real_table m) -> matsum (real_table m) <= 70368744177664 -> INR (fr m * fc m) <= 1048576 ->
  independent_table (real_table m) -> matsum (real_table m) * matsum (real_table m) <= 9007199254740992 -> exists c, get_chi2_64 add_up m = Ok c /\ ffin c = true /\ f2R c = 0.
Proof.
  intros add_up m AO CT HR HN HK IT SQ. destruct (kept_ok m CT HR HN HK) as (CK & M1 & MB & KK & RP & CP).
  assert (FT : fin_table m) by (intros i j Hi Hj; apply (CT i j Hi Hj)). rewrite get_chi2_64_kept. apply chi2_exact_zero; try assumption; [apply kept_independent; assumption|rewrite M1; exact SQ].
Qed.

(** ** the noise pedestal *)
Lemma fexp_zero : forall add_up m i j, any_order add_up -> count_table64 m -> 1 <= matsum (real_table m) <= 70368744177664 -> (i < fr m)%nat -> (j < fc m)%nat ->
  feqb (Chi2FModel.fexp add_up m i j) fzero = reqb (expected (real_table m) i j) 0.
Proof.
  intros add_up m i j AO CT HN Hi Hj. destruct (frow_val add_up AO m CT HN i Hi) as [WR VR]. destruct (fcol_val add_up AO m CT HN j Hj) as [WC VC]. destruct (ftot_val add_up AO m CT HN) as [WT VT].
  pose proof (row_le m CT i Hi) as L1. pose proof (col_le m CT j Hj) as L2. set (T := real_table m) in *.
  assert (P1 : 0 <= rowsum T i) by (rewrite <- VR; apply whole_nonneg, WR). assert (P2 : 0 <= colsum T j) by (rewrite <- VC; apply whole_nonneg, WC).
  destruct (Req_dec (rowsum T i * colsum T j) 0) as [Z|NZ].
  - assert (E : reqb (expected T i j) 0 = true) by (apply reqb_true; unfold expected; rewrite Z; unfold Rdiv; ring). rewrite E.
    destruct WR as [FR _]. destruct WC as [FC _]. unfold Chi2FModel.fexp.
    destruct (fmult_spec _ _ 0 FR FC ltac:(lia)) as [V1 F1]; [rewrite VR, VC, Z, Rabs_R0; apply bpow_ge_0|]. rewrite VR, VC, Z, rnd_0 in V1.
    destruct (fdiv_spec _ (ftot add_up m) 0 F1 ltac:(rewrite VT; lra) ltac:(lia)) as [V2 F2]; [rewrite V1; unfold Rdiv; rewrite Rmult_0_l, Rabs_R0; apply bpow_ge_0|]. rewrite V1 in V2. unfold Rdiv in V2. rewrite Rmult_0_l, rnd_0 in V2.
    apply feqb_zero; assumption.
  - assert (Q1 : 0 < rowsum T i) by (destruct P1 as [P1|P1]; [exact P1|exfalso; apply NZ; rewrite <- P1; ring]). assert (Q2 : 0 < colsum T j) by (destruct P2 as [P2|P2]; [exact P2|exfalso; apply NZ; rewrite <- P2; ring]).
    assert (R1 : 1 <= f2R (frow add_up m i) <= f2R (ftot add_up m)) by (split; [apply whole_pos; [exact WR|rewrite VR; exact Q1]|rewrite VR, VT; exact L1]).
    assert (C1 : 1 <= f2R (fcol add_up m j) <= f2R (ftot add_up m)) by (split; [apply whole_pos; [exact WC|rewrite VC; exact Q2]|rewrite VC, VT; exact L2]).
    assert (N1 : f2R (ftot add_up m) <= 70368744177664) by (rewrite VT; apply HN).
    pose proof (eh_ok _ _ _ WR WC WT R1 C1 N1) as [A2 _]. pose proof (eh_pos _ _ _ WR WC WT R1 C1 N1) as A4. change (fdiv (fmult (frow add_up m i) (fcol add_up m j)) (ftot add_up m)) with (Chi2FModel.fexp add_up m i j) in A2, A4.
    assert (E : reqb (expected T i j) 0 = false). { apply reqb_false. unfold expected. apply Rgt_not_eq, Rdiv_lt_0_compat; [apply Rmult_lt_0_compat; assumption|lra]. }
    rewrite E. destruct (feqb (Chi2FModel.fexp add_up m i j) fzero) eqn:Q; [|reflexivity]. apply feqb_zero in Q; [|exact A2]. lra.
Qed.
Lemma ndof_exact : forall add_up m, any_order add_up -> count_table64 m -> 1 <= matsum (real_table m) <= 70368744177664 -> estimate_simple_ndof64 add_up m = estimate_simple_ndof (real_table m).
Proof.
  intros add_up m AO CT HN. unfold estimate_simple_ndof64, estimate_simple_ndof, zero_expected. destruct (Req_EM_T (matsum (real_table m)) 0) as [Z|_]; [lra|]. cbn [nr nc real_table]. fold (real_table m). cbv zeta.
  replace (filter (fun c => feqb (Chi2FModel.fexp add_up m (fst c) (snd c)) fzero) (fcells m)) with (filter (fun c => reqb (expected (real_table m) (fst c) (snd c)) 0) (list_prod (idx (fr m)) (idx (fc m)))); [reflexivity|].
  apply filter_ext_in. intros c Hc. change (list_prod (idx (fr m)) (idx (fc m))) with (fcells m) in Hc. apply in_cells in Hc. symmetry. apply fexp_zero; tauto.
Qed.
Lemma records_one : forall m, count_table64 m -> has_records (real_table m) -> 1 <= matsum (real_table m).
Proof.
  intros m CT HR. pose proof (T_nonneg m CT) as TN. set (T := real_table m) in *. destruct HR as (i & j & Hi & Hj & E). cbn in Hi, Hj.
  eapply Rle_trans; [|apply (lsum_le_elem _ (fun i => rowsum T i) _ i)]; [|intros x Hx; apply rowsum_nonneg; [exact TN|apply in_seq in Hx; cbn in *; lia]|apply in_seq; cbn; lia].
  eapply Rle_trans; [|apply (lsum_le_elem _ (fun j => el T i j) _ j)]; [|intros x Hx; apply TN; [exact Hi|apply in_seq in Hx; cbn in *; lia]|apply in_seq; cbn; lia].
  apply whole_pos; [apply CT; assumption|]. pose proof (TN i j Hi Hj). unfold T in *. cbn [el real_table] in *. lra.
Qed.
