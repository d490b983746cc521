(** The whole statistic in binary64: from tables without empty rows and columns to all tables of counts (C88). *)
From Coq Require Import ZArith List Bool Reals Lia Lra Psatz.
Import ListNotations.
From Verif Require Import F64 Base RSum StatsModel SpecStats StatsProofs LinspaceProofs BrentFModel BrentFProofs Chi2FModel SpecChi2F Chi2FProofs.
Open Scope R_scope.

Lemma cl_odd : forall x, cl (- x) = - cl x.
Proof. intros x. unfold cl, Rmax, Rmin. repeat (destruct (Rle_dec _ _)); lra. Qed.
Lemma yates_sum22 : forall a b c d n, n <> 0 -> a + b + (c + d) = n ->
  yates true a ((a + b) * (a + c) / n) + yates true b ((a + b) * (b + d) / n) + (yates true c ((c + d) * (a + c) / n) + yates true d ((c + d) * (b + d) / n)) = n.
Proof.
  intros a b c d n Hn E. rewrite !yates_cl. set (x := (a + b) * (a + c) / n - a).
  replace ((a + b) * (b + d) / n - b) with (- x) by (unfold x; subst n; field; exact Hn).
  replace ((c + d) * (a + c) / n - c) with (- x) by (unfold x; subst n; field; exact Hn).
  replace ((c + d) * (b + d) / n - d) with x by (unfold x; subst n; field; exact Hn).
  rewrite cl_odd. lra.
Qed.

Section Positive.
  Variable add_up : site -> list f64 -> f64.
  Hypothesis AO : any_order add_up.
  Variable m : fmat.
  Hypothesis CT : count_table64 m.
  Let T := real_table m.
  Hypothesis HN : 1 <= matsum T <= 70368744177664.
  Hypothesis HK : INR (fr m * fc m) <= 1048576.
  Hypothesis RP : forall i, (i < fr m)%nat -> 0 < rowsum T i.
  Hypothesis CP : forall j, (j < fc m)%nat -> 0 < colsum T j.
  Lemma shape_pos : (1 <= fr m)%nat /\ (1 <= fc m)%nat.
  Proof.
    assert (H : has_records T) by (apply matsum_pos_records; lra). destruct H as (i & j & Hi & Hj & _). cbn in Hi, Hj. lia.
  Qed.
  Lemma sum_yates22 : fr m = 2%nat -> fc m = 2%nat -> lsum (fun c => yates true (el T (fst c) (snd c)) (expected T (fst c) (snd c))) (fcells m) = matsum T.
  Proof.
    intros R2 C2. unfold fcells. rewrite (lsum_cells (fun i j => yates true (el T i j) (expected T i j))). rewrite R2, C2.
    assert (MT : matsum T = el T 0 0 + el T 0 1 + (el T 1 0 + el T 1 1)). { unfold matsum, rowsum, T. cbn [nr nc el real_table]. rewrite R2, C2. unfold lsum. cbn [seq fold_right map]. ring. }
    assert (R0 : forall i, rowsum T i = el T i 0 + el T i 1) by (intros i; unfold rowsum, T; cbn [nr nc el real_table]; rewrite C2; unfold lsum; cbn [seq fold_right map]; ring).
    assert (C0 : forall j, colsum T j = el T 0 j + el T 1 j) by (intros j; unfold colsum, T; cbn [nr nc el real_table]; rewrite R2; unfold lsum; cbn [seq fold_right map]; ring).
    unfold expected, lsum, idx. cbn [seq fold_right]. rewrite !R0, !C0. transitivity (yates true (el T 0 0) ((el T 0 0 + el T 0 1) * (el T 0 0 + el T 1 0) / matsum T) + yates true (el T 0 1) ((el T 0 0 + el T 0 1) * (el T 0 1 + el T 1 1) / matsum T) + (yates true (el T 1 0) ((el T 1 0 + el T 1 1) * (el T 0 0 + el T 1 0) / matsum T) + yates true (el T 1 1) ((el T 1 0 + el T 1 1) * (el T 0 1 + el T 1 1) / matsum T))); [ring|].
    apply yates_sum22; [lra|symmetry; exact MT].
  Qed.
  Lemma chi2_positive : exists c chi, chi2_contingency64 add_up m = Ok c /\ chi2_contingency true T Pearson = Ok chi /\ nonneg64 c /\ 0 <= chi /\
    Rabs (f2R c - chi) <= u53 * (51 * matsum T + (2 * INR (fr m * fc m) + 30) * chi).
  Proof.
    destruct shape_pos as [SR SC]. pose proof u53_pos as U. pose proof (pos_INR (fr m * fc m)) as KP.
    pose proof (cell_facts add_up AO m CT HN RP CP false) as CF. unfold chi2_contingency64, chi2_contingency. cbn [nr nc T real_table]. fold T. change (list_prod (idx (fr m)) (idx (fc m))) with (fcells m).
    assert (A1 : existsb (fun c => flt (fe m (fst c) (snd c)) fzero) (fcells m) = false).
    { unfold fcells. apply (existsb_cells_false _ _ (fun i j => flt (fe m i j) fzero)). intros i j Hi Hj. destruct (whole_nonneg _ (CT i j Hi Hj)) as [F P].
      destruct (flt (fe m i j) fzero) eqn:E; [|reflexivity]. apply flt_spec in E; [|exact F|reflexivity]. change (f2R fzero) with 0 in E. lra. }
    assert (A2 : existsb (fun c => rltb (el T (fst c) (snd c)) 0) (fcells m) = false).
    { unfold fcells. apply (existsb_cells_false _ _ (fun i j => rltb (el T i j) 0)). intros i j Hi Hj. apply rltb_false. apply (T_nonneg m CT i j Hi Hj). }
    rewrite A1, A2. rewrite (proj2 (Nat.eqb_neq _ _)) by nia.
    assert (A3 : existsb (fun c => feqb (Chi2FModel.fexp add_up m (fst c) (snd c)) fzero) (fcells m) = false).
    { apply not_true_is_false. intros E. apply existsb_exists in E. destruct E as (c & Hc & E). destruct (CF c Hc) as (_ & B1 & B2 & _). apply feqb_zero in E; [|exact B1]. lra. }
    assert (A4 : existsb (fun c => reqb (expected T (fst c) (snd c)) 0) (fcells m) = false).
    { apply not_true_is_false. intros E. apply existsb_exists in E. destruct E as (c & Hc & E). destruct (CF c Hc) as (B1 & _). apply reqb_true in E. fold T in B1. lra. }
    rewrite A3, A4. rewrite dof_nat by assumption. set (d := ((fr m - 1) * (fc m - 1))%nat).
    assert (NU : 0 <= u53 * matsum T) by (apply Rmult_le_pos; lra).
    destruct (Z.eqb_spec (Z.of_nat d) 0) as [D0|D0].
    { exists fzero, 0. split; [reflexivity|]. split; [reflexivity|]. split; [split; [reflexivity|change (f2R fzero) with 0; lra]|]. split; [lra|].
      change (f2R fzero) with 0. rewrite Rmult_0_r, Rplus_0_r, Rminus_0_r, Rabs_R0. lra. }
    destruct (Z.eqb_spec (Z.of_nat d) 1) as [D1|D1].
    - assert (SH : fr m = 2%nat /\ fc m = 2%nat) by (unfold d in D1; clear - D1 SR SC; nia). destruct SH as [S1 S2].
      rewrite (agree add_up AO m CT HN HK RP CP true (sum_yates22 S1 S2)).
      destruct (chi2_total add_up AO m CT HN HK RP CP true) as [C1 C2]. eexists. eexists. split; [reflexivity|]. split; [reflexivity|].
      rewrite <- (lsum_cells (fun i j => pd_term Pearson (yates true (el T i j) (expected T i j)) (expected T i j))). change (list_prod (idx (fr m)) (idx (fc m))) with (fcells m).
      split; [exact C1|]. split; [exact (chi_nonneg add_up AO m CT HN RP CP true)|]. exact C2.
    - rewrite (agree add_up AO m CT HN HK RP CP false (sum_o m)).
      destruct (chi2_total add_up AO m CT HN HK RP CP false) as [C1 C2]. eexists. eexists. split; [reflexivity|]. split; [reflexivity|].
      rewrite <- (lsum_cells (fun i j => pd_term Pearson (el T i j) (expected T i j))). change (list_prod (idx (fr m)) (idx (fc m))) with (fcells m).
      split; [exact C1|]. split; [exact (chi_nonneg add_up AO m CT HN RP CP false)|]. exact C2.
  Qed.
End Positive.

(** ** leaving out empty rows and columns *)
Lemma zero_test : forall x, ffin x = true -> feqb x fzero = reqb (f2R x) 0.
Proof. intros x H. apply eq_true_iff_eq. rewrite feqb_zero by exact H. rewrite reqb_true. reflexivity. Qed.
Definition fin_table (m : fmat) : Prop := forall i j, (i < fr m)%nat -> (j < fc m)%nat -> ffin (fe m i j) = true.
Lemma forallb_ext_in : forall A (f g : A -> bool) l, (forall a, In a l -> f a = g a) -> forallb f l = forallb g l.
Proof. induction l as [|a l IH]; intros H; cbn [forallb]; [reflexivity|]. rewrite (H a) by (left; reflexivity). rewrite IH; [reflexivity|]. intros b Hb. apply H. right. exact Hb. Qed.
Lemma fnz_rows_eq : forall m, fin_table m -> fnz_rows m = nz_rows (real_table m).
Proof.
  intros m H. unfold fnz_rows, nz_rows. cbn [nr nc el real_table]. apply filter_ext_in. intros i Hi. apply in_idx in Hi. f_equal. apply forallb_ext_in. intros j Hj. apply in_idx in Hj. apply zero_test, H; assumption.
Qed.
Lemma fnz_cols_eq : forall m, fin_table m -> fnz_cols m = nz_cols (real_table m).
Proof.
  intros m H. unfold fnz_cols, nz_cols. cbn [nr nc el real_table]. apply filter_ext_in. intros j Hj. apply in_idx in Hj. f_equal. apply forallb_ext_in. intros i Hi. apply in_idx in Hi. apply zero_test, H; assumption.
Qed.
Lemma filter_len : forall A (f : A -> bool) l, (length (filter f l) <= length l)%nat.
Proof. induction l as [|a l IH]; cbn [filter length]; [lia|]. destruct (f a); cbn [length]; lia. Qed.

(** the table scipy receives *)
Definition kept (m : fmat) : fmat := let m1 := fsub m (fnz_rows m) (idx (fc m)) in fsub m1 (idx (fr m1)) (fnz_cols m1).
Lemma get_chi2_64_kept : forall add_up m, get_chi2_64 add_up m = chi2_contingency64 add_up (kept m). Proof. reflexivity. Qed.
Section Kept.
  Variable m : fmat.
  Hypothesis FT : fin_table m.
  Let T := real_table m.
  Lemma fin1 : fin_table (fsub m (fnz_rows m) (idx (fc m))).
  Proof.
    intros i j Hi Hj. cbn [fsub fr fc fe] in *. rewrite idx_length in Hj. rewrite nth_idx by exact Hj. apply FT; [|exact Hj].
    assert (In (nth i (fnz_rows m) 0%nat) (fnz_rows m)) by (apply nth_In; exact Hi). rewrite (fnz_rows_eq m FT) in H at 2. apply in_nz_rows in H. apply H.
  Qed.
  Lemma kept_real : chi2_contingency true (real_table (kept m)) Pearson = get_chi2 true T Pearson.
  Proof.
    unfold kept, get_chi2. cbn zeta. rewrite (fnz_cols_eq _ fin1). rewrite (fnz_rows_eq m FT). reflexivity.
  Qed.
  Lemma kept_shape : fr (kept m) = length (nz_rows T) /\ fc (kept m) = length (nz_cols T).
  Proof.
    unfold kept. cbn [fsub fr fc]. rewrite idx_length, (fnz_cols_eq _ fin1), (fnz_rows_eq m FT). split; [reflexivity|]. f_equal.
    change (real_table (fsub m (nz_rows (real_table m)) (idx (fc m)))) with (submat T (nz_rows T) (idx (nc T))). unfold nz_cols. cbn [nr nc el submat]. rewrite idx_length. apply filter_ext_in. intros j Hj. apply in_idx in Hj. f_equal.
    apply eq_true_iff_eq. rewrite !forallb_forall. split; intros F i Hi.
    - destruct (reqb (el T i j) 0) eqn:Q; [reflexivity|]. apply reqb_false in Q. apply in_idx in Hi.
      assert (In i (nz_rows T)) by (apply in_nz_rows; split; [exact Hi|exists j; tauto]).
      apply (In_nth _ _ 0%nat) in H. destruct H as (p & Hp & H). specialize (F p (proj2 (in_idx _ _) Hp)).
      cbn beta in F. rewrite H, nth_idx in F by exact Hj. apply reqb_true in F. contradiction.
    - apply in_idx in Hi. rewrite nth_idx by exact Hj. apply F. apply in_idx.
      assert (In (nth i (nz_rows T) 0%nat) (nz_rows T)) by (apply nth_In; exact Hi). apply in_nz_rows in H. tauto.
  Qed.
  Lemma kept_cells : forall i j, (i < fr (kept m))%nat -> (j < fc (kept m))%nat -> fe (kept m) i j = fe m (nth i (nz_rows T) 0%nat) (nth j (nz_cols T) 0%nat).
  Proof.
    intros i j Hi Hj. pose proof kept_shape as [S1 S2]. pose proof Hi as Hi'. pose proof Hj as Hj'. rewrite S1 in Hi'. rewrite S2 in Hj'.
    unfold kept. cbn [fsub fr fc fe]. rewrite (fnz_cols_eq _ fin1), (fnz_rows_eq m FT). fold T.
    assert (E : nz_cols (real_table (fsub m (nz_rows T) (idx (fc m)))) = nz_cols T).
    { change (real_table (fsub m (nz_rows T) (idx (fc m)))) with (submat T (nz_rows T) (idx (nc T))). unfold nz_cols. cbn [nr nc el submat]. rewrite idx_length. apply filter_ext_in. intros k Hk. apply in_idx in Hk. f_equal.
      apply eq_true_iff_eq. rewrite !forallb_forall. split; intros F p Hp.
      - destruct (reqb (el T p k) 0) eqn:Q; [reflexivity|]. apply reqb_false in Q. apply in_idx in Hp.
        assert (In p (nz_rows T)) by (apply in_nz_rows; split; [exact Hp|exists k; tauto]).
        apply (In_nth _ _ 0%nat) in H. destruct H as (q & Hq & H). specialize (F q (proj2 (in_idx _ _) Hq)).
        cbn beta in F. rewrite H, nth_idx in F by exact Hk. apply reqb_true in F. contradiction.
      - apply in_idx in Hp. rewrite nth_idx by exact Hk. apply F. apply in_idx.
        assert (In (nth p (nz_rows T) 0%nat) (nz_rows T)) by (apply nth_In; exact Hp). apply in_nz_rows in H. tauto. }
    rewrite E. rewrite nth_idx by exact Hi'. rewrite nth_idx; [reflexivity|]. assert (In (nth j (nz_cols T) 0%nat) (nz_cols T)) by (apply nth_In; exact Hj'). apply in_nz_cols in H. tauto.
  Qed.
  Lemma kept_core : mat_eq (real_table (kept m)) (core T).
  Proof.
    pose proof kept_shape as [S1 S2]. unfold mat_eq, core. cbn [nr nc el submat real_table]. split; [exact S1|]. split; [exact S2|]. intros i j Hi Hj. rewrite kept_cells by assumption. reflexivity.
  Qed.
End Kept.

Lemma kept_ok : forall m, count_table64 m -> has_records (real_table m) -> matsum (real_table m) <= 70368744177664 -> INR (fr m * fc m) <= 1048576 ->
  count_table64 (kept m) /\ matsum (real_table (kept m)) = matsum (real_table m) /\ 1 <= matsum (real_table (kept m)) <= 70368744177664 /\ INR (fr (kept m) * fc (kept m)) <= 1048576 /\
  (forall i, (i < fr (kept m))%nat -> 0 < rowsum (real_table (kept m)) i) /\ (forall j, (j < fc (kept m))%nat -> 0 < colsum (real_table (kept m)) j).
Proof.
  intros m CT HR HN HK. set (T := real_table m) in *.
  assert (FT : fin_table m) by (intros i j Hi Hj; apply (CT i j Hi Hj)).
  pose proof (kept_core m FT) as KC. pose proof (kept_shape m FT) as [S1 S2]. fold T in KC, S1, S2. pose proof (core_rearr T) as RR. pose proof (T_nonneg m CT) as TN. fold T in TN.
  assert (M1 : matsum (real_table (kept m)) = matsum T) by (rewrite (matsum_eq _ _ KC); apply sub_matsum, RR).
  assert (MP : 1 <= matsum T).
  { pose proof (matsum_pos T TN HR) as P. destruct HR as (i & j & Hi & Hj & E). cbn in Hi, Hj.
    eapply Rle_trans; [|apply (lsum_le_elem _ (fun i => rowsum T i) _ i)]; [|intros x Hx; apply rowsum_nonneg; [exact TN|apply in_seq in Hx; cbn in *; lia]|apply in_seq; cbn; lia].
    eapply Rle_trans; [|apply (lsum_le_elem _ (fun j => el T i j) _ j)]; [|intros x Hx; apply TN; [exact Hi|apply in_seq in Hx; cbn in *; lia]|apply in_seq; cbn; lia].
    apply whole_pos; [apply CT; assumption|]. pose proof (TN i j Hi Hj). unfold T in *. cbn [el real_table] in *. lra. }
  assert (CK : count_table64 (kept m)).
  { intros i j Hi Hj. rewrite (kept_cells m FT) by assumption. rewrite S1 in Hi. rewrite S2 in Hj. apply CT.
    - assert (In (nth i (nz_rows T) 0%nat) (nz_rows T)) by (apply nth_In; exact Hi). apply in_nz_rows in H. apply H.
    - assert (In (nth j (nz_cols T) 0%nat) (nz_cols T)) by (apply nth_In; exact Hj). apply in_nz_cols in H. apply H. }
  assert (KK : INR (fr (kept m) * fc (kept m)) <= 1048576).
  { eapply Rle_trans; [|exact HK]. apply le_INR. rewrite S1, S2. apply Nat.mul_le_mono; unfold nz_rows, nz_cols, idx; eapply Nat.le_trans; try apply filter_len; rewrite seq_length; reflexivity. }
  split; [exact CK|]. split; [exact M1|]. split; [rewrite M1; split; [exact MP|exact HN]|]. split; [exact KK|]. split.
  - intros i Hi. rewrite (rowsum_eq _ _ i KC) by exact Hi. unfold core. rewrite sub_rowsum by (exact RR || (rewrite S1 in Hi; exact Hi)). apply nz_row_pos; [exact TN|]. apply nth_In. rewrite <- S1. exact Hi.
  - intros j Hj. rewrite (colsum_eq _ _ j KC) by exact Hj. unfold core. rewrite sub_colsum by (exact RR || (rewrite S2 in Hj; exact Hj)). apply nz_col_pos; [exact TN|]. apply nth_In. rewrite <- S2. exact Hj.
Qed.
Lemma chi2_any : forall add_up m, any_order add_up -> count_table64 m -> has_records (real_table m) -> matsum (real_table m) <= 70368744177664 -> INR (fr m * fc m) <= 1048576 ->
  exists c chi, get_chi2_64 add_up m = Ok c /\ get_chi2 true (real_table m) Pearson = Ok chi /\ nonneg64 c /\ 0 <= chi /\
    Rabs (f2R c - chi) <= u53 * (51 * matsum (real_table m) + (2 * INR (length (nz_rows (real_table m)) * length (nz_cols (real_table m))) + 30) * chi).
Proof.
  intros add_up m AO CT HR HN HK. destruct (kept_ok m CT HR HN HK) as (CK & M1 & MB & KK & RP & CP).
  assert (FT : fin_table m) by (intros i j Hi Hj; apply (CT i j Hi Hj)). pose proof (kept_shape m FT) as [S1 S2].
  destruct (chi2_positive add_up AO (kept m) CK MB KK RP CP) as (c & chi & H1 & H2 & H3 & H4 & H5).
  exists c, chi. rewrite get_chi2_64_kept, H1. rewrite (kept_real m FT) in H2. rewrite H2. rewrite M1, S1, S2 in H5. repeat split; try assumption; apply H3.
Qed.
