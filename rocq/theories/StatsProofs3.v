From Coq Require Import ZArith List Reals Lra Lia Bool Sorting.Permutation Psatz.
From Verif Require Import Base RSum StatsModel SpecStats StatsProofs StatsProofs2.
Import ListNotations.
Open Scope R_scope.

Lemma pd_term_same : forall l e, 0 < e -> pd_term l e e = 0.
Proof.
  intros [|] e He; unfold pd_term.
  - rewrite Rminus_diag_eq by reflexivity. unfold Rdiv. ring.
  - unfold xlogy. destruct (Req_EM_T e 0); [lra|]. replace (e / e) with 1 by (field; lra). rewrite ln_1. ring.
Qed.

Lemma stat_zero : forall k l m, nonneg_table m -> has_records m -> independent_table m -> stat k l m (nz_rows m) (nz_cols m) = 0.
Proof.
  intros k l m HN HR HI. unfold stat. destruct (Nat.eqb _ 0); [reflexivity|]. apply lsum_0. intros i Hi. apply lsum_0. intros j Hj. unfold stat_term.
  pose proof (Epos m HN HR i j Hi Hj) as E. apply in_nz_rows in Hi. apply in_nz_cols in Hj.
  assert (Q : el m i j = expected m i j) by (apply HI; tauto).
  destruct (Nat.eqb _ 1); [rewrite (yates_id k _ _ Q)|]; rewrite Q; apply pd_term_same; exact E.
Qed.

Lemma ln_gt : forall x, 0 < x -> x <> 1 -> 1 - / x < ln x.
Proof.
  intros x Hx Hn. assert (H : ln (/ x) < / x - 1).
  { assert (N : ln (/ x) <> 0).
    { intros C. rewrite ln_Rinv in C by exact Hx. apply Hn. rewrite <- (exp_ln x Hx). replace (ln x) with 0 by lra. apply exp_0. }
    pose proof (exp_ineq1 (ln (/ x)) N) as Q. rewrite exp_ln in Q by (apply Rinv_0_lt_compat; exact Hx). lra. }
  rewrite ln_Rinv in H by exact Hx. lra.
Qed.
Lemma llr_gt : forall o e, 0 <= o -> 0 < e -> o <> e -> 2 * (o - e) < pd_term LogLikelihood o e.
Proof.
  intros o e Ho He Hn. unfold pd_term, xlogy. destruct (Req_EM_T o 0) as [->|Hne]; [lra|].
  assert (P : 0 < o) by lra. assert (Q : 0 < o / e) by (apply Rdiv_lt_0_compat; assumption).
  assert (Q1 : o / e <> 1) by (intros C; apply Hn; replace o with (o / e * e) by (field; lra); rewrite C; lra).
  pose proof (ln_gt _ Q Q1) as L. assert (o * (1 - / (o / e)) = o - e) by (field; lra). assert (o * (1 - / (o / e)) < o * ln (o / e)) by (apply Rmult_lt_compat_l; lra). lra.
Qed.
Lemma lsum2_zero : forall (f : nat -> nat -> R) I J, (forall i j, In i I -> In j J -> 0 <= f i j) -> lsum (fun i => lsum (fun j => f i j) J) I = 0 ->
  forall i j, In i I -> In j J -> f i j = 0.
Proof.
  intros f I J H E i j Hi Hj.
  assert (A : lsum (fun j => f i j) J = 0) by (apply (lsum_zero_elem _ (fun i => lsum (fun j => f i j) J) I i); [intros; apply lsum_nonneg; intros; apply H; assumption|exact E|exact Hi]).
  apply (lsum_zero_elem _ (fun j => f i j) J j); [intros; apply H; assumption|exact A|exact Hj].
Qed.

Lemma Rle_minus_0 : forall a b, a <= b -> 0 <= b - a. Proof. intros; lra. Qed.
Section Conv.
  Variable m : mat.
  Hypothesis HN : nonneg_table m.
  Hypothesis HR : has_records m.
  (** enough to look at the non-empty part *)
  Lemma indep_core : (forall i j, In i (nz_rows m) -> In j (nz_cols m) -> el m i j = expected m i j) -> independent_table m.
  Proof.
    intros H i j Hi Hj. change (el m i j = expected m i j).
    destruct (in_dec Nat.eq_dec i (nz_rows m)) as [A|A].
    - destruct (in_dec Nat.eq_dec j (nz_cols m)) as [B|B]; [apply H; assumption|].
      assert (Z : forall i, (i < nr m)%nat -> el m i j = 0).
      { intros i0 Hi0. destruct (Req_dec (el m i0 j) 0) as [E|E]; [exact E|]. exfalso. apply B. apply in_nz_cols. split; [exact Hj|]. exists i0. tauto. }
      rewrite Z by exact Hi. unfold expected. replace (colsum m j) with 0; [unfold Rdiv; ring|]. symmetry. apply lsum_0. intros x Hx. apply in_seq in Hx. apply Z. lia.
    - assert (Z : forall j, (j < nc m)%nat -> el m i j = 0).
      { intros j0 Hj0. destruct (Req_dec (el m i j0) 0) as [E|E]; [exact E|]. exfalso. apply A. apply in_nz_rows. split; [exact Hi|]. exists j0. tauto. }
      rewrite Z by exact Hj. unfold expected. replace (rowsum m i) with 0; [unfold Rdiv; ring|]. symmetry. apply lsum_0. intros x Hx. apply in_seq in Hx. apply Z. lia.
  Qed.
  Lemma single_row : length (nz_rows m) = 1%nat -> forall i j, In i (nz_rows m) -> In j (nz_cols m) -> el m i j = expected m i j.
  Proof.
    intros L i j Hi Hj. pose proof (sumR m) as S. pose proof (sumO_col m j Hj) as C. destruct (nz_rows m) as [|i0 [|]]; try discriminate.
    destruct Hi as [<-|[]]. rewrite lsum_cons, lsum_nil in S, C. unfold expected. rewrite <- S, <- C. assert (0 < rowsum m i0) by (pose proof (matsum_pos m HN HR); lra). field. lra.
  Qed.
  Lemma single_col : length (nz_cols m) = 1%nat -> forall i j, In i (nz_rows m) -> In j (nz_cols m) -> el m i j = expected m i j.
  Proof.
    intros L i j Hi Hj. pose proof (sumC m) as S. pose proof (sumO_row m i Hi) as C. destruct (nz_cols m) as [|i0 [|]]; try discriminate.
    destruct Hj as [<-|[]]. rewrite lsum_cons, lsum_nil in S, C. unfold expected. rewrite <- S, <- C. assert (0 < colsum m i0) by (pose proof (matsum_pos m HN HR); lra). field. lra.
  Qed.
  Lemma stat_zero_conv : forall k l, ~ (length (nz_rows m) = 2%nat /\ length (nz_cols m) = 2%nat) -> stat k l m (nz_rows m) (nz_cols m) = 0 -> independent_table m.
  Proof.
    intros k l H2 E. apply indep_core. destruct (records_nz m HR) as [L1 L2]. unfold stat in E.
    destruct (Nat.eqb_spec ((length (nz_rows m) - 1) * (length (nz_cols m) - 1)) 0) as [D|D].
    - apply Nat.eq_mul_0 in D. destruct D as [D|D]; [apply single_row; lia|apply single_col; lia].
    - destruct (Nat.eqb_spec ((length (nz_rows m) - 1) * (length (nz_cols m) - 1)) 1) as [D1|D1]; [exfalso; apply H2, dof1, D1|].
      apply Nat.eqb_neq in D1. unfold stat_term in E. rewrite D1 in E. intros i j Hi Hj. destruct l.
      + assert (Q : pd_term Pearson (el m i j) (expected m i j) = 0) by (apply (lsum2_zero (fun i j => pd_term Pearson (el m i j) (expected m i j)) (nz_rows m) (nz_cols m)); try assumption; intros; apply pearson_nonneg, Epos; assumption).
        unfold pd_term in Q. pose proof (Epos m HN HR i j Hi Hj) as P. apply Rmult_integral in Q. destruct Q as [Q|Q]; [|exfalso; apply (Rinv_neq_0_compat (expected m i j)); lra].
        apply Rmult_integral in Q. lra.
      + assert (T : lsum (fun i => lsum (fun j => pd_term LogLikelihood (el m i j) (expected m i j) - 2 * (el m i j - expected m i j)) (nz_cols m)) (nz_rows m) = 0).
        { rewrite (lsum_ext _ _ (fun i => lsum (fun j => pd_term LogLikelihood (el m i j) (expected m i j)) (nz_cols m) - 0)).
          - rewrite lsum_minus. rewrite E. rewrite lsum_0 by reflexivity. lra.
          - intros a Ha. rewrite lsum_minus. f_equal. rewrite lsum_scal, lsum_minus, sumO_row, sumE_row by assumption. lra. }
        destruct (Req_dec (el m i j) (expected m i j)) as [Q|Q]; [exact Q|]. exfalso.
        pose proof (lsum2_zero _ _ _ (fun a b (Ha : In a (nz_rows m)) (Hb : In b (nz_cols m)) => Rle_minus_0 _ _ (llr_ge _ _ (Oge m HN a b Ha Hb) (Epos m HN HR a b Ha Hb))) T i j Hi Hj) as Z.
        cbn beta in Z. pose proof (llr_gt _ _ (Oge m HN i j Hi Hj) (Epos m HN HR i j Hi Hj) Q). lra.
  Qed.
  (** the continuity correction swallows residuals up to 1/2 in a 2x2 table *)
  Lemma stat_zero_2x2 : length (nz_rows m) = 2%nat -> length (nz_cols m) = 2%nat ->
    (forall i j, In i (nz_rows m) -> In j (nz_cols m) -> Rabs (el m i j - expected m i j) <= 1/2) -> forall l, stat true l m (nz_rows m) (nz_cols m) = 0.
  Proof.
    intros LI LJ H l. unfold stat. rewrite LI, LJ. cbn [Nat.sub Nat.mul Nat.add Nat.eqb]. apply lsum_0. intros i Hi. apply lsum_0. intros j Hj. unfold stat_term. cbn [Nat.eqb].
    replace (yates true (el m i j) (expected m i j)) with (expected m i j); [apply pd_term_same, Epos; assumption|].
    unfold yates. rewrite Rmin_right by (rewrite Rabs_minus_sym; apply H; assumption). rewrite (Rmult_comm (Rabs _)), rsign_abs. lra.
  Qed.
End Conv.

(** * Degrees of freedom *)
Lemma theoretical_ndof_form : forall m, theoretical_ndof m = ((Z.of_nat (nr m) - 1) * (Z.of_nat (nc m) - 1))%Z.
Proof. intros. unfold theoretical_ndof. nia. Qed.

Lemma filter_prod_length : forall (p q : nat -> bool) l k,
  length (filter (fun c => p (fst c) && q (snd c)) (list_prod l k)) = (length (filter p l) * length (filter q k))%nat.
Proof.
  intros p q l k. induction l as [|a l IH]; [reflexivity|]. cbn [list_prod filter]. rewrite filter_app, app_length, IH.
  assert (E : length (filter (fun c => p (fst c) && q (snd c)) (map (fun y => (a, y)) k)) = if p a then length (filter q k) else 0%nat).
  { clear IH. induction k as [|b k IHk]; [destruct (p a); reflexivity|]. cbn [map filter fst snd]. destruct (p a); cbn [andb].
    - destruct (q b); cbn [length]; rewrite IHk; reflexivity.
    - exact IHk. }
  rewrite E. destruct (p a); cbn [length]; lia.
Qed.
Lemma filter_negb_length : forall A (p : A -> bool) l, (length (filter (fun x => negb (p x)) l) + length (filter p l) = length l)%nat.
Proof. induction l as [|a l IH]; [reflexivity|]. cbn [filter]. destruct (p a); cbn [negb length]; lia. Qed.
Lemma list_prod_length : forall A B (l : list A) (k : list B), length (list_prod l k) = (length l * length k)%nat.
Proof. intros. apply prod_length. Qed.

Lemma zero_expected_count : forall m, nonneg_table m -> has_records m ->
  (zero_expected m + length (nz_rows m) * length (nz_cols m) = nr m * nc m)%nat.
Proof.
  intros m HN HR. pose proof (matsum_pos m HN HR) as P. unfold zero_expected. destruct (Req_EM_T (matsum m) 0) as [E|_]; [lra|].
  set (p := fun i => negb (forallb (fun j => reqb (el m i j) 0) (idx (nc m)))). set (q := fun j => negb (forallb (fun i => reqb (el m i j) 0) (idx (nr m)))).
  change (nz_rows m) with (filter p (idx (nr m))). change (nz_cols m) with (filter q (idx (nc m))). rewrite <- filter_prod_length.
  replace (nr m * nc m)%nat with (length (list_prod (idx (nr m)) (idx (nc m)))) by (rewrite list_prod_length, !idx_length; reflexivity).
  rewrite <- (filter_negb_length _ (fun c => p (fst c) && q (snd c)) (list_prod (idx (nr m)) (idx (nc m)))). f_equal. f_equal.
  apply filter_ext_in. intros [i j] Hc. apply in_prod_iff in Hc. destruct Hc as [Hi Hj]. cbn [fst snd].
  destruct (p i) eqn:Pi; destruct (q j) eqn:Qj; cbn [andb negb].
  - apply reqb_false. apply Rgt_not_eq. apply Epos; [exact HN|exact HR|apply filter_In; auto|apply filter_In; auto].
  - apply reqb_true. unfold expected. replace (colsum m j) with 0; [unfold Rdiv; ring|]. symmetry. apply lsum_0. intros x Hx. apply negb_false_iff in Qj. rewrite forallb_forall in Qj. apply reqb_true. apply Qj. exact Hx.
  - apply reqb_true. unfold expected. replace (rowsum m i) with 0; [unfold Rdiv; ring|]. symmetry. apply lsum_0. intros x Hx. apply negb_false_iff in Pi. rewrite forallb_forall in Pi. apply reqb_true. apply Pi. exact Hx.
  - apply reqb_true. unfold expected. replace (rowsum m i) with 0; [unfold Rdiv; ring|]. symmetry. apply lsum_0. intros x Hx. apply negb_false_iff in Pi. rewrite forallb_forall in Pi. apply reqb_true. apply Pi. exact Hx.
Qed.

Lemma simple_ndof_form : forall m, nonneg_table m -> has_records m ->
  estimate_simple_ndof m = Z.max 0 ((Z.of_nat (nr m) - 1) * (Z.of_nat (nc m) - 1) - (Z.of_nat (nr m * nc m) - Z.of_nat (length (nz_rows m) * length (nz_cols m)))).
Proof.
  intros m HN HR. pose proof (zero_expected_count m HN HR). unfold estimate_simple_ndof.
  destruct (Z.ltb_spec (Z.of_nat (nr m * nc m) - Z.of_nat (nr m + nc m) + 2 - 1 - Z.of_nat (zero_expected m)) 0); nia.
Qed.
Lemma records_dims : forall m, has_records m -> (1 <= nr m)%nat /\ (1 <= nc m)%nat.
Proof. intros m (i & j & A & B & _). lia. Qed.
Lemma simple_ndof_bounds : forall m, nonneg_table m -> has_records m -> (0 <= estimate_simple_ndof m <= theoretical_ndof m)%Z.
Proof.
  intros m HN HR. rewrite simple_ndof_form, theoretical_ndof_form by assumption. pose proof (records_dims m HR). pose proof (nz_rows_le m). pose proof (nz_cols_le m).
  assert (length (nz_rows m) * length (nz_cols m) <= nr m * nc m)%nat by nia.
  assert (0 <= (Z.of_nat (nr m) - 1) * (Z.of_nat (nc m) - 1))%Z by nia. lia.
Qed.
Lemma simple_ndof_transp : forall m, nonneg_table m -> has_records m -> estimate_simple_ndof (transp m) = estimate_simple_ndof m.
Proof.
  intros m HN HR. rewrite !simple_ndof_form by (try apply transp_nonneg; try apply transp_records; assumption).
  change (nz_rows (transp m)) with (nz_cols m). change (nz_cols (transp m)) with (nz_rows m). cbn [nr nc transp]. rewrite (Nat.mul_comm (nc m)), (Nat.mul_comm (length (nz_cols m))), (Z.mul_comm (Z.of_nat (nc m) - 1)). reflexivity.
Qed.
