(** C94: columns of category dtype. *)
From Coq Require Import String ZArith List Bool Reals Lia Lra.
Import ListNotations.
From Verif Require Import F64 Base Cells BinModel SpecBin HistModel SpecHist HistProofs RSum StatsModel SpecStats StatsProofs StatsProofs2 StatsProofs3 SpecSolver
  BrentModel BrentProofs BivModel SpecBiv BivProofs BivProofs2 PropsStats Num PhikModel SpecPhik PhikProofs PhikMatProofs PhikInvProofs SpecBvn BvnProofs BvnProofs2 BvnProofs3 PropsBvn PropsPhik CatModel SpecCat.
Open Scope list_scope.
Open Scope R_scope.

Lemma levels_facts : forall c, valid_ccol c -> NoDup (levels c) /\ ~ In CNaN (levels c) /\ forall v, In v (cc_cells c) -> v <> CNaN -> In v (levels c).
Proof.
  intros [[cats|] cells] V; unfold valid_ccol, levels in *; cbn [cc_cats cc_cells] in *.
  - destruct V as (A & B & C). split; [exact A|]. split; [exact B|]. intros v Hv N. destruct (C v Hv); [contradiction|assumption].
  - split; [apply ssorted_NoDup, dsort_sorted|]. split; [rewrite dsort_In, filter_In, negb_true_iff, isna_false; tauto|]. intros v Hv N. rewrite dsort_In, filter_In, negb_true_iff, isna_false. tauto.
Qed.

Section Cat.
  Variables x y : ccol. Hypothesis VX : valid_ccol x. Hypothesis VY : valid_ccol y. Hypothesis CAT : categorical x || categorical y = true.
  Let recs := records x y. Let h := crosstab_c x y. Let h0 := crosstab recs.
  Lemma hc_form : h = mkH (levels x) (levels y) (map (fun a => map (fun b => length (filter (paireqb a b) (filter complete recs))) (levels y)) (levels x)).
  Proof. unfold h, crosstab_c. rewrite CAT. reflexivity. Qed.
  Lemma hc_rows : h_rows h = levels x. Proof. rewrite hc_form. reflexivity. Qed.
  Lemma hc_cols : h_cols h = levels y. Proof. rewrite hc_form. reflexivity. Qed.
  Lemma hc_entry : forall i j, (i < length (levels x))%nat -> (j < length (levels y))%nat ->
    entry h i j = count_if (fun r => complete r && paireqb (nth i (levels x) CNaN) (nth j (levels y) CNaN) r) recs.
  Proof.
    intros i j Hi Hj. rewrite hc_form. unfold entry. cbn [h_cnt]. set (ok := filter complete recs).
    rewrite nth_indep with (d' := map (fun b => length (filter (paireqb CNaN b) ok)) (levels y)) by (rewrite map_length; exact Hi).
    rewrite (map_nth (fun a => map (fun b => length (filter (paireqb a b) ok)) (levels y))).
    rewrite nth_indep with (d' := length (filter (paireqb (nth i (levels x) CNaN) CNaN) ok)) by (rewrite map_length; exact Hj).
    rewrite (map_nth (fun b => length (filter (paireqb (nth i (levels x) CNaN) b) ok))). rewrite count_if_filter. unfold ok. apply count_if_and_filter.
  Qed.
  Lemma rec_cells : forall r, In r recs -> In (fst r) (cc_cells x) /\ In (snd r) (cc_cells y).
  Proof. intros [a b] H. split; [eapply in_combine_l|eapply in_combine_r]; exact H. Qed.
  Lemma rows0_in : forall a, In a (h_rows h0) -> In a (levels x).
  Proof. intros a H. apply in_rows in H. destruct H as (r & Hr & C & <-). apply complete_iff in C. apply levels_facts; [exact VX|apply rec_cells; exact Hr|tauto]. Qed.
  Lemma cols0_in : forall a, In a (h_cols h0) -> In a (levels y).
  Proof. intros a H. apply in_cols in H. destruct H as (r & Hr & C & <-). apply complete_iff in C. apply levels_facts; [exact VY|apply rec_cells; exact Hr|tauto]. Qed.
  Let I := map (fun a => posb (ceqb a) (levels x)) (h_rows h0).
  Let J := map (fun a => posb (ceqb a) (levels y)) (h_cols h0).
  Lemma pos_in : forall a l, In a l -> (posb (ceqb a) l < length l)%nat /\ nth (posb (ceqb a) l) l CNaN = a.
  Proof. intros a l H. destruct (posb_spec _ (ceqb a) l CNaN) as [P1 P2]; [exists a; split; [exact H|apply ceqb_refl]|]. split; [exact P1|]. apply ceqb_eq in P2. congruence. Qed.
  Lemma pos_nodup : forall l l', NoDup l' -> (forall a, In a l' -> In a l) -> NoDup (map (fun a => posb (ceqb a) l) l').
  Proof.
    intros l l' N S. induction N as [|b l' Hb N IH]; cbn [map]; constructor.
    - intros H. apply in_map_iff in H. destruct H as (b' & E & Hb'). assert (b' = b); [|congruence]. rewrite <- (proj2 (pos_in b' l (S b' (or_intror Hb')))), <- (proj2 (pos_in b l (S b (or_introl eq_refl)))), E. reflexivity.
    - apply IH. intros a Ha. apply S. right. exact Ha.
  Qed.
  Lemma nth_pos : forall l l' i, (i < length l')%nat -> nth i (map (fun a => posb (ceqb a) l) l') 0%nat = posb (ceqb (nth i l' CNaN)) l.
  Proof. intros l l' i H. rewrite (nth_indep _ 0%nat (posb (ceqb CNaN) l)) by (rewrite map_length; exact H). apply (map_nth (fun a => posb (ceqb a) l)). Qed.
  Lemma cat_rearr : rearrangement (hmat h) I J.
  Proof.
    split; [apply pos_nodup; [apply ssorted_NoDup, dsort_sorted|exact rows0_in]|]. split; [apply pos_nodup; [apply ssorted_NoDup, dsort_sorted|exact cols0_in]|].
    cbn [hmat nr nc]. rewrite hc_rows, hc_cols. split; [|split].
    - intros i H. apply in_map_iff in H. destruct H as (a & <- & Ha). apply pos_in, rows0_in, Ha.
    - intros i H. apply in_map_iff in H. destruct H as (a & <- & Ha). apply pos_in, cols0_in, Ha.
    - intros i j Hi Hj NZ. cbn [hmat el] in NZ. change (INR (entry h i j) <> 0) in NZ. rewrite hc_entry in NZ by assumption.
      assert (P : (0 < count_if (fun r => complete r && paireqb (nth i (levels x) CNaN) (nth j (levels y) CNaN) r) recs)%nat) by (destruct (count_if _ _); [exfalso; apply NZ; reflexivity|lia]).
      apply count_if_pos in P. destruct P as (r & Hr & E). apply andb_true_iff in E. destruct E as [C E]. unfold paireqb in E. apply andb_true_iff in E. destruct E as [E1 E2]. apply ceqb_eq in E1, E2.
      destruct (levels_facts x VX) as (NX & _ & _). destruct (levels_facts y VY) as (NY & _ & _).
      assert (R1 : In (fst r) (h_rows h0)) by (apply in_rows; exists r; auto). assert (R2 : In (snd r) (h_cols h0)) by (apply in_cols; exists r; auto).
      split; apply in_map_iff.
      + exists (fst r). split; [|exact R1]. destruct (pos_in _ _ (rows0_in _ R1)) as [P1 P2]. apply (proj1 (NoDup_nth (levels x) CNaN) NX); [exact P1|exact Hi|congruence].
      + exists (snd r). split; [|exact R2]. destruct (pos_in _ _ (cols0_in _ R2)) as [P1 P2]. apply (proj1 (NoDup_nth (levels y) CNaN) NY); [exact P1|exact Hj|congruence].
  Qed.
  Lemma cat_entries : mat_eq (submat (hmat h) I J) (hmat h0).
  Proof.
    split; [cbn; unfold I; apply map_length|]. split; [cbn; unfold J; apply map_length|]. intros i j Hi Hj. cbn [submat nr nc el] in *. unfold I, J in *. rewrite map_length in Hi, Hj. rewrite !nth_pos by assumption.
    assert (R1 : In (nth i (h_rows h0) CNaN) (h_rows h0)) by (apply nth_In; exact Hi). assert (R2 : In (nth j (h_cols h0) CNaN) (h_cols h0)) by (apply nth_In; exact Hj).
    destruct (pos_in _ _ (rows0_in _ R1)) as [P1 P2]. destruct (pos_in _ _ (cols0_in _ R2)) as [Q1 Q2]. set (i' := posb _ (levels x)) in *. set (j' := posb _ (levels y)) in *.
    change (INR (entry h i' j') = INR (entry h0 i j)). f_equal. rewrite hc_entry by assumption. unfold h0. rewrite crosstab_entry by assumption. fold h0. rewrite P2, Q2. reflexivity.
  Qed.

  Lemma rows0_used : forall a, In a (h_rows h0) <-> used_x x y a.
  Proof.
    intros a. unfold h0. rewrite in_rows. unfold used_x. fold recs. split.
    - intros ([a' b] & H & C & E). apply complete_iff in C. cbn in *. subst a'. split; [tauto|]. exists b. tauto.
    - intros (N & b & Nb & H). exists (a, b). split; [exact H|]. split; [apply complete_iff; auto|reflexivity].
  Qed.
  Lemma cols0_used : forall b, In b (h_cols h0) <-> used_y x y b.
  Proof.
    intros b. unfold h0. rewrite in_cols. unfold used_y. fold recs. split.
    - intros ([a b'] & H & C & E). apply complete_iff in C. cbn in *. subst b'. split; [tauto|]. exists a. tauto.
    - intros (N & a & Na & H). exists (a, b). split; [exact H|]. split; [apply complete_iff; auto|reflexivity].
  Qed.
  Lemma used_len : forall p l n, NoDup l -> (forall a : cell, In a l <-> p a) -> used_count p n -> length l = n.
  Proof.
    intros p l n N H (l' & N' & <- & H'). apply Permutation.Permutation_length, Permutation.NoDup_Permutation; [exact N|exact N'|]. intros a. rewrite H, H'. tauto.
  Qed.
  Lemma rows0_len : forall n, used_count (used_x x y) n -> length (h_rows h0) = n.
  Proof. intros n. apply used_len; [apply ssorted_NoDup, dsort_sorted|exact rows0_used]. Qed.
  Lemma cols0_len : forall n, used_count (used_y x y) n -> length (h_cols h0) = n.
  Proof. intros n. apply used_len; [apply ssorted_NoDup, dsort_sorted|exact cols0_used]. Qed.
  Lemma h0_rec : forall i j, (i < length (h_rows h0))%nat -> (j < length (h_cols h0))%nat ->
    el (hmat h0) i j = el (hmat h) (nth i I 0%nat) (nth j J 0%nat).
  Proof. intros i j Hi Hj. destruct cat_entries as (A & B & C). symmetry. apply C; cbn [submat nr nc]; unfold I, J; rewrite map_length; assumption. Qed.
  Lemma enum_I : enum_rows (hmat h) I.
  Proof.
    destruct cat_rearr as (N1 & N2 & R1 & R2 & R3). split; [exact N1|]. intros i. split.
    - intros H. split; [apply R1; exact H|]. destruct (In_nth _ _ 0%nat H) as (k & Hk & <-).
      assert (Hk' : (k < length (h_rows h0))%nat) by (unfold I in Hk; rewrite map_length in Hk; exact Hk).
      destruct (crosstab_table recs) as (_ & _ & _ & _ & _ & _ & _ & A8 & _). destruct (A8 k Hk') as (j & Hj & P). exists (nth j J 0%nat).
      assert (Hj' : (j < length J)%nat) by (unfold J; rewrite map_length; exact Hj).
      split; [apply R2, nth_In, Hj'|]. rewrite <- h0_rec by assumption. change (INR (entry h0 k j) <> 0). apply not_0_INR. fold h0 in P. lia.
    - intros (Hi & j & Hj & NZ). apply (R3 i j Hi Hj NZ).
  Qed.
  Lemma enum_J : enum_cols (hmat h) J.
  Proof.
    destruct cat_rearr as (N1 & N2 & R1 & R2 & R3). split; [exact N2|]. intros i. split.
    - intros H. split; [apply R2; exact H|]. destruct (In_nth _ _ 0%nat H) as (k & Hk & <-).
      assert (Hk' : (k < length (h_cols h0))%nat) by (unfold J in Hk; rewrite map_length in Hk; exact Hk).
      destruct (crosstab_table recs) as (_ & _ & _ & _ & _ & _ & _ & _ & A9 & _). destruct (A9 k Hk') as (j & Hj & P). exists (nth j I 0%nat).
      assert (Hj' : (j < length I)%nat) by (unfold I; rewrite map_length; exact Hj).
      split; [apply R1, nth_In, Hj'|]. rewrite <- h0_rec by assumption. change (INR (entry h0 j k) <> 0). apply not_0_INR. fold h0 in P. lia.
    - intros (Hi & j & Hj & NZ). apply (R3 j i Hj Hi NZ).
  Qed.
  Lemma nzr_len : forall n, used_count (used_x x y) n -> length (nz_rows (hmat h)) = n.
  Proof.
    intros n H. rewrite <- (rows0_len n H). destruct enum_I as [N E]. transitivity (length I); [|unfold I; apply map_length].
    apply Permutation.Permutation_length, Permutation.NoDup_Permutation; [apply nodup_nz_rows|exact N|]. intros i. rewrite in_nz_rows, E. tauto.
  Qed.
  Lemma nzc_len : forall n, used_count (used_y x y) n -> length (nz_cols (hmat h)) = n.
  Proof.
    intros n H. rewrite <- (cols0_len n H). destruct enum_J as [N E]. transitivity (length J); [|unfold J; apply map_length].
    apply Permutation.Permutation_length, Permutation.NoDup_Permutation; [apply nodup_nz_cols|exact N|]. intros i. rewrite in_nz_cols, E. tauto.
  Qed.
  Lemma cat_records : forall a b, a <> CNaN -> b <> CNaN -> In (a, b) recs -> has_records (hmat h).
  Proof.
    intros a b Na Nb H. assert (U : In a (h_rows h0)) by (apply rows0_used; split; [exact Na|exists b; auto]).
    destruct enum_I as [_ E]. assert (In (posb (ceqb a) (levels x)) I) by (unfold I; apply in_map_iff; exists a; auto).
    apply E in H0. destruct H0 as (Hi & j & Hj & NZ). exists (posb (ceqb a) (levels x)), j. auto.
  Qed.
  Lemma cat_total : total h = count_if (fun r => complete r) recs.
  Proof.
    rewrite <- count_if_filter. set (ok := filter complete recs).
    assert (E : total h = nsum (map (fun a => nsum (map (fun b => count_if (paireqb a b) ok) (levels y))) (levels x))).
    { rewrite hc_form. unfold total. cbn [h_cnt]. fold ok. generalize (levels x) as rs. generalize (levels y) as cs. intros cs rs.
      induction rs as [|a rs IH]; [reflexivity|]. cbn [map fold_right nsum]. rewrite IH. f_equal.
      unfold nsum. f_equal. apply map_ext. intros b. apply count_if_filter. }
    rewrite E.
    assert (E2 : forall a, nsum (map (fun b => count_if (paireqb a b) ok) (levels y)) = count_if (fun r => true && ceqb (fst r) a) ok).
    { intros a. unfold paireqb. transitivity (count_if (fun r : cell * cell => ceqb (fst r) a) ok); [|reflexivity]. rewrite <- (count_split _ snd (fun r => ceqb (fst r) a) ok (levels y)).
      - reflexivity.
      - apply levels_facts, VY.
      - intros r Hr. apply filter_In in Hr. apply levels_facts; [exact VY|apply rec_cells; apply Hr|]. destruct Hr as [_ C]. apply complete_iff in C. tauto. }
    rewrite (map_ext _ _ E2). rewrite (count_split _ fst (fun _ => true) ok (levels x)).
    + rewrite <- count_if_filter. clear. induction ok as [|r ok IH]; simpl; [reflexivity|]. f_equal. exact IH.
    + apply levels_facts, VX.
    + intros r Hr. apply filter_In in Hr. apply levels_facts; [exact VX|apply rec_cells; apply Hr|]. destruct Hr as [_ C]. apply complete_iff in C. tauto.
  Qed.
  Lemma cat_chi2 : forall clamp l, get_chi2 clamp (hmat h) l = get_chi2 clamp (hmat h0) l.
  Proof. intros clamp l. rewrite <- (C15_rearrange clamp (hmat h) l I J cat_rearr). apply get_chi2_eq, cat_entries. Qed.
End Cat.

(** C94 *)
Lemma no_nan_pair : forall x y i j r, valid_ccol x -> valid_ccol y -> (i < length (levels x))%nat -> (j < length (levels y))%nat ->
  complete r && paireqb (nth i (levels x) CNaN) (nth j (levels y) CNaN) r = ceqb (fst r) (nth i (levels x) CNaN) && ceqb (snd r) (nth j (levels y) CNaN).
Proof.
  intros x y i j r VX VY Hi Hj. unfold paireqb. destruct (ceqb (fst r) (nth i (levels x) CNaN)) eqn:E1; [|apply andb_false_r]. destruct (ceqb (snd r) (nth j (levels y) CNaN)) eqn:E2; [|apply andb_false_r].
  rewrite andb_true_r. apply ceqb_eq in E1, E2. apply complete_iff. rewrite E1, E2. destruct (levels_facts x VX) as (_ & A & _). destruct (levels_facts y VY) as (_ & B & _).
  split; intros F; [apply A|apply B]; rewrite <- F; apply nth_In; assumption.
Qed.
(** the table has one row per declared category, used or not; of a column without declared categories it has one per value, also
    those that only occur where the other column is missing; the counts are those of the complete records *)
Theorem C94_table : forall x y, valid_ccol x -> valid_ccol y -> categorical x || categorical y = true ->
  let h := crosstab_c x y in
  (forall cats, cc_cats x = Some cats -> h_rows h = cats) /\
  (cc_cats x = None -> NoDup (h_rows h) /\ forall a, In a (h_rows h) <-> In a (cc_cells x) /\ a <> CNaN) /\
  (forall cats, cc_cats y = Some cats -> h_cols h = cats) /\
  (cc_cats y = None -> NoDup (h_cols h) /\ forall a, In a (h_cols h) <-> In a (cc_cells y) /\ a <> CNaN) /\
  (forall i j, (i < length (h_rows h))%nat -> (j < length (h_cols h))%nat ->
     entry h i j = count_if (fun r => ceqb (fst r) (nth i (h_rows h) CNaN) && ceqb (snd r) (nth j (h_cols h) CNaN)) (records x y)) /\
  total h = count_if (fun r => negb (ceqb (fst r) CNaN) && negb (ceqb (snd r) CNaN)) (records x y).
Proof.
  intros x y VX VY CAT h. assert (LV : forall c, cc_cats c = None -> NoDup (levels c) /\ forall a, In a (levels c) <-> In a (cc_cells c) /\ a <> CNaN).
  { intros c E. unfold levels. rewrite E. split; [apply ssorted_NoDup, dsort_sorted|]. intros a. rewrite dsort_In, filter_In, negb_true_iff, isna_false. tauto. }
  unfold h. rewrite (hc_rows x y CAT), (hc_cols x y CAT).
  split; [intros cats E; unfold levels; rewrite E; reflexivity|]. split; [apply LV|]. split; [intros cats E; unfold levels; rewrite E; reflexivity|]. split; [apply LV|]. split.
  - intros i j Hi Hj. rewrite hc_entry by assumption. apply count_if_ext. intros r _. apply no_nan_pair; assumption.
  - rewrite cat_total by assumption. apply count_if_ext. intros [[] []] _; reflexivity.
Qed.
(** neither column of category dtype: the table of C06 *)
Theorem C94_plain : forall x y, crosstab_c (plain x) (plain y) = crosstab (records x y).
Proof. reflexivity. Qed.
(** the chi2 is that of the used categories only *)
Theorem C94_same_chi2 : forall x y clamp l, valid_ccol x -> valid_ccol y -> get_chi2 clamp (hmat (crosstab_c x y)) l = get_chi2 clamp (hmat (crosstab_c (plain x) (plain y))) l.
Proof.
  intros x y clamp l VX VY. rewrite C94_plain. destruct (categorical x || categorical y) eqn:CAT; [apply cat_chi2; assumption|].
  unfold crosstab_c. rewrite CAT. reflexivity.
Qed.
Lemma exists_record : forall x y r c, used_count (used_x x y) r -> used_count (used_y x y) c -> (1 <= r)%nat -> exists a b, a <> CNaN /\ b <> CNaN /\ In (a, b) (records x y).
Proof. intros x y r c ([|a l] & _ & <- & H) _ P; [cbn in P; lia|]. destruct (proj1 (H a) (or_introl eq_refl)) as (Na & b & Nb & R). exists a, b. auto. Qed.
(** ... but the two numbers of degrees of freedom are not *)
Theorem C94_ndof : forall x y r c, valid_ccol x -> valid_ccol y -> categorical x || categorical y = true ->
  used_count (used_x x y) r -> used_count (used_y x y) c -> (1 <= r)%nat ->
  let h := hmat (crosstab_c x y) in let R := Z.of_nat (length (levels x)) in let C := Z.of_nat (length (levels y)) in
  theoretical_ndof h = ((R - 1) * (C - 1))%Z /\
  estimate_simple_ndof h = Z.max 0 ((R - 1) * (C - 1) - (R * C - Z.of_nat r * Z.of_nat c)).
Proof.
  intros x y r c VX VY CAT UR UC P h R C. destruct (exists_record x y r c UR UC P) as (a & b & Na & Nb & REC).
  assert (HR : has_records h) by (exact (cat_records x y VX VY CAT a b Na Nb REC)). assert (SR : nr h = length (levels x)) by (unfold h; cbn [hmat nr]; rewrite hc_rows by exact CAT; reflexivity).
  assert (SC : nc h = length (levels y)) by (unfold h; cbn [hmat nc]; rewrite hc_cols by exact CAT; reflexivity).
  split; [rewrite C19_theoretical, SR, SC; reflexivity|]. rewrite simple_ndof_form; [|apply hmat_nonneg|exact HR]. unfold h at 5 6. rewrite (nzr_len x y VX VY CAT r UR), (nzc_len x y VX VY CAT c UC), SR, SC. unfold R, C. rewrite !Nat2Z.inj_mul. reflexivity.
Qed.
(** if every category is used, category dtype and the order of the categories do not matter *)
Theorem C94_all_used : forall L noise x y, lib_ok L -> valid_ccol x -> valid_ccol y ->
  (forall a, In a (levels x) -> used_x x y a) -> (forall b, In b (levels y) -> used_y x y b) ->
  calc_phik_c L noise x y = calc_phik_c L noise (plain x) (plain y).
Proof.
  intros L noise x y LO VX VY UX UY. unfold calc_phik_c. rewrite C94_plain. destruct (categorical x || categorical y) eqn:CAT; [|unfold crosstab_c; rewrite CAT; reflexivity].
  destruct (levels_facts x VX) as (NX & _ & _). destruct (levels_facts y VY) as (NY & _ & _).
  set (h := crosstab_c x y). set (h0 := crosstab (records x y)).
  assert (PX : Permutation.Permutation (h_rows h0) (levels x)).
  { apply Permutation.NoDup_Permutation; [apply ssorted_NoDup, dsort_sorted|exact NX|]. intros a. split; [apply rows0_in; assumption|]. intros H. apply rows0_used, UX, H. }
  assert (PY : Permutation.Permutation (h_cols h0) (levels y)).
  { apply Permutation.NoDup_Permutation; [apply ssorted_NoDup, dsort_sorted|exact NY|]. intros a. split; [apply cols0_in; assumption|]. intros H. apply cols0_used, UY, H. }
  pose proof (Permutation.Permutation_length PX) as LX. pose proof (Permutation.Permutation_length PY) as LY.
  assert (SR : h_rows h = levels x) by (apply hc_rows; exact CAT). assert (SC : h_cols h = levels y) by (apply hc_cols; exact CAT).
  unfold table_phik. rewrite SR, SC, LX, LY. destruct (is01 (length (levels x)) || is01 (length (levels y))) eqn:Z; [reflexivity|].
  assert (PS : proper_shape (hmat h)).
  { destruct (is01_proper h) as [A B]. rewrite SR, SC in A, B. unfold proper_shape in *. destruct (le_dec 2 (nr (hmat h))), (le_dec 2 (nc (hmat h))); try tauto; exfalso; rewrite B in Z by tauto; discriminate. }
  assert (HR : has_records (hmat h)).
  { destruct PS as [P1 _]. cbn [hmat nr] in P1. rewrite SR in P1. destruct (levels x) as [|a l] eqn:E; [cbn in P1; lia|]. destruct (UX a (or_introl eq_refl)) as (Na & b & Nb & REC). exact (cat_records x y VX VY CAT a b Na Nb REC). }
  pose proof (cat_rearr x y VX VY CAT) as (N1 & N2 & R1 & R2 & R3). pose proof (cat_entries x y VX VY CAT) as ME. fold h h0 in N1, N2, R1, R2, R3, ME.
  set (I := map _ (h_rows h0)) in *. set (J := map _ (h_cols h0)) in *.
  assert (P : permutes (hmat h) I J).
  { split; [exact N1|]. split; [exact N2|]. split; intros i; (split; [first [exact (R1 i) | exact (R2 i)]|intros Hi]).
    - assert (B : forall z, In z (seq 0 (nr (hmat h))) -> In z I).
      { apply NoDup_length_incl; [exact N1| |intros z Hz; apply in_seq; split; [lia|]; apply R1 in Hz; lia]. rewrite seq_length. unfold I. rewrite map_length. cbn [hmat nr]. rewrite SR. lia. }
      apply B, in_seq. lia.
    - assert (B : forall z, In z (seq 0 (nc (hmat h))) -> In z J).
      { apply NoDup_length_incl; [exact N2| |intros z Hz; apply in_seq; split; [lia|]; apply R2 in Hz; lia]. rewrite seq_length. unfold J. rewrite map_length. cbn [hmat nc]. rewrite SC. lia. }
      apply B, in_seq. lia. }
  rewrite <- (hist2d_eq L _ _ noise ME). rewrite (C27_permutation L (hmat h) noise I J LO (hmat_nonneg h) HR PS P). reflexivity.
Qed.
(** an unused category in the smaller dimension: the result is 0 or a correlation strictly below 1, even under perfect association *)
Lemma hmat_integer : forall h, integer_table (hmat h).
Proof. intros h i j _ _. cbn [el hmat]. eexists. reflexivity. Qed.
Theorem C94_never_one : forall clamp iter noise x y r c v, valid_ccol x -> valid_ccol y -> categorical x || categorical y = true ->
  used_count (used_x x y) r -> used_count (used_y x y) c -> (1 <= r)%nat -> (2 <= length (levels x))%nat -> (2 <= length (levels y))%nat ->
  (Nat.min r c < Nat.min (length (levels x)) (length (levels y)))%nat ->
  let L := mkLib clamp bvn_prob (brent_iter iter) in let h := hmat (crosstab_c x y) in
  calc_phik_c L noise x y = Ok v ->
  exists chi2, get_chi2 clamp (hmat (crosstab (records x y))) Pearson = Ok chi2 /\
    let pedestal := if noise then IZR (estimate_simple_ndof h) else 0 in
    (v = Fin 0 /\ chi2 <= pedestal) \/
    exists q rho, v = Fin q /\ 0 < rho < 1 /\ Rabs (q - rho) <= 101 / 10 ^ 7 /\
      chi2_from_phik bvn_prob rho (matsum h) 0 None None None None pedestal (Z.of_nat (length (levels x))) (Z.of_nat (length (levels y))) = Ok chi2.
Proof.
  intros clamp iter noise x y r c v VX VY CAT UR UC P L1 L2 LT L h E. destruct (exists_record x y r c UR UC P) as (a & b & Na & Nb & REC).
  assert (HR : has_records h) by (exact (cat_records x y VX VY CAT a b Na Nb REC)). assert (HN : nonneg_table h) by apply hmat_nonneg.
  assert (SR : nr h = length (levels x)) by (unfold h; cbn [hmat nr]; rewrite hc_rows by exact CAT; reflexivity).
  assert (SC : nc h = length (levels y)) by (unfold h; cbn [hmat nc]; rewrite hc_cols by exact CAT; reflexivity).
  assert (PS : proper_shape h) by (split; lia).
  destruct (C81_table clamp iter h noise HN HR PS) as (chi2 & EC & V1 & V2 & V3). exists chi2. split; [rewrite <- cat_chi2 by assumption; exact EC|]. cbn zeta in *.
  unfold calc_phik_c, table_phik in E. rewrite (hc_rows x y CAT), (hc_cols x y CAT) in E. fold h in E.
  assert (Z : is01 (length (levels x)) || is01 (length (levels y)) = false).
  { unfold is01. destruct (Nat.eqb_spec (length (levels x)) 0), (Nat.eqb_spec (length (levels x)) 1), (Nat.eqb_spec (length (levels y)) 0), (Nat.eqb_spec (length (levels y)) 1); try lia; reflexivity. }
  rewrite Z in E. fold L in V1, V2, V3. destruct (phik_from_hist2d L h noise) as [q|e] eqn:F; [|discriminate E]. cbn in E. injection E as <-.
  set (ped := if noise then IZR (estimate_simple_ndof h) else 0) in *.
  destruct (Rle_dec chi2 ped) as [H|H]; [left; split; [|exact H]; specialize (V1 H); injection V1 as ->; reflexivity|right].
  assert (MP : 0 < matsum h) by (apply matsum_pos; assumption).
  assert (MX : chi2 < matsum h * (IZR (Z.min (Z.of_nat (nr h)) (Z.of_nat (nc h))) - 1)).
  { rewrite get_chi2_closed in EC by assumption. injection EC as <-.
    assert (B : stat clamp Pearson h (nz_rows h) (nz_cols h) <= matsum h * Rmin (INR (length (nz_rows h)) - 1) (INR (length (nz_cols h)) - 1)).
    { destruct clamp; [apply stat_max; assumption|apply stat_max_noclamp; try assumption; apply hmat_integer]. }
    eapply Rle_lt_trans; [exact B|]. apply Rmult_lt_compat_l; [exact MP|]. unfold h at 1 2. rewrite (nzr_len x y VX VY CAT r UR), (nzc_len x y VX VY CAT c UC), SR, SC.
    rewrite <- Nat2Z.inj_min, <- INR_IZR_INZ. apply lt_INR in LT.
    assert (Rmin (INR r - 1) (INR c - 1) <= INR (Nat.min r c) - 1); [|lra].
    destruct (le_dec r c) as [Q|Q]; [rewrite Nat.min_l by exact Q; apply Rmin_l|rewrite Nat.min_r by lia; apply Rmin_r]. }
  destruct (V3 ltac:(lra) MX q eq_refl) as (rho & R1 & R2 & R3 & _). exists q, rho. split; [reflexivity|]. split; [exact R1|]. split; [exact R3|]. rewrite SR, SC in R2. exact R2.
Qed.
(** dropna=False: a column of category dtype must declare the label "NaN" *)
Theorem C94_dropna : forall err uf of x y cats, cc_cats x = Some cats \/ cc_cats y = Some cats -> ~ In (CStr NaNs) cats ->
  exists e, hist2d_c err false uf of x y = Raise e /\ e = err.
Proof.
  intros err uf of x y cats H N. assert (F : forall c, cc_cats c = Some cats -> clean_c err false uf of c = Raise err).
  { intros c E. unfold clean_c, fillna_c. rewrite E. destruct (existsb (ceqb (CStr NaNs)) cats) eqn:Q; [|reflexivity]. apply existsb_exists in Q. destruct Q as (a & Ha & Q). apply ceqb_eq in Q. subst a. contradiction. }
  exists err. split; [|reflexivity]. unfold hist2d_c. destruct H as [H|H]; [rewrite (F x H); reflexivity|].
  destruct (clean_c err false uf of x) as [x'|e] eqn:E; cbn; [rewrite (F y H); reflexivity|].
  unfold clean_c, fillna_c in E. destruct (cc_cats x) as [cx|]; [|discriminate E]. destruct (existsb _ _); [discriminate E|]. cbn in E. congruence.
Qed.
(** hist2d on such columns: dropped underflow and overflow labels also disappear from the declared categories *)
Lemma clean_c_ok : forall err d u o c c', valid_ccol c -> clean_c err d u o c = Ok c' ->
  valid_ccol c' /\ categorical c' = categorical c /\ cc_cells c' = map (clean1 d u o) (cc_cells c) /\ cc_cats c' = option_map (filter (kept_cat d u o)) (cc_cats c).
Proof.
  intros err d u o [cats cells] c' V E.
  assert (CE : cc_cells c' = map (clean1 d u o) cells).
  { unfold clean_c, fillna_c, replace_c in E. cbn [cc_cats cc_cells] in E.
    destruct d, cats as [cats|]; cbn [cc_cats cc_cells] in E; try (destruct (existsb _ _); [|discriminate E]); cbn in E; injection E as <-; destruct u, o; cbn [cc_cells]; rewrite ?map_map; unfold clean1; try (apply map_ext; reflexivity); symmetry; apply map_id. }
  assert (CC : cc_cats c' = option_map (filter (kept_cat d u o)) cats).
  { assert (KC : forall l, ~ In CNaN l -> forall m : list cell, m = filter (fun x => if o then negb (ceqb x (CStr OFs)) else true) (filter (fun x => if u then negb (ceqb x (CStr UFs)) else true) l) -> m = filter (kept_cat d u o) l).
    { intros l NL m ->. induction l as [|a l IH]; [reflexivity|]. assert (Na : a <> CNaN) by (intros F; apply NL; left; exact F). specialize (IH (fun F => NL (or_intror F))).
      cbn [filter]. assert (KA : kept_cat d u o a = (if u then negb (ceqb a (CStr UFs)) else true) && (if o then negb (ceqb a (CStr OFs)) else true)).
      { unfold kept_cat, counted_as. destruct a as [|z|z|s]; [contradiction|destruct u, o; reflexivity|destruct u, o; reflexivity|].
        assert (SE : forall t, ceqb (CStr s) (CStr t) = String.eqb s t).
        { intros t. destruct (String.eqb_spec s t) as [-> |N]; [apply ceqb_refl|]. destruct (ceqb (CStr s) (CStr t)) eqn:Q; [|reflexivity]. apply ceqb_eq in Q. congruence. }
        rewrite !SE. change UFs with "UF"%string. change OFs with "OF"%string. destruct u, o, (String.eqb s "UF"%string), (String.eqb s "OF"%string); reflexivity. }
      rewrite KA. destruct (if u then _ else _); cbn [filter andb]; [destruct (if o then _ else _); [f_equal; exact IH|exact IH]|exact IH]. }
    assert (FT : forall l : list cell, filter (fun _ => true) l = l) by (induction l as [|a l IH]; [reflexivity|cbn; f_equal; exact IH]).
    unfold clean_c, fillna_c, replace_c in E. unfold valid_ccol in V. cbn [cc_cats cc_cells] in E, V.
    destruct cats as [cats|]; [|destruct d; cbn in E; injection E as <-; destruct u, o; reflexivity]. destruct V as (_ & NV & _).
    destruct d; cbn [cc_cats cc_cells] in E; try (destruct (existsb _ _); [|discriminate E]); cbn in E; injection E as <-; destruct u, o; cbn [cc_cats option_map]; f_equal; apply (KC cats NV); rewrite ?FT; reflexivity. }
  split; [|split; [|split; [exact CE|exact CC]]].
  - unfold valid_ccol in *. rewrite CC. cbn [cc_cats cc_cells] in V. destruct cats as [cats|]; [|exact I]. cbn [option_map]. destruct V as (N & NN & IN). split; [apply NoDup_filter; exact N|]. split; [intros F; apply filter_In in F; tauto|].
    intros v Hv. rewrite CE in Hv. apply in_map_iff in Hv. destruct Hv as (a & <- & Ha).
    pose proof (seen_clean d u o a) as SC.
    destruct (cell_eq_dec (clean1 d u o a) CNaN) as [Z|Z]; [left; exact Z|right]. apply filter_In.
    assert (FA : In (clean1 d u o a) cats).
    { destruct (cell_eq_dec a CNaN) as [-> |NA].
      - destruct d; [exfalso; apply Z; destruct u, o; reflexivity|]. unfold clean_c, fillna_c in E. cbn [cc_cats] in E. destruct (existsb (ceqb (CStr NaNs)) cats) eqn:Q; [|discriminate E].
        apply existsb_exists in Q. destruct Q as (b & Hb & Q). apply ceqb_eq in Q. subst b. replace (clean1 false u o CNaN) with (CStr NaNs) by (destruct u, o; reflexivity). exact Hb.
      - assert (clean1 d u o a = a); [|rewrite H; destruct (IN a Ha); [contradiction|assumption]]. unfold clean1, repl in *. destruct d; destruct (ceqb a CNaN) eqn:Q0; try (apply ceqb_eq in Q0; contradiction); destruct u, o; repeat (destruct (ceqb _ _)); try reflexivity; contradiction. }
    split; [exact FA|]. unfold kept_cat. rewrite <- seen_clean.
    assert (ID : clean1 d u o (clean1 d u o a) = clean1 d u o a).
    { assert (NZ : forall b, clean1 d u o b <> CNaN -> b <> CNaN -> clean1 d u o b = b) by (intros b Z' NB; unfold clean1, repl in *; destruct d; destruct (ceqb b CNaN) eqn:Q0; try (apply ceqb_eq in Q0; contradiction); destruct u, o; repeat (destruct (ceqb _ _)); try reflexivity; contradiction).
      destruct (cell_eq_dec a CNaN) as [-> |NA]; [destruct d; [exfalso; apply Z; destruct u, o; reflexivity|destruct u, o; reflexivity]|]. rewrite (NZ a Z NA) in *. apply NZ; assumption. }
    rewrite ID. destruct (clean1 d u o a) eqn:Q9; [exfalso; apply Z; reflexivity|reflexivity|reflexivity|reflexivity].
  - unfold categorical. rewrite CC. destruct cats; reflexivity.
Qed.

Theorem C94_hist2d : forall err d u o x y h, valid_ccol x -> valid_ccol y -> categorical x || categorical y = true -> hist2d_c err d u o x y = Ok h ->
  (forall cats, cc_cats x = Some cats -> h_rows h = filter (kept_cat d u o) cats) /\
  (cc_cats x = None -> NoDup (h_rows h) /\ forall a, In a (h_rows h) <-> exists c, In c (cc_cells x) /\ counted_as d u o c = Some a) /\
  (forall cats, cc_cats y = Some cats -> h_cols h = filter (kept_cat d u o) cats) /\
  (cc_cats y = None -> NoDup (h_cols h) /\ forall a, In a (h_cols h) <-> exists c, In c (cc_cells y) /\ counted_as d u o c = Some a) /\
  (forall i j, (i < length (h_rows h))%nat -> (j < length (h_cols h))%nat ->
     entry h i j = count_if (fun r => opair_eqb (counted_as d u o (fst r)) (counted_as d u o (snd r)) (nth i (h_rows h) CNaN) (nth j (h_cols h) CNaN)) (records x y)) /\
  total h = count_if (fun r => both_some (counted_as d u o (fst r)) (counted_as d u o (snd r))) (records x y).
Proof.
  intros err d u o x y h VX VY CAT E. unfold hist2d_c in E. destruct (clean_c err d u o x) as [x'|e] eqn:EX; [|discriminate E]. destruct (clean_c err d u o y) as [y'|e] eqn:EY; [|discriminate E]. cbn in E. injection E as <-.
  destruct (clean_c_ok _ _ _ _ _ _ VX EX) as (VX' & CX & CEX & CCX). destruct (clean_c_ok _ _ _ _ _ _ VY EY) as (VY' & CY & CEY & CCY). rewrite <- CX, <- CY in CAT.
  destruct (C94_table x' y' VX' VY' CAT) as (T1 & T2 & T3 & T4 & T5 & T6).
  assert (RC : records x' y' = map (fun r => (clean1 d u o (fst r), clean1 d u o (snd r))) (records x y)) by (unfold records; rewrite CEX, CEY; apply clean_combine).
  assert (PL : forall c c' l, cc_cells c' = map (clean1 d u o) (cc_cells c) -> (NoDup l /\ forall a, In a l <-> In a (cc_cells c') /\ a <> CNaN) -> NoDup l /\ forall a, In a l <-> exists c0, In c0 (cc_cells c) /\ counted_as d u o c0 = Some a).
  { intros c c' l CE [N H]. split; [exact N|]. intros a. rewrite H, CE, in_map_iff. split.
    - intros ((c0 & Q & H0) & NZ). exists c0. split; [exact H0|]. rewrite <- seen_clean, Q. apply seen0_some. auto.
    - intros (c0 & H0 & Q). rewrite <- seen_clean in Q. apply seen0_some in Q. destruct Q as [Q NZ]. split; [exists c0; auto|congruence]. }
  split; [intros cats Q; apply T1; rewrite CCX, Q; reflexivity|]. split; [intros Q; apply (PL x x'); [exact CEX|apply T2; rewrite CCX, Q; reflexivity]|].
  split; [intros cats Q; apply T3; rewrite CCY, Q; reflexivity|]. split; [intros Q; apply (PL y y'); [exact CEY|apply T4; rewrite CCY, Q; reflexivity]|].
  assert (NN : forall c i, valid_ccol c -> (i < length (levels c))%nat -> nth i (levels c) CNaN <> CNaN).
  { intros c i V Hi F. destruct (levels_facts c V) as (_ & A & _). apply A. rewrite <- F. apply nth_In, Hi. }
  split.
  - intros i j Hi Hj. rewrite T5 by assumption. rewrite RC, count_if_map. apply count_if_ext. intros r _. cbn [fst snd]. rewrite <- !seen_clean. rewrite (hc_rows x' y' CAT) in *. rewrite (hc_cols x' y' CAT) in *.
    pose proof (opair_complete (clean1 d u o (fst r), clean1 d u o (snd r)) (nth i (levels x') CNaN) (nth j (levels y') CNaN) (NN x' i VX' Hi) (NN y' j VY' Hj)) as OP. cbn [fst snd] in OP. rewrite OP. symmetry.
    apply (no_nan_pair x' y' i j (clean1 d u o (fst r), clean1 d u o (snd r)) VX' VY' Hi Hj).
  - rewrite T6, RC, count_if_map. apply count_if_ext. intros r _. cbn [fst snd]. rewrite <- !seen_clean. destruct (clean1 d u o (fst r)), (clean1 d u o (snd r)); reflexivity.
Qed.
(** and hist2d succeeds unless dropna=False meets a column of category dtype without the label "NaN" *)
Theorem C94_hist2d_ok : forall err d u o x y, (forall cats, cc_cats x = Some cats \/ cc_cats y = Some cats -> d = false -> In (CStr NaNs) cats) -> exists h, hist2d_c err d u o x y = Ok h.
Proof.
  intros err d u o x y H. assert (F : forall c, cc_cats c = cc_cats x \/ cc_cats c = cc_cats y -> exists c', clean_c err d u o c = Ok c').
  { intros c Q. unfold clean_c. destruct d; [eexists; reflexivity|]. unfold fillna_c. destruct (cc_cats c) as [cats|] eqn:E; [|eexists; reflexivity].
    assert (IN : In (CStr NaNs) cats) by (apply H; [destruct Q as [Q|Q]; rewrite <- Q; auto|reflexivity]).
    assert (Q' : existsb (ceqb (CStr NaNs)) cats = true) by (apply existsb_exists; exists (CStr NaNs); split; [exact IN|apply ceqb_refl]). rewrite Q'. eexists. reflexivity. }
  unfold hist2d_c. destruct (F x (or_introl eq_refl)) as (x' & ->). destruct (F y (or_intror eq_refl)) as (y' & ->). eexists. reflexivity.
Qed.

(** NaN exactly when one of the columns has fewer than two categories (declared ones if the dtype is category), whatever the data *)
Theorem C94_nan : forall L noise x y, categorical x || categorical y = true ->
  (calc_phik_c L noise x y = Ok NaN <-> (length (levels x) < 2)%nat \/ (length (levels y) < 2)%nat).
Proof.
  intros L noise x y CAT. unfold calc_phik_c, table_phik. rewrite (hc_rows x y CAT), (hc_cols x y CAT).
  destruct (is01 (length (levels x)) || is01 (length (levels y))) eqn:Z.
  - split; [intros _|reflexivity]. unfold is01 in Z. destruct (Nat.eqb_spec (length (levels x)) 0), (Nat.eqb_spec (length (levels x)) 1), (Nat.eqb_spec (length (levels y)) 0), (Nat.eqb_spec (length (levels y)) 1); try discriminate; lia.
  - split.
    + destruct (phik_from_hist2d L _ noise); discriminate.
    + intros H. exfalso. unfold is01 in Z. destruct (Nat.eqb_spec (length (levels x)) 0), (Nat.eqb_spec (length (levels x)) 1), (Nat.eqb_spec (length (levels y)) 0), (Nat.eqb_spec (length (levels y)) 1); try discriminate; lia.
Qed.
(** one declared category: NaN; a second declared category that never occurs: not NaN, although the column is still constant *)
Theorem C94_nan_example : forall clamp iter,
  let L := mkLib clamp bvn_prob (brent_iter iter) in
  let one := mkCC (Some [CStr "p"]%string) [CStr "p"; CStr "p"]%string in
  let two := mkCC (Some [CStr "p"; CStr "q"]%string) [CStr "p"; CStr "p"]%string in
  let y := mkCC None [CStr "u"; CStr "v"]%string in
  calc_phik_c L true one y = Ok NaN /\ calc_phik_c L true two y <> Ok NaN.
Proof.
  intros clamp iter L one two y. split.
  - apply C94_nan; [reflexivity|]. left. vm_compute. lia.
  - intros H. apply C94_nan in H; [|reflexivity]. vm_compute in H. lia.
Qed.
