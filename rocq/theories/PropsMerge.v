(** C95: merging categories never raises the chi2 (but it can raise phik). *)
From Coq Require Import String ZArith List Bool Reals Lia Lra Permutation Sorted.
From Coquelicot Require Import Coquelicot.
Import ListNotations.
From Verif Require Import Base Cells BinModel SpecBin BinProofs HistModel SpecHist HistProofs RSum StatsModel SpecStats StatsProofs StatsProofs2 StatsProofs3 SpecSolver BivModel SpecBiv BivProofs BivProofs2 PropsBiv2 PropsStats
  Num PhikModel SpecPhik PhikProofs PhikMatProofs PhikInvProofs Gauss SpecBvn BvnProofs BvnProofs2 BvnProofs3 PropsBvn PropsPhik PropsPhik2 PropsCat PropsCat2 SpecMerge MergeProofs.
Open Scope list_scope.
Open Scope R_scope.

(** ** tables *)
Theorem C95_merge : forall f g r c m l, merges_into f g r c m -> nonneg_table m -> has_records m ->
  exists v v', get_chi2 true m l = Ok v /\ get_chi2 true (merge f g r c m) l = Ok v' /\ v' <= v.
Proof. exact merge_chi2. Qed.

(** ** records *)
Lemma count_lsum : forall A (P : A -> bool) l, INR (count_if P l) = lsum (fun a => if P a then 1 else 0) l.
Proof.
  induction l as [|a l IH]; [reflexivity|]. cbn [count_if]. rewrite lsum_cons, plus_INR, IH. destruct (P a); simpl; lra.
Qed.
Lemma lsum_single : forall (h : nat -> R) i0 n, (i0 < n)%nat -> (forall i, (i < n)%nat -> i <> i0 -> h i = 0) -> lsum h (seq 0 n) = h i0.
Proof.
  intros h i0 n Hi H. rewrite (lsum_ext _ h (fun i => if Nat.eqb i0 i then h i0 else 0)); [|intros i I; apply in_seq in I; destruct (Nat.eqb_spec i0 i) as [->|N]; [reflexivity|apply H; [lia|congruence]]].
  pose proof (lsum_pick nat (fun _ i => i) (fun _ => h i0) n [i0]) as P. rewrite (lsum_ext _ _ (fun i => lsum (fun k => if Nat.eqb k i then h i0 else 0) [i0])); [|intros i _; rewrite lsum_cons, lsum_nil; ring].
  rewrite P; [rewrite lsum_cons, lsum_nil; ring|]. intros i [<-|[]]; exact Hi.
Qed.
Section Recode.
  Variables (p q : cell -> cell) (recs : list (cell * cell)).
  Hypothesis (HP : recoding p) (HQ : recoding q).
  Let h := crosstab recs.
  Let h' := crosstab (recode p q recs).
  Definition rowmap (i : nat) : nat := posb (ceqb (p (nth i (h_rows h) CNaN))) (h_rows h').
  Definition colmap (j : nat) : nat := posb (ceqb (q (nth j (h_cols h) CNaN))) (h_cols h').
  Lemma recode_complete : forall r, complete (p (fst r), q (snd r)) = complete r.
  Proof.
    intros r. apply eq_iff_eq_true. rewrite !complete_iff. cbn [fst snd]. rewrite (HP (fst r)), (HQ (snd r)). tauto.
  Qed.
  Lemma rows'_in : forall r, In r recs -> complete r = true -> In (p (fst r)) (h_rows h').
  Proof. intros r Hr C. apply in_rows. exists (p (fst r), q (snd r)). split; [apply in_map_iff; eauto|]. rewrite recode_complete. auto. Qed.
  Lemma cols'_in : forall r, In r recs -> complete r = true -> In (q (snd r)) (h_cols h').
  Proof. intros r Hr C. apply in_cols. exists (p (fst r), q (snd r)). split; [apply in_map_iff; eauto|]. rewrite recode_complete. auto. Qed.
  Lemma rowmap_spec : forall i, (i < length (h_rows h))%nat -> (rowmap i < length (h_rows h'))%nat /\ nth (rowmap i) (h_rows h') CNaN = p (nth i (h_rows h) CNaN).
  Proof.
    intros i Hi. assert (H : In (nth i (h_rows h) CNaN) (h_rows h)) by (apply nth_In; exact Hi). apply in_rows in H. destruct H as (r & Hr & C & E).
    unfold rowmap. destruct (posb_spec _ (ceqb (p (nth i (h_rows h) CNaN))) (h_rows h') CNaN) as [A B].
    - exists (p (nth i (h_rows h) CNaN)). split; [rewrite <- E; apply rows'_in; assumption|apply ceqb_refl].
    - split; [exact A|]. apply ceqb_eq in B. symmetry. exact B.
  Qed.
  Lemma colmap_spec : forall j, (j < length (h_cols h))%nat -> (colmap j < length (h_cols h'))%nat /\ nth (colmap j) (h_cols h') CNaN = q (nth j (h_cols h) CNaN).
  Proof.
    intros i Hi. assert (H : In (nth i (h_cols h) CNaN) (h_cols h)) by (apply nth_In; exact Hi). apply in_cols in H. destruct H as (r & Hr & C & E).
    unfold colmap. destruct (posb_spec _ (ceqb (q (nth i (h_cols h) CNaN))) (h_cols h') CNaN) as [A B].
    - exists (q (nth i (h_cols h) CNaN)). split; [rewrite <- E; apply cols'_in; assumption|apply ceqb_refl].
    - split; [exact A|]. apply ceqb_eq in B. symmetry. exact B.
  Qed.
  Lemma index_sum : forall ls ls' (g : cell -> cell) (k : nat -> nat) x i', NoDup ls -> NoDup ls' -> In x ls -> (i' < length ls')%nat ->
    (forall i, (i < length ls)%nat -> (k i < length ls')%nat /\ nth (k i) ls' CNaN = g (nth i ls CNaN)) ->
    lsum (fun i => if Nat.eqb (k i) i' then if ceqb x (nth i ls CNaN) then 1 else 0 else 0) (seq 0 (length ls)) = if ceqb (g x) (nth i' ls' CNaN) then 1 else 0.
  Proof.
    intros ls ls' g k x i' N N' Hx Hi' K. destruct (In_nth _ _ CNaN Hx) as (i0 & L0 & E0).
    rewrite (lsum_single _ i0); [|exact L0|].
    - rewrite E0, ceqb_refl. destruct (K i0 L0) as [A B]. rewrite E0 in B. destruct (Nat.eqb_spec (k i0) i') as [<-|Q]; [rewrite B, ceqb_refl; reflexivity|].
      rewrite ceqb_false; [reflexivity|]. intros F. apply Q. apply (proj1 (NoDup_nth ls' CNaN) N'); [exact A|exact Hi'|congruence].
    - intros i Hi Q. rewrite ceqb_false; [destruct (Nat.eqb _ _); reflexivity|]. intros F. apply Q. apply (proj1 (NoDup_nth ls CNaN) N); [exact Hi|exact L0|congruence].
  Qed.
  Lemma recode_merge : mat_eq (hmat h') (merge rowmap colmap (length (h_rows h')) (length (h_cols h')) (hmat h)).
  Proof.
    split; [reflexivity|]. split; [reflexivity|]. intros i' j' Hi Hj. cbn [nr nc hmat] in Hi, Hj. unfold merge. cbn [el nr nc hmat].
    change (nth j' (nth i' (h_cnt h') []) 0%nat) with (entry h' i' j'). unfold h' at 1. rewrite crosstab_entry by assumption. fold h'. unfold recode at 1. rewrite count_if_map, count_lsum. 
    transitivity (lsum (fun i => lsum (fun j => lsum (fun r => if complete r then (if Nat.eqb (rowmap i) i' then if ceqb (fst r) (nth i (h_rows h) CNaN) then 1 else 0 else 0) * (if Nat.eqb (colmap j) j' then if ceqb (snd r) (nth j (h_cols h) CNaN) then 1 else 0 else 0) else 0) recs) (seq 0 (length (h_cols h)))) (seq 0 (length (h_rows h)))).
    - rewrite (lsum_ext _ _ (fun i => lsum (fun r => lsum (fun j => if complete r then (if Nat.eqb (rowmap i) i' then if ceqb (fst r) (nth i (h_rows h) CNaN) then 1 else 0 else 0) * (if Nat.eqb (colmap j) j' then if ceqb (snd r) (nth j (h_cols h) CNaN) then 1 else 0 else 0) else 0) (seq 0 (length (h_cols h)))) recs) (seq 0 (length (h_rows h)))) by (intros i _; apply lsum_swap).
      rewrite lsum_swap. apply lsum_ext. intros r Hr. rewrite recode_complete. destruct (complete r) eqn:C; cbn [andb]; [|symmetry; apply lsum_0; intros i _; apply lsum_0; reflexivity].
      rewrite (lsum_ext _ _ (fun i => (if Nat.eqb (rowmap i) i' then if ceqb (fst r) (nth i (h_rows h) CNaN) then 1 else 0 else 0) * (if ceqb (q (snd r)) (nth j' (h_cols h') CNaN) then 1 else 0))).
      + rewrite lsum_scal_r. rewrite (index_sum (h_rows h) (h_rows h') p rowmap (fst r) i').
        * unfold paireqb. cbn [fst snd]. destruct (ceqb (p (fst r)) _), (ceqb (q (snd r)) _); cbn [andb]; ring.
        * apply ssorted_NoDup, dsort_sorted.
        * apply ssorted_NoDup, dsort_sorted.
        * apply in_rows. eauto.
        * exact Hi.
        * exact rowmap_spec.
      + intros i _. rewrite lsum_scal. f_equal. apply (index_sum (h_cols h) (h_cols h') q colmap (snd r) j').
        * apply ssorted_NoDup, dsort_sorted.
        * apply ssorted_NoDup, dsort_sorted.
        * apply in_cols. eauto.
        * exact Hj.
        * exact colmap_spec.
    - apply lsum_ext. intros i Ii. apply in_seq in Ii. apply lsum_ext. intros j Ij. apply in_seq in Ij. change (nth j (nth i (h_cnt h) []) 0%nat) with (entry h i j). unfold h at 3. rewrite crosstab_entry by (fold h; lia). fold h. rewrite count_lsum.
      destruct (Nat.eqb (rowmap i) i'); [|apply lsum_0; intros r _; destruct (complete r); ring]. destruct (Nat.eqb (colmap j) j'); [|apply lsum_0; intros r _; destruct (complete r); ring].
      apply lsum_ext. intros r _. unfold paireqb. destruct (complete r), (ceqb (fst r) _), (ceqb (snd r) _); cbn [andb]; ring.
  Qed.
  Lemma recode_into : merges_into rowmap colmap (length (h_rows h')) (length (h_cols h')) (hmat h).
  Proof. split; [intros i Hi; apply (rowmap_spec i Hi)|intros j Hj; apply (colmap_spec j Hj)]. Qed.
End Recode.

Theorem C95_recode : forall p q recs l v, recoding p -> recoding q -> get_chi2 true (hmat (crosstab recs)) l = Ok v ->
  exists v', get_chi2 true (hmat (crosstab (recode p q recs))) l = Ok v' /\ v' <= v.
Proof.
  intros p q recs l v HP HQ E. destruct (records_dec (hmat (crosstab recs))) as [HR|HR]; [|rewrite get_chi2_empty in E by exact HR; discriminate E].
  destruct (C95_merge _ _ _ _ _ l (recode_into p q recs HP HQ) (hmat_nonneg _) HR) as (w & v' & E1 & E2 & L).
  exists v'. rewrite (get_chi2_eq _ _ _ _ (recode_merge p q recs HP HQ)). split; [exact E2|]. assert (w = v) by congruence. subst w. exact L.
Qed.
(** no complete record: both calls fail in the same way *)
Theorem C95_recode_fails : forall p q recs l e, recoding p -> recoding q -> get_chi2 true (hmat (crosstab recs)) l = Raise e ->
  get_chi2 true (hmat (crosstab (recode p q recs))) l = Raise e.
Proof.
  intros p q recs l e HP HQ E. destruct (records_dec (hmat (crosstab recs))) as [HR|HR]; [rewrite get_chi2_closed in E by (try assumption; apply hmat_nonneg); discriminate E|].
  rewrite get_chi2_empty in E by exact HR. injection E as <-. apply get_chi2_empty. intros HR'. apply HR. clear HR.
  destruct HR' as (i & j & Hi & Hj & N). cbn [nr hmat] in Hi. assert (I : In (nth i (h_rows (crosstab (recode p q recs))) CNaN) (h_rows (crosstab (recode p q recs)))) by (apply nth_In; exact Hi).
  apply in_rows in I. destruct I as (r' & Hr & C & _). apply in_map_iff in Hr. destruct Hr as (r & <- & Hr). rewrite recode_complete in C by assumption.
  apply (hmat_records _ _ _ (crosstab_table recs)). assert (I : In (fst r) (h_rows (crosstab recs))) by (apply in_rows; eauto). cbn [nr hmat]. destruct (h_rows (crosstab recs)); [contradiction|cbn; lia].
Qed.

(** ** merging can raise phik: six categories, of which each pair behaves the same, against three *)
Definition t95 : mat := tab [[4;2;2];[4;2;2];[2;4;2];[2;4;2];[2;2;4];[2;2;4]]%Z 3.
Definition m95 : mat := tab [[8;4;4];[4;8;4];[4;4;8]]%Z 3.
Definition half95 (i : nat) : nat := Nat.div2 i.
Ltac cells6 i j := do 6 (destruct i as [|i]; [do 4 (destruct j as [|j]; [first [lia | unfold lsum; simpl; lra | reflexivity]|]); lia|]); lia.
Lemma m95_eq : mat_eq (merge half95 (fun j => j) 3 3 t95) m95.
Proof.
  split; [reflexivity|]. split; [reflexivity|]. intros i j Hi Hj. unfold merge in *. cbn [nr nc] in Hi, Hj. unfold t95, m95, tab. cells6 i j.
Qed.
Lemma m95_into : merges_into half95 (fun j => j) 3 3 t95.
Proof. split; [|auto]. intros i Hi. unfold t95 in Hi. cbn [nr tab length] in Hi. unfold half95. do 6 (destruct i as [|i]; [cbn; lia|]). lia. Qed.
Lemma t95_facts : nonneg_table t95 /\ has_records t95 /\ nz_rows t95 = [0;1;2;3;4;5]%nat /\ nz_cols t95 = [0;1;2]%nat /\ matsum t95 = 48.
Proof.
  split; [|split; [|split; [|split]]].
  - intros i j Hi Hj. unfold t95 in *. cbn [nr nc el tab length] in *. cells6 i j.
  - exists 0%nat, 0%nat. unfold t95. simpl. repeat split; try lia. lra.
  - unfold nz_rows, t95, reqb, tab. cbn. repeat (destruct (Req_EM_T _ _); try lra; cbn). reflexivity.
  - unfold nz_cols, t95, reqb, tab. cbn. repeat (destruct (Req_EM_T _ _); try lra; cbn). reflexivity.
  - unfold t95, tab, matsum, rowsum, lsum. simpl. lra.
Qed.
Lemma m95_facts : nonneg_table m95 /\ has_records m95 /\ nz_rows m95 = [0;1;2]%nat /\ nz_cols m95 = [0;1;2]%nat /\ matsum m95 = 48.
Proof.
  split; [|split; [|split; [|split]]].
  - intros i j Hi Hj. unfold m95 in *. cbn [nr nc el tab length] in *. cells6 i j.
  - exists 0%nat, 0%nat. unfold m95. simpl. repeat split; try lia. lra.
  - unfold nz_rows, m95, reqb, tab. cbn. repeat (destruct (Req_EM_T _ _); try lra; cbn). reflexivity.
  - unfold nz_cols, m95, reqb, tab. cbn. repeat (destruct (Req_EM_T _ _); try lra; cbn). reflexivity.
  - unfold m95, tab, matsum, rowsum, lsum. simpl. lra.
Qed.
Lemma t95_chi2 : forall clamp, get_chi2 clamp t95 Pearson = Ok 6.
Proof.
  intros clamp. destruct t95_facts as (HN & HR & RN & CN & MS). rewrite (C14_chi2_value clamp t95 Pearson (nz_rows t95) (nz_cols t95) HN HR (enum_rows_nz _) (enum_cols_nz _)); [|right; rewrite CN; cbn; lia].
  rewrite RN, CN, MS. cbn [length Nat.leb orb]. f_equal. unfold t95, tab, rowsum, colsum, lsum. simpl. lra.
Qed.
Lemma m95_chi2 : forall clamp, get_chi2 clamp m95 Pearson = Ok 6.
Proof.
  intros clamp. destruct m95_facts as (HN & HR & RN & CN & MS). rewrite (C14_chi2_value clamp m95 Pearson (nz_rows m95) (nz_cols m95) HN HR (enum_rows_nz _) (enum_cols_nz _)); [|right; rewrite CN; cbn; lia].
  rewrite RN, CN, MS. cbn [length Nat.leb orb]. f_equal. unfold m95, tab, rowsum, colsum, lsum. simpl. lra.
Qed.
Lemma t95_ndof : estimate_simple_ndof t95 = 10%Z.
Proof. destruct t95_facts as (HN & HR & RN & CN & MS). rewrite simple_ndof_form by assumption. rewrite RN, CN. reflexivity. Qed.
Lemma m95_ndof : estimate_simple_ndof m95 = 4%Z.
Proof. destruct m95_facts as (HN & HR & RN & CN & MS). rewrite simple_ndof_form by assumption. rewrite RN, CN. reflexivity. Qed.
Theorem C95_phik_can_rise : forall clamp bq, root_finder_ok bq -> let L := mkLib clamp bvn_prob bq in
  merges_into half95 (fun j => j) 3 3 t95 /\ phik_from_hist2d L t95 true = Ok 0 /\
  (forall v, phik_from_hist2d L (merge half95 (fun j => j) 3 3 t95) true = Ok v -> 1 / 1000 <= v <= 1) /\
  (root_finder_converges bq -> exists v, phik_from_hist2d L (merge half95 (fun j => j) 3 3 t95) true = Ok v).
Proof.
  intros clamp bq RF L. split; [exact m95_into|]. assert (LO : lib_ok L) by (split; [apply bvn_mvn_ok|exact RF]).
  destruct m95_facts as (HN & HR & RN & CN & MS). destruct t95_facts as (HN' & HR' & _ & _ & MS').
  assert (PS : proper_shape m95) by (split; cbn; lia). assert (PS' : proper_shape t95) by (split; cbn; lia).
  rewrite (hist2d_eq L _ _ true m95_eq). split; [|split].
  - destruct (C26_value L t95 true LO HN' HR' PS') as (chi2 & E & V). cbn zeta in V. destruct V as (V & _). rewrite t95_chi2 in E. injection E as <-. rewrite t95_ndof in V. rewrite V by lra. reflexivity.
  - intros q Q. destruct (hist2d_unit L m95 LO HN HR PS true) as [(v & Ev & Bv)|[Ev _]]; [|congruence]. assert (v = q) by congruence. subst v. split; [|lra].
    destruct (C26_value L m95 true LO HN HR PS) as (chi2 & E & V). cbn zeta in V. destruct V as (_ & _ & V). rewrite m95_chi2 in E. injection E as <-. rewrite m95_ndof, MS in V.
    change (Z.min (Z.of_nat (nr m95)) (Z.of_nat (nc m95))) with 3%Z in V. change (nr m95) with 3%nat in V. change (nc m95) with 3%nat in V.
    destruct (V ltac:(lra) ltac:(lra) (square_regular 3 ltac:(lia)) q Q) as (rho & R1 & R2 & R3 & _). cbn [l_mvn L] in R2.
    pose proof (C22_value bvn_prob rho 48 0 (Z.of_nat 3) (Z.of_nat 3) 4 bvn_mvn_ok ltac:(lra) ltac:(lia) ltac:(lia)) as W. cbn zeta in W. rewrite R2 in W. injection W as W.
    change (Z.min 2 2) with 2%Z in W. change (Pos.to_nat 3) with 3%nat in W.
    pose proof (C81_full_correlation 3 ltac:(lia)) as G1. simpl INR in G1. pose proof (pow2_ge_0 (1 - normal_mass (-5) 5)) as SQ.
    set (g1 := binned_chi2 _ _ _ 1) in *. assert (G2 : 2 <= g1) by lra. set (g := binned_chi2 _ _ _ rho) in *.
    assert (GV : g = g1 / 46). { assert (T : g / g1 = 1 / 46) by lra. apply Rmult_eq_reg_r with (/ g1); [|apply Rinv_neq_0_compat; lra]. unfold Rdiv in *. rewrite T. field. lra. }
    destruct (Rle_dec rho (1 / 2)) as [S|S].
    + pose proof (weak_chi2 rho ltac:(lra)) as U. fold g in U. assert (11 / 10000 <= rho) by nra. apply Rabs_le_between in R3. lra.
    + apply Rabs_le_between in R3. lra.
  - intros CV. destruct (hist2d_unit L m95 LO HN HR PS true) as [(v & Ev & _)|[_ N]]; [rewrite Ev; eexists; reflexivity|]. exfalso. apply N. exact CV.
Qed.

(** ** scipy before 1.7 (Yates' correction not limited): merging can raise the chi2 *)
Definition u95 : mat := tab [[6;8];[2;3];[2;3]]%Z 2.
Definition w95 : mat := tab [[6;8];[4;6]]%Z 2.
Definition one95 (i : nat) : nat := Nat.min i 1.
Lemma w95_eq : mat_eq (merge one95 (fun j => j) 2 2 u95) w95.
Proof.
  split; [reflexivity|]. split; [reflexivity|]. intros i j Hi Hj. unfold merge in *. cbn [nr nc] in Hi, Hj. unfold u95, w95, tab. cells6 i j.
Qed.
Lemma u95_into : merges_into one95 (fun j => j) 2 2 u95.
Proof. split; [|auto]. intros i _. unfold one95. lia. Qed.
Lemma u95_facts : nonneg_table u95 /\ has_records u95 /\ nz_rows u95 = [0;1;2]%nat /\ nz_cols u95 = [0;1]%nat /\ matsum u95 = 24.
Proof.
  split; [|split; [|split; [|split]]].
  - intros i j Hi Hj. unfold u95 in *. cbn [nr nc el tab length] in *. cells6 i j.
  - exists 0%nat, 0%nat. unfold u95. simpl. repeat split; try lia. lra.
  - unfold nz_rows, u95, reqb, tab. cbn. repeat (destruct (Req_EM_T _ _); try lra; cbn). reflexivity.
  - unfold nz_cols, u95, reqb, tab. cbn. repeat (destruct (Req_EM_T _ _); try lra; cbn). reflexivity.
  - unfold u95, tab, matsum, rowsum, lsum. simpl. lra.
Qed.
Lemma w95_facts : nonneg_table w95 /\ has_records w95 /\ nz_rows w95 = [0;1]%nat /\ nz_cols w95 = [0;1]%nat /\ matsum w95 = 24.
Proof.
  split; [|split; [|split; [|split]]].
  - intros i j Hi Hj. unfold w95 in *. cbn [nr nc el tab length] in *. cells6 i j.
  - exists 0%nat, 0%nat. unfold w95. simpl. repeat split; try lia. lra.
  - unfold nz_rows, w95, reqb, tab. cbn. repeat (destruct (Req_EM_T _ _); try lra; cbn). reflexivity.
  - unfold nz_cols, w95, reqb, tab. cbn. repeat (destruct (Req_EM_T _ _); try lra; cbn). reflexivity.
  - unfold w95, tab, matsum, rowsum, lsum. simpl. lra.
Qed.
Theorem C95_old_scipy_refuted : merges_into one95 (fun j => j) 2 2 u95 /\ nonneg_table u95 /\ has_records u95 /\ integer_table u95 /\
  exists v v', get_chi2 false u95 Pearson = Ok v /\ get_chi2 false (merge one95 (fun j => j) 2 2 u95) Pearson = Ok v' /\ v < v'.
Proof.
  destruct u95_facts as (HN & HR & RN & CN & MS). destruct w95_facts as (HN' & HR' & RN' & CN' & MS').
  split; [exact u95_into|]. split; [exact HN|]. split; [exact HR|]. split.
  { intros i j Hi Hj. unfold u95, tab in *. cbn [nr nc el length] in *. exists (Z.to_nat (nth j (nth i [[6; 8]; [2; 3]; [2; 3]]%Z []) 0%Z)). rewrite INR_IZR_INZ. do 3 (destruct i as [|i]; [do 2 (destruct j as [|j]; [reflexivity|]); lia|]). lia. }
  eexists. eexists. rewrite (C14_chi2_value false u95 Pearson (nz_rows u95) (nz_cols u95) HN HR (enum_rows_nz _) (enum_cols_nz _)); [|left; rewrite RN; cbn; lia].
  split; [reflexivity|]. rewrite (get_chi2_eq _ _ _ _ w95_eq), get_chi2_closed by assumption. split; [reflexivity|].
  rewrite RN, CN, MS, RN', CN'. unfold stat, stat_term, expected. rewrite MS'. cbn [length Nat.leb Nat.sub Nat.mul Nat.eqb orb pd_term]. unfold yates, rsign.
  unfold u95, w95, tab, rowsum, colsum, lsum. simpl. repeat (destruct (Rlt_dec _ _); try lra).
Qed.

(** ** examples: the hypotheses are met *)
Open Scope string_scope.
Definition recs95 : list (cell * cell) := [(CStr "car", CInt 1); (CStr "van", CInt 2); (CStr "bus", CInt 2); (CNaN, CInt 3); (CStr "car", CInt 3)].
Definition p95 (c : cell) : cell := match c with CStr "bus" => CStr "van" | _ => c end.
Lemma p95_recoding : recoding p95.
Proof.
  intros v. unfold p95. split; [|intros ->; reflexivity]. destruct v as [|z|k|s]; try tauto; try discriminate. intros H. exfalso.
  destruct (string_dec s "bus") as [->|N]; [discriminate H|]. revert H. repeat (destruct s as [|[[] [] [] [] [] [] [] []] s]; try discriminate).
Qed.
Close Scope string_scope.
Example C95_recode_met : recoding p95 /\ recoding (fun c => c) /\ (exists v, get_chi2 true (hmat (crosstab recs95)) Pearson = Ok v) /\
  h_rows (crosstab (recode p95 (fun c => c) recs95)) = [CStr "car"; CStr "van"].
Proof.
  split; [exact p95_recoding|]. split; [intros v; tauto|]. split; [|reflexivity]. eexists. apply get_chi2_closed; [apply hmat_nonneg|]. apply (hmat_records _ _ _ (crosstab_table recs95)). vm_compute. lia.
Qed.
Example C95_merge_met : merges_into half95 (fun j => j) 3 3 t95 /\ nonneg_table t95 /\ has_records t95.
Proof. split; [exact m95_into|]. destruct t95_facts as (A & B & _). auto. Qed.
Example C95_root_finder : root_finder_ok bisection /\ root_finder_converges bisection. Proof. exact bisection_ok. Qed.
Print Assumptions C95_recode.
Print Assumptions C95_phik_can_rise.
Print Assumptions C95_old_scipy_refuted.
