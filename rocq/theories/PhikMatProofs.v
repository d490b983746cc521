From Coq Require Import String ZArith List Bool Reals Lra Lia Sorting.Permutation Sorting.Sorted.
Import ListNotations.
From Verif Require Import F64 Base Cells BinModel HistModel SpecHist HistProofs RSum StatsModel SpecStats StatsProofs StatsProofs2 SpecSolver SpecBiv BivModel Num PhikModel SpecPhik PhikProofs OverviewProofs PairMatProofs.
Open Scope list_scope.

(** * phik depends only on the entries of the table *)
Lemma mat_eq_sym : forall m m', mat_eq m m' -> mat_eq m' m.
Proof. intros m m' (A & B & C). split; [auto|]. split; [auto|]. intros i j Hi Hj. symmetry. apply C; lia. Qed.
Lemma forallb_ext_in : forall A (f g : A -> bool) l, (forall a, In a l -> f a = g a) -> forallb f l = forallb g l.
Proof. induction l as [|a l IH]; intros H; [reflexivity|]. simpl. rewrite H by (left; reflexivity). rewrite IH by (intros; apply H; right; assumption). reflexivity. Qed.
Lemma nz_rows_eq : forall m m', mat_eq m m' -> nz_rows m = nz_rows m'.
Proof.
  intros m m' (A & B & C). unfold nz_rows. rewrite <- A, <- B. apply filter_ext_in. intros i Hi. apply in_idx in Hi. f_equal.
  apply forallb_ext_in. intros j Hj. apply in_idx in Hj. rewrite C by assumption. reflexivity.
Qed.
Lemma transp_eq : forall m m', mat_eq m m' -> mat_eq (transp m) (transp m').
Proof. intros m m' (A & B & C). split; [exact B|]. split; [exact A|]. intros i j Hi Hj. cbn in *. apply C; assumption. Qed.
Lemma nz_cols_eq : forall m m', mat_eq m m' -> nz_cols m = nz_cols m'.
Proof. intros m m' H. exact (nz_rows_eq _ _ (transp_eq _ _ H)). Qed.
Lemma get_chi2_eq : forall k m m' l, mat_eq m m' -> get_chi2 k m l = get_chi2 k m' l.
Proof.
  intros k m m' l H. rewrite !get_chi2_core. apply chi2_contingency_eq. unfold core. rewrite <- (nz_rows_eq _ _ H), <- (nz_cols_eq _ _ H).
  destruct H as (A & B & C). split; [reflexivity|]. split; [reflexivity|]. intros i j Hi Hj. cbn [nr nc el submat] in *. apply C.
  - assert (In (nth i (nz_rows m) 0%nat) (nz_rows m)) by (apply nth_In; exact Hi). apply in_nz_rows in H. tauto.
  - assert (In (nth j (nz_cols m) 0%nat) (nz_cols m)) by (apply nth_In; exact Hj). apply in_nz_cols in H. tauto.
Qed.
Lemma simple_ndof_eq : forall m m', mat_eq m m' -> estimate_simple_ndof m = estimate_simple_ndof m'.
Proof.
  intros m m' H. pose proof (matsum_eq _ _ H) as S. pose proof (expected_eq m m') as X. assert (H0 := H). destruct H as (A & B & C). unfold estimate_simple_ndof.
  assert (E : zero_expected m = zero_expected m'); [|rewrite E, A, B; reflexivity].
  unfold zero_expected. rewrite S, <- A, <- B. destruct (Req_EM_T _ _); [reflexivity|]. f_equal. apply filter_ext_in. intros [i j] Hin. apply in_prod_iff in Hin. rewrite !in_idx in Hin. cbn [fst snd]. rewrite X by tauto. reflexivity.
Qed.
Lemma hist2d_eq : forall L m m' b, mat_eq m m' -> phik_from_hist2d L m b = phik_from_hist2d L m' b.
Proof.
  intros L m m' b H. unfold phik_from_hist2d. rewrite (get_chi2_eq _ _ _ _ H), (simple_ndof_eq _ _ H), (matsum_eq _ _ H). destruct H as (A & B & _). rewrite A, B. reflexivity.
Qed.

(** * contingency tables as matrices *)
Lemma hmat_nonneg : forall h, nonneg_table (hmat h).
Proof. intros h i j _ _. apply pos_INR. Qed.
Lemma hmat_records : forall seen recs h, is_table_of seen recs h -> (1 <= nr (hmat h))%nat -> has_records (hmat h).
Proof.
  intros seen recs h (_ & _ & _ & _ & _ & _ & _ & A8 & _) H. destruct (A8 0%nat) as (j & Hj & E); [exact H|]. exists 0%nat, j. cbn. repeat split; [exact H|exact Hj|]. apply not_0_INR. unfold entry in E. lia.
Qed.
Lemma hmat_transp : forall h h', is_transpose h h' -> mat_eq (hmat h') (transp (hmat h)).
Proof.
  intros h h' (A & B & C). split; [cbn; rewrite A; reflexivity|]. split; [cbn; rewrite B; reflexivity|]. intros i j Hi Hj. cbn in *. rewrite A in Hi. rewrite B in Hj. unfold entry in C. rewrite C by assumption. reflexivity.
Qed.
Lemma is01_proper : forall h, is01 (length (h_rows h)) || is01 (length (h_cols h)) = true <-> ~ proper_shape (hmat h).
Proof.
  intros h. unfold is01, proper_shape. cbn [hmat nr nc]. destruct (Nat.eqb_spec (length (h_rows h)) 0), (Nat.eqb_spec (length (h_rows h)) 1), (Nat.eqb_spec (length (h_cols h)) 0), (Nat.eqb_spec (length (h_cols h)) 1); cbn; split; intros; try lia; try reflexivity; discriminate.
Qed.

(** * the value of one pair *)
Definition table_val (L : lib) (noise : bool) (h : htable) : res num :=
  if is01 (length (h_rows h)) || is01 (length (h_cols h)) then Ok NaN else rmap Fin (phik_from_hist2d L (hmat h) noise).
Definition pairval (L : lib) (noise : bool) (p q : string * col) : res num :=
  if String.eqb (fst p) (fst q) then Ok (Fin 1) else table_val L noise (crosstab (combine (c_cells (snd p)) (c_cells (snd q)))).
Lemma calc_phik_row : forall L noise pq, calc_phik L noise (fst pq) (snd pq) = pair_row _ (pairval L noise) pq.
Proof.
  intros L noise [[c0 x] [c1 y]]. unfold calc_phik, pair_row, pairval, table_val. cbn [fst snd]. destruct (String.eqb c0 c1); [reflexivity|]. destruct (_ || _); [reflexivity|]. destruct (phik_from_hist2d _ _ _); reflexivity.
Qed.
Lemma table_val_transp : forall L noise h h', lib_ok L -> (exists seen recs, is_table_of seen recs h) -> is_transpose h h' -> table_val L noise h' = table_val L noise h.
Proof.
  intros L noise h h' LO (seen & recs & HT) T. unfold table_val. assert (T0 := T). destruct T as (A & B & C). rewrite A, B, orb_comm. destruct (is01 (length (h_rows h)) || is01 (length (h_cols h))) eqn:E; [reflexivity|].
  f_equal. rewrite (hist2d_eq _ _ _ _ (hmat_transp _ _ T0)). assert (PS : proper_shape (hmat h)).
  { destruct (le_dec 2 (nr (hmat h))), (le_dec 2 (nc (hmat h))); try (split; assumption); exfalso; assert (X : ~ proper_shape (hmat h)) by (intros [? ?]; contradiction); apply is01_proper in X; congruence. }
  apply hist2d_transp; [exact LO|apply hmat_nonneg| |exact PS]. eapply hmat_records; [exact HT|]. destruct PS; lia.
Qed.
Lemma crosstab_is_table : forall recs, exists seen r, is_table_of seen r (crosstab recs).
Proof. intros recs. exists seen0, recs. apply crosstab_table. Qed.
Lemma pairval_sym : forall L noise p q, lib_ok L -> pairval L noise p q = pairval L noise q p.
Proof.
  intros L noise [c0 x] [c1 y] LO. unfold pairval. cbn [fst snd]. rewrite String.eqb_sym. destruct (String.eqb c1 c0); [reflexivity|].
  symmetry. apply table_val_transp; [exact LO|apply crosstab_is_table|]. rewrite (combine_swap _ _ (c_cells x) (c_cells y)). apply crosstab_swap.
Qed.

Lemma keys_clean : forall d u o f, keys (clean d u o f) = keys f.
Proof. intros. unfold clean, keys. rewrite map_map. reflexivity. Qed.
Lemma in_clean : forall d u o f c x, In (c, x) f -> In (c, mkCol (c_num x) (map (clean1 d u o) (c_cells x))) (clean d u o f).
Proof. intros d u o f c x H. unfold clean. apply in_map_iff. exists (c, x). auto. Qed.
Lemma clean_table : forall d u o x y, is_table_of (counted_as d u o) (combine x y) (crosstab (combine (map (clean1 d u o) x) (map (clean1 d u o) y))).
Proof.
  intros d u o x y. rewrite clean_combine. apply (is_table_ext (fun c => seen0 (clean1 d u o c))); [intros c; apply seen_clean|]. apply is_table_map. apply crosstab_table.
Qed.

Lemma rebinned_unfold : forall L f noise d u o,
  fst (phik_from_rebinned_df L f noise d u o) = rmap (fun vals => match vals with [] => mkT (keys f) (keys f) (map (fun _ => map (fun _ => NaN) (keys f)) (keys f)) | _ => reindex (overview vals) (keys f) end)
    (mapM (pair_row _ (pairval L noise)) (combos (clean d u o f))).
Proof.
  intros. unfold phik_from_rebinned_df. cbn zeta. cbn [fst]. rewrite keys_clean.
  rewrite (mapM_ext _ _ _ (pair_row _ (pairval L noise))) by (intros pq _; apply calc_phik_row). destruct (mapM _ _); reflexivity.
Qed.
(** for a frame with at least one column the list of pairs is not empty *)
Lemma rebinned_unfold2 : forall L f noise d u o,
  fst (phik_from_rebinned_df L f noise d u o) = rmap (fun vals => reindex (overview vals) (keys f)) (mapM (pair_row _ (pairval L noise)) (combos (clean d u o f))).
Proof.
  intros. rewrite rebinned_unfold. destruct (mapM _ _) as [vals|e] eqn:E; [|reflexivity]. cbn [rmap]. destruct vals as [|v vals]; [|reflexivity].
  apply Base.mapM_ok in E. inversion E as [X Y|]. symmetry in X. apply combos_nil in X. assert (K : keys f = []) by (rewrite <- (keys_clean d u o), X; reflexivity). rewrite K. reflexivity.
Qed.

Theorem phik_matrix_layout : forall L f noise d u o, lib_ok L -> NoDup (keys f) ->
  match fst (phik_from_rebinned_df L f noise d u o) with
  | Ok t => t_index t = keys f /\ t_columns t = keys f /\ well_formed t /\ (forall a b, tval t a b = tval t b a) /\
     (forall a, In a (keys f) -> tval t a a = Fin 1) /\
     (forall c0 x c1 y h, In (c0, x) f -> In (c1, y) f -> c0 <> c1 -> is_table_of (counted_as d u o) (combine (c_cells x) (c_cells y)) h ->
        (~ proper_shape (hmat h) /\ tval t c0 c1 = NaN) \/
        (proper_shape (hmat h) /\ exists v, phik_from_hist2d L (hmat h) noise = Ok v /\ tval t c0 c1 = Fin v /\ (0 <= v <= 1)%R))
  | Raise e => e = RuntimeError /\ ~ lib_converges L
  end.
Proof.
  intros L f noise d u o LO N. rewrite rebinned_unfold2. assert (N' : NoDup (keys (clean d u o f))) by (rewrite keys_clean; exact N).
  destruct (mapM _ _) as [vals|e] eqn:E; cbn [rmap].
  - split; [reflexivity|]. split; [reflexivity|]. split; [apply reindex_wf|]. pose proof (assembled _ _ _ N' _ E) as AS. rewrite keys_clean in AS. split; [|split].
    + rewrite <- (keys_clean d u o). apply assembled_sym.
    + intros a Ha. rewrite <- (keys_clean d u o) in Ha. apply in_map_iff in Ha. destruct Ha as (p & <- & Hp).
      assert (HC : In (p, p) (combos (clean d u o f))) by (destruct (combos_total _ _ p p Hp Hp); assumption).
      destruct (AS p p HC) as (v & V & T & _). rewrite T. unfold pairval in V. rewrite String.eqb_refl in V. congruence.
    + intros c0 x c1 y h Hx Hy Hne HT.
      pose proof (in_clean d u o _ _ _ Hx) as Hp. pose proof (in_clean d u o _ _ _ Hy) as Hq. set (p := (c0, _)) in Hp. set (q := (c1, _)) in Hq.
      assert (TV : exists v, pairval L noise p q = Ok v /\ tval (reindex (overview vals) (keys f)) c0 c1 = v).
      { destruct (combos_total _ _ p q Hp Hq) as [HC|HC]; destruct (AS _ _ HC) as (v & V & T1 & T2); exists v; [auto|]. rewrite pairval_sym by exact LO. auto. }
      destruct TV as (v & V & T). unfold pairval in V. cbn [fst snd p q c_cells] in V. rewrite (proj2 (String.eqb_neq _ _) Hne) in V.
      rewrite (is_table_unique _ _ _ _ HT (clean_table d u o _ _)). pose proof (clean_table d u o (c_cells x) (c_cells y)) as HT2. set (h2 := crosstab _) in *.
      unfold table_val in V. destruct (is01 (length (h_rows h2)) || is01 (length (h_cols h2))) eqn:B.
      * left. split; [apply is01_proper; exact B|]. congruence.
      * right. assert (PS : proper_shape (hmat h2)).
        { destruct (le_dec 2 (nr (hmat h2))), (le_dec 2 (nc (hmat h2))); try (split; assumption); exfalso; assert (X : ~ proper_shape (hmat h2)) by (intros [? ?]; contradiction); apply is01_proper in X; congruence. }
        split; [exact PS|]. destruct (hist2d_unit L (hmat h2) LO (hmat_nonneg h2)) with (b := noise) as [(w & W & R)|(W & _)]; [eapply hmat_records; [exact HT2|destruct PS; lia]|exact PS| |].
        -- exists w. rewrite W in V. cbn [rmap] in V. split; [exact W|]. split; [congruence|exact R].
        -- rewrite W in V. discriminate.
  - apply mapM_raise in E. destruct E as ([p q] & H & E). unfold pair_row in E. cbn [fst snd] in E. unfold pairval in E. destruct (String.eqb _ _); [discriminate|].
    pose proof (crosstab_table (combine (c_cells (snd p)) (c_cells (snd q)))) as HT2. set (h2 := crosstab _) in *. unfold table_val in E. destruct (is01 (length (h_rows h2)) || is01 (length (h_cols h2))) eqn:B; [discriminate|].
    assert (PS : proper_shape (hmat h2)).
    { destruct (le_dec 2 (nr (hmat h2))), (le_dec 2 (nc (hmat h2))); try (split; assumption); exfalso; assert (X : ~ proper_shape (hmat h2)) by (intros [? ?]; contradiction); apply is01_proper in X; congruence. }
    destruct (hist2d_unit L (hmat h2) LO (hmat_nonneg h2)) with (b := noise) as [(w & W & R)|(W & NC)]; [eapply hmat_records; [exact HT2|destruct PS; lia]|exact PS| |]; rewrite W in E; [discriminate|]. cbn in E. split; [congruence|exact NC].
Qed.
