(** C34: record order and category names do not influence the matrix. *)
From Coq Require Import String ZArith List Bool Reals Lra Lia Sorting.Permutation Sorting.Sorted.
Import ListNotations.
From Verif Require Import F64 Base Cells BinModel SpecBin BinProofs BinDataProofs HistModel SpecHist HistProofs RSum StatsModel SpecStats StatsProofs StatsProofs2 SpecSolver SpecBiv BivModel Num PhikModel SpecPhik PhikProofs OverviewProofs PairMatProofs PhikMatProofs FrameProofs.
Open Scope list_scope.

(** a transformation of the columns that keeps names and pair values keeps the matrix *)
Lemma rebinned_transform : forall L noise d u o f (T : string -> col -> col),
  (forall p q, In p f -> In q f -> pairval L noise (fst p, mkCol (c_num (T (fst p) (snd p))) (map (clean1 d u o) (c_cells (T (fst p) (snd p))))) (fst q, mkCol (c_num (T (fst q) (snd q))) (map (clean1 d u o) (c_cells (T (fst q) (snd q))))) =
     pairval L noise (fst p, mkCol (c_num (snd p)) (map (clean1 d u o) (c_cells (snd p)))) (fst q, mkCol (c_num (snd q)) (map (clean1 d u o) (c_cells (snd q))))) ->
  fst (phik_from_rebinned_df L (map (fun p => (fst p, T (fst p) (snd p))) f) noise d u o) = fst (phik_from_rebinned_df L f noise d u o).
Proof.
  intros L noise d u o f T H. rewrite !rebinned_unfold2. replace (keys (map (fun p => (fst p, T (fst p) (snd p))) f)) with (keys f) by (unfold keys; rewrite map_map; reflexivity).
  f_equal. unfold clean. rewrite map_map. rewrite !combos_map, !mapM_map_in. apply mapM_ext. intros [p q] Hpq. apply combos_In in Hpq. cbn [fst snd]. unfold pair_row. cbn [fst snd]. rewrite H by tauto. reflexivity.
Qed.

Lemma nodup_keys_filter : forall B (p : string * B -> bool) f, NoDup (keys f) -> NoDup (keys (filter p f)).
Proof.
  intros B p f N. unfold keys in *. induction f as [|a f IH]; [constructor|]. inversion N as [|? ? N1 N2]; subst. cbn [filter]. destruct (p a); [cbn [map]; constructor; [|apply IH; exact N2]|apply IH; exact N2].
  intros H. apply N1. apply in_map_iff in H. destruct H as (q & E & Hp). apply filter_In in Hp. apply in_map_iff. exists q. tauto.
Qed.

(** ** record order *)
Lemma rebinned_reorder : forall L noise d u o f n l, rectangular n f -> Permutation l (seq 0 n) ->
  fst (phik_from_rebinned_df L (reorder l f) noise d u o) = fst (phik_from_rebinned_df L f noise d u o).
Proof.
  intros L noise d u o f n l R P. rewrite reorder_map. apply (rebinned_transform L noise d u o f (fun _ => rcol l)).
  intros p q Hp Hq. unfold pairval. cbn [fst snd]. destruct (String.eqb _ _); [reflexivity|]. f_equal. cbn [rcol c_cells].
  apply crosstab_perm. rewrite <- !(pick_map_in _ _ (clean1 d u o) CNaN CNaN) by (intros i Hi; apply (in_l n l P) in Hi; rewrite (R _ Hp) || rewrite (R _ Hq); exact Hi).
  rewrite pick_combine by (rewrite !map_length, (R _ Hp), (R _ Hq); reflexivity). apply pick_perm. rewrite combine_length, !map_length, (R _ Hp), (R _ Hq), Nat.min_id. exact P.
Qed.
Theorem phik_matrix_reorder : forall npq L df ic bins q noise d u o n l, order_free npq -> rectangular n df -> Permutation l (seq 0 n) ->
  phik_matrix npq L (reorder l df) ic bins q noise d u o = phik_matrix npq L df ic bins q noise d u o.
Proof.
  intros npq L df ic bins q noise d u o n l OF R P. unfold phik_matrix. rewrite guess_reorder. set (ic0 := match ic with Some x => x | None => guess_interval_cols df end).
  rewrite (dq_reorder n l P) by exact R. destruct (dq_check_nunique_values df ic0 d) as [cdf ic'] eqn:E. cbn [fst snd].
  assert (R' : rectangular n cdf) by (pose proof (rect_dq n df ic0 d R) as X; rewrite E in X; exact X).
  rewrite (bin_data_reorder npq OF n l P) by exact R'. destruct (bin_data npq cdf ic' bins q) as [[b dict]|] eqn:E2; [|reflexivity]. cbn [rmap rbind fst snd].
  apply (rebinned_reorder _ _ _ _ _ _ n); [|exact P]. eapply bin_data_rect; eassumption.
Qed.

(** ** category names *)
Fixpoint posb {A} (p : A -> bool) (l : list A) : nat := match l with [] => 0%nat | a :: l' => if p a then 0%nat else S (posb p l') end.
Lemma posb_spec : forall A (p : A -> bool) l d, (exists a, In a l /\ p a = true) -> (posb p l < length l)%nat /\ p (nth (posb p l) l d) = true.
Proof.
  induction l as [|a l IH]; intros d (x & Hx & E); [contradiction|]. cbn [posb length]. destruct (p a) eqn:Q; [split; [lia|exact Q]|]. destruct Hx as [->|Hx]; [congruence|]. destruct (IH d) as [A1 A2]; [exists x; auto|]. split; [lia|exact A2].
Qed.

Section CrossRename.
  Variables (g : cell -> cell) (recs : list (cell * cell)).
  Hypothesis inj : forall r s, In r recs -> In s recs -> g (fst r) = g (fst s) -> fst r = fst s.
  Hypothesis nan : forall r, In r recs -> (g (fst r) = CNaN <-> fst r = CNaN).
  Let recs2 := map (fun r => (g (fst r), snd r)) recs.
  Let h1 := crosstab recs. Let h2 := crosstab recs2.
  Let I := map (fun b => posb (fun a => ceqb (g a) b) (h_rows h1)) (h_rows h2).

  Lemma complete2 : forall r, In r recs -> complete (g (fst r), snd r) = complete r.
  Proof. intros r H. apply eq_true_iff_eq. rewrite !complete_iff. cbn [fst snd]. rewrite (nan r H). tauto. Qed.
  Lemma rows2 : forall b, In b (h_rows h2) <-> exists a, In a (h_rows h1) /\ g a = b.
  Proof.
    intros b. unfold h2, h1, recs2. rewrite in_rows. split.
    - intros (r2 & H & C & <-). apply in_map_iff in H. destruct H as (r & <- & Hr). rewrite complete2 in C by exact Hr. cbn [fst]. exists (fst r). split; [|reflexivity]. apply in_rows. exists r. auto.
    - intros (a & Ha & <-). apply in_rows in Ha. destruct Ha as (r & Hr & C & <-). exists (g (fst r), snd r). rewrite complete2 by exact Hr. split; [apply in_map_iff; exists r; auto|]. auto.
  Qed.
  Lemma cols2 : h_cols h2 = h_cols h1.
  Proof.
    apply ssorted_ext; try apply dsort_sorted. intros b. unfold h2, h1, recs2. rewrite !in_cols. split.
    - intros (r2 & H & C & <-). apply in_map_iff in H. destruct H as (r & <- & Hr). rewrite complete2 in C by exact Hr. exists r. auto.
    - intros (r & Hr & C & <-). exists (g (fst r), snd r). rewrite complete2 by exact Hr. split; [apply in_map_iff; exists r; auto|]. auto.
  Qed.
  Lemma inj_rows : forall a b, In a (h_rows h1) -> In b (h_rows h1) -> g a = g b -> a = b.
  Proof. intros a b Ha Hb E. apply in_rows in Ha, Hb. destruct Ha as (r & Hr & _ & <-), Hb as (s & Hs & _ & <-). apply inj; assumption. Qed.
  Lemma rows1_nodup : NoDup (h_rows h1). Proof. apply ssorted_NoDup, dsort_sorted. Qed.
  Lemma rows2_nodup : NoDup (h_rows h2). Proof. apply ssorted_NoDup, dsort_sorted. Qed.
  Lemma I_spec : forall b, In b (h_rows h2) -> let i := posb (fun a => ceqb (g a) b) (h_rows h1) in (i < length (h_rows h1))%nat /\ g (nth i (h_rows h1) CNaN) = b.
  Proof.
    intros b H i. apply rows2 in H. destruct H as (a & Ha & E). destruct (posb_spec _ (fun a => ceqb (g a) b) (h_rows h1) CNaN) as [P1 P2]; [exists a; split; [exact Ha|apply ceqb_eq; exact E]|]. split; [exact P1|]. apply ceqb_eq. exact P2.
  Qed.
  Lemma rename_permutes : permutes (hmat h1) I (idx (nc (hmat h1))).
  Proof.
    split; [|split; [apply seq_NoDup|split]].
    - unfold I. pose proof rows2_nodup as N. assert (S : forall b, In b (h_rows h2) -> g (nth (posb (fun a => ceqb (g a) b) (h_rows h1)) (h_rows h1) CNaN) = b) by (intros b Hb; apply I_spec; exact Hb).
      induction N as [|b l Hb N IH]; cbn [map]; constructor.
      + intros H. apply in_map_iff in H. destruct H as (b' & E & Hb'). assert (b' = b); [|congruence]. rewrite <- (S b') by (right; exact Hb'). rewrite <- (S b) by (left; reflexivity). rewrite E. reflexivity.
      + apply IH. intros x Hx. apply S. right. exact Hx.
    - intros i. cbn [hmat nr]. unfold I. rewrite in_map_iff. split.
      + intros (b & <- & Hb). apply I_spec. exact Hb.
      + intros Hi. set (a := nth i (h_rows h1) CNaN). assert (Ha : In a (h_rows h1)) by (apply nth_In; exact Hi).
        assert (Hb : In (g a) (h_rows h2)) by (apply rows2; exists a; auto). exists (g a). split; [|exact Hb]. destruct (I_spec _ Hb) as [P1 P2].
        apply (proj1 (NoDup_nth (h_rows h1) CNaN) rows1_nodup); [exact P1|exact Hi|]. apply inj_rows; [apply nth_In; exact P1|exact Ha|exact P2].
    - intros j. cbn [hmat nc]. rewrite in_idx. tauto.
  Qed.
  Lemma rename_entries : mat_eq (hmat h2) (submat (hmat h1) I (idx (nc (hmat h1)))).
  Proof.
    split; [cbn; unfold I; rewrite map_length; reflexivity|]. split; [cbn [hmat nc submat]; rewrite idx_length, cols2; reflexivity|].
    intros i j Hi Hj. cbn [hmat nr nc el submat] in *. rewrite cols2 in Hj. rewrite nth_idx by exact Hj.
    assert (Hb : In (nth i (h_rows h2) CNaN) (h_rows h2)) by (apply nth_In; exact Hi). destruct (I_spec _ Hb) as [P1 P2].
    assert (EI : nth i I 0%nat = posb (fun a => ceqb (g a) (nth i (h_rows h2) CNaN)) (h_rows h1)).
    { unfold I. rewrite (nth_indep _ 0%nat (posb (fun a => ceqb (g a) CNaN) (h_rows h1))) by (rewrite map_length; exact Hi). rewrite (map_nth (fun b => posb (fun a => ceqb (g a) b) (h_rows h1))). reflexivity. }
    rewrite EI. set (k := posb _ _) in *. change (INR (entry h2 i j) = INR (entry h1 k j)). f_equal. unfold h2, h1 in *. rewrite !crosstab_entry; [|exact P1|exact Hj|exact Hi|fold h2; rewrite cols2; exact Hj].
    fold h2 h1. unfold recs2. rewrite count_if_map. apply count_if_ext. intros r Hr. rewrite complete2 by exact Hr. destruct (complete r) eqn:C; [|reflexivity]. cbn [andb]. unfold paireqb. cbn [fst snd]. rewrite cols2. f_equal.
    fold h1 in P1, P2. fold h2 in P2. rewrite <- P2. apply eq_true_iff_eq. rewrite !ceqb_eq. split; [|intros ->; reflexivity]. intros E. apply inj_rows; [apply in_rows; exists r; auto|apply nth_In; exact P1|exact E].
  Qed.
  Lemma rename_table_val : forall L noise, lib_ok L -> table_val L noise h2 = table_val L noise h1.
  Proof.
    intros L noise LO. unfold table_val. assert (LI : length (h_rows h2) = length (h_rows h1)) by (destruct (permutes_len _ _ _ rename_permutes) as [E _]; unfold I in E; rewrite map_length in E; exact E).
    rewrite cols2, LI. destruct (is01 (length (h_rows h1)) || is01 (length (h_cols h1))) eqn:B; [reflexivity|]. f_equal. rewrite (hist2d_eq _ _ _ _ rename_entries).
    assert (PS : proper_shape (hmat h1)).
    { destruct (le_dec 2 (nr (hmat h1))), (le_dec 2 (nc (hmat h1))); try (split; assumption); exfalso; assert (X : ~ proper_shape (hmat h1)) by (intros [? ?]; contradiction); apply is01_proper in X; congruence. }
    apply hist2d_perm2; [exact LO|apply hmat_nonneg| |exact PS|exact rename_permutes]. eapply hmat_records; [apply crosstab_table|destruct PS; cbn in *; lia].
  Qed.
End CrossRename.

Lemma marker_dec : forall v, {is_marker v} + {~ is_marker v}.
Proof.
  intros v. unfold is_marker. destruct (cell_eq_dec v CNaN); [left; tauto|]. destruct (cell_eq_dec v (CStr "UF")); [left; tauto|]. destruct (cell_eq_dec v (CStr "OF")); [left; tauto|]. destruct (cell_eq_dec v (CStr "NaN")); [left; tauto|right; tauto].
Qed.
Lemma clean_nonmarker : forall d u o v, ~ is_marker v -> clean1 d u o v = v.
Proof.
  intros d u o v H. assert (v <> CNaN /\ v <> CStr UFs /\ v <> CStr OFs) as (A & B & C) by (unfold is_marker in H; repeat split; intros ->; apply H; auto).
  assert (R : forall a b, v <> a -> repl a b v = v) by (intros a b N; rewrite repl_eq; destruct (cell_eq_dec v a); [contradiction|reflexivity]).
  unfold clean1. destruct d, u, o; rewrite ?(R CNaN), ?(R (CStr UFs)), ?(R (CStr OFs)) by assumption; reflexivity.
Qed.
Lemma clean_marker : forall d u o v, is_marker v -> is_marker (clean1 d u o v).
Proof.
  intros d u o v H. unfold clean1. assert (R : forall a b w, is_marker b -> is_marker w -> is_marker (repl a b w)) by (intros a b w Hb Hw; rewrite repl_eq; destruct (cell_eq_dec w a); assumption).
  assert (M0 : is_marker CNaN) by (left; reflexivity). assert (M1 : is_marker (CStr NaNs)) by (right; right; right; reflexivity). destruct d, u, o; repeat apply R; assumption.
Qed.
Definition gclean (g : cell -> cell) (v : cell) : cell := if marker_dec v then v else g v.
Lemma clean_rename : forall d u o g l, good_renaming g l -> map (clean1 d u o) (map g l) = map (gclean g) (map (clean1 d u o) l).
Proof.
  intros d u o g l (G1 & G2 & G3). rewrite !map_map. apply map_ext_in. intros v Hv. unfold gclean. destruct (marker_dec v) as [M|M].
  - rewrite (G2 v Hv M). destruct (marker_dec (clean1 d u o v)) as [_|N]; [reflexivity|]. exfalso. apply N. apply clean_marker. exact M.
  - rewrite (clean_nonmarker d u o v M). rewrite (clean_nonmarker _ _ _ (g v)) by (apply G3; assumption). destruct (marker_dec v); [contradiction|reflexivity].
Qed.
Lemma clean_of_nonmarker : forall d u o v, ~ is_marker (clean1 d u o v) -> ~ is_marker v.
Proof. intros d u o v H M. apply H. apply clean_marker. exact M. Qed.

Lemma pairval_rename_l : forall L noise d u o g c0 c1 n0 n1 x y, lib_ok L -> good_renaming g x ->
  pairval L noise (c0, mkCol n0 (map (clean1 d u o) (map g x))) (c1, mkCol n1 (map (clean1 d u o) y)) = pairval L noise (c0, mkCol n0 (map (clean1 d u o) x)) (c1, mkCol n1 (map (clean1 d u o) y)).
Proof.
  intros L noise d u o g c0 c1 n0 n1 x y LO G. unfold pairval. cbn [fst snd c_cells]. destruct (String.eqb c0 c1); [reflexivity|]. rewrite clean_rename by exact G.
  assert (CM : forall A B C (h : A -> B) (l : list A) (l' : list C), combine (map h l) l' = map (fun r => (h (fst r), snd r)) (combine l l')).
  { intros A B C h l. induction l as [|a l IH]; intros [|b l']; cbn; try reflexivity. rewrite IH. reflexivity. }
  rewrite CM. apply rename_table_val; [| |exact LO].
  - intros [a b] [a' b'] Hr Hs. apply in_combine_l in Hr, Hs. cbn [fst]. apply in_map_iff in Hr, Hs. destruct Hr as (v & <- & Hv), Hs as (w & <- & Hw). unfold gclean. destruct G as (G1 & G2 & G3).
    destruct (marker_dec (clean1 d u o v)) as [M|M], (marker_dec (clean1 d u o w)) as [M'|M']; intros E.
    + exact E.
    + exfalso. pose proof (clean_of_nonmarker _ _ _ _ M') as N. rewrite (clean_nonmarker d u o w N) in *. apply (G3 w Hw N). rewrite <- E. exact M.
    + exfalso. pose proof (clean_of_nonmarker _ _ _ _ M) as N. rewrite (clean_nonmarker d u o v N) in *. apply (G3 v Hv N). rewrite E. exact M'.
    + pose proof (clean_of_nonmarker _ _ _ _ M) as N. pose proof (clean_of_nonmarker _ _ _ _ M') as N'. rewrite (clean_nonmarker d u o v N), (clean_nonmarker d u o w N') in *. apply G1; assumption.
  - intros [a b] Hr. apply in_combine_l in Hr. cbn [fst]. apply in_map_iff in Hr. destruct Hr as (v & <- & Hv). unfold gclean. destruct (marker_dec (clean1 d u o v)) as [M|M]; [tauto|].
    destruct G as (G1 & G2 & G3). pose proof (clean_of_nonmarker _ _ _ _ M) as N. rewrite (clean_nonmarker d u o v N) in *. split; intros E; exfalso; [apply (G3 v Hv N); left; exact E|apply N; left; exact E].
Qed.

Lemma rebinned_rename : forall L noise d u o f c g, lib_ok L -> (forall x, In (c, x) f -> good_renaming g (c_cells x)) ->
  fst (phik_from_rebinned_df L (rename c g f) noise d u o) = fst (phik_from_rebinned_df L f noise d u o).
Proof.
  intros L noise d u o f c g LO G. rewrite rename_map. apply rebinned_transform. intros [k x] [k' y] Hp Hq. cbn [fst snd].
  unfold gcol. destruct (String.eqb_spec k c) as [->|N], (String.eqb_spec k' c) as [->|N']; cbn [c_num c_cells].
  - unfold pairval. cbn [fst]. rewrite String.eqb_refl. reflexivity.
  - apply pairval_rename_l; [exact LO|]. apply G. exact Hp.
  - rewrite (pairval_sym _ _ (k, _)), (pairval_sym _ _ (k, _) (c, _)) by exact LO. apply pairval_rename_l; [exact LO|]. apply G. exact Hq.
  - reflexivity.
Qed.
Theorem phik_matrix_rename : forall npq L df ic bins q noise d u o c g, lib_ok L -> NoDup (keys df) ->
  ~ In c (match ic with Some l => l | None => guess_interval_cols df end) -> (forall x, In (c, x) df -> good_renaming g (c_cells x)) ->
  phik_matrix npq L (rename c g df) ic bins q noise d u o = phik_matrix npq L df ic bins q noise d u o.
Proof.
  intros npq L df ic bins q noise d u o c g LO N NC G. unfold phik_matrix. rewrite guess_rename. set (ic0 := match ic with Some x => x | None => guess_interval_cols df end) in *.
  rewrite dq_rename by (intros x Hx; apply G, assoc_In, Hx). destruct (dq_nunique_spec df ic0 d N) as [S1 S2]. destruct (dq_check_nunique_values df ic0 d) as [cdf ic'] eqn:E. cbn [fst snd] in *.
  assert (NC' : ~ In c ic') by (rewrite S2; intros H; apply filter_In in H; tauto).
  rewrite bin_data_rename by exact NC'. destruct (bin_data npq cdf ic' bins q) as [[b dict]|] eqn:E2; [|reflexivity]. cbn [rmap rbind fst snd].
  apply rebinned_rename; [exact LO|]. intros x Hx. assert (NB : NoDup (keys b)) by (apply bin_data_spec in E2; destruct E2 as [-> _]; rewrite S1; apply nodup_keys_filter; exact N).
  apply assoc_NoDup in Hx; [|exact NB]. apply bin_data_spec in E2. destruct E2 as (_ & F & _). rewrite F in Hx by exact NC'. apply G. apply assoc_In in Hx. rewrite S1 in Hx. apply filter_In in Hx. tauto.
Qed.
