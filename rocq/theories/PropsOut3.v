(** C13, C59-C62: outlier matrices of data frames. *)
From Coq Require Import String Ascii ZArith List Bool Reals Lra Lia Sorting.Sorted.
Import ListNotations.
From Verif Require Import F64 Base Cells BinModel SpecBin BinProofs BinDataProofs HistModel SpecHist HistProofs RSum StatsModel StatsProofs Num PhikModel ArrayModel SparkModel SpecSpark SparkProofs
  BetaModel SpecSig SigModel PairMatProofs OutModel SpecOut OutProofs PropsOut PropsOut2.
Open Scope list_scope.

(** * C60: labels *)
Definition is_int (c : cell) : bool := match c with CInt _ => true | _ => false end.
Definition int_or_str (c : cell) : Prop := match c with CInt _ | CStr _ => True | _ => False end.
Lemma sorted_split : forall l, ssorted l -> (forall c, In c l -> int_or_str c) -> l = filter is_int l ++ filter (fun c => negb (is_int c)) l.
Proof.
  induction l as [|c l IH]; intros S H; [reflexivity|]. inversion S as [|? ? S' F]; subst. cbn [filter].
  destruct c as [|z|k|s]; try (exfalso; exact (H _ (or_introl eq_refl))); cbn [is_int negb].
  - cbn [app]. f_equal. apply IH; [exact S'|]. intros c Hc. apply H. right. exact Hc.
  - rewrite Forall_forall in F.
    assert (A : forall P, (forall c, In c l -> P c = false) -> filter P l = []).
    { intros P. clear. induction l as [|a l IHl]; intros HP; [reflexivity|]. cbn [filter]. rewrite HP by (left; reflexivity). apply IHl. intros c Hc. apply HP. right. exact Hc. }
    assert (B : forall P, (forall c, In c l -> P c = true) -> filter P l = l).
    { intros P. clear. induction l as [|a l IHl]; intros HP; [reflexivity|]. cbn [filter]. rewrite HP by (left; reflexivity). f_equal. apply IHl. intros c Hc. apply HP. right. exact Hc. }
    assert (N : forall c, In c l -> is_int c = false).
    { intros c Hc. specialize (F c Hc). destruct c; try reflexivity. discriminate F. }
    rewrite A by exact N. rewrite B by (intros c Hc; rewrite N by exact Hc; reflexivity). reflexivity.
Qed.
Lemma filter_sorted : forall P l, ssorted l -> ssorted (filter P l).
Proof.
  intros P l. induction l as [|a l IH]; intros S; [constructor|]. inversion S as [|? ? S' F]; subst. cbn [filter]. destruct (P a); [|apply IH; exact S'].
  constructor; [apply IH; exact S'|]. rewrite Forall_forall in *. intros c Hc. apply filter_In in Hc. apply F. tauto.
Qed.
Lemma position_nth : forall l i d, NoDup l -> (i < length l)%nat -> position (nth i l d) l = i.
Proof.
  induction l as [|a l IH]; intros i d ND Hi; [simpl in Hi; lia|]. inversion ND as [|? ? NI ND']; subst. cbn [position]. destruct i as [|i]; cbn [nth].
  - rewrite ceqb_refl. reflexivity.
  - simpl in Hi. rewrite ceqb_false; [f_equal; apply IH; [exact ND'|lia]|]. intros ->. apply NI, nth_In. lia.
Qed.
(** selecting positions of a list by a property of the elements *)
Lemma select_seq : forall (A B : Type) (P : A -> bool) (g : A -> B) (l : list A) (f : nat -> B) (Q : nat -> bool) d,
  (forall i, (i < length l)%nat -> Q i = P (nth i l d) /\ f i = g (nth i l d)) ->
  map f (filter Q (seq 0 (length l))) = map g (filter P l).
Proof.
  intros A B P g l f Q d H.
  assert (G : forall k, (forall i, (i < length l)%nat -> Q (k + i)%nat = P (nth i l d) /\ f (k + i)%nat = g (nth i l d)) -> map f (filter Q (seq k (length l))) = map g (filter P l)).
  { clear H. induction l as [|a l IH]; intros k H; [reflexivity|]. cbn [length seq filter].
    destruct (H 0%nat ltac:(cbn; lia)) as [H1 H2]. rewrite Nat.add_0_r in *. cbn [nth] in *. rewrite H1.
    assert (R : map f (filter Q (seq (S k) (length l))) = map g (filter P l)).
    { apply IH. intros i Hi. destruct (H (S i) ltac:(cbn; lia)) as [H3 H4]. replace (S k + i)%nat with (k + S i)%nat by lia. cbn [nth] in *. auto. }
    destruct (P a); cbn [map]; rewrite R; [rewrite H2|]; reflexivity. }
  apply (G 0%nat). exact H.
Qed.
Lemma existsb_ceqb : forall v l, existsb (ceqb v) l = true <-> In v l.
Proof. intros v l. rewrite existsb_exists. split; [intros (x & Hx & E); apply ceqb_eq in E; subst; exact Hx|intros H; exists v; split; [exact H|apply ceqb_refl]]. Qed.

Section Fmt.
Variable fmt : Z -> f64 * f64 -> string.

(** the label of a table entry: for bin number z the two edges of that bin, for anything else the value itself *)
Definition edge_label (nd : Z) (e : list f64) (c : cell) : cell :=
  match c with CInt z => CStr (fmt nd (nth (Z.to_nat z - 1) e fnan, nth (Z.to_nat z) e fnan)) | _ => c end.

Lemma clean1_shape : forall d u o c, clean1 d u o c = c \/ (marker (clean1 d u o c) = true \/ clean1 d u o c = CNaN) /\ is_int c = false.
Proof.
  intros d u o [|z|k|s]; unfold clean1, repl.
  - right. split; [|reflexivity]. destruct d, u, o; cbn; auto.
  - left. destruct d, u, o; reflexivity.
  - left. destruct d, u, o; reflexivity.
  - destruct (string_dec s UFs) as [->|NU]; [|destruct (string_dec s OFs) as [->|NO]].
    + destruct d, u, o; cbn; auto.
    + destruct d, u, o; cbn; auto.
    + left. assert (A : ceqb (CStr s) (CStr UFs) = false) by (apply ceqb_false; congruence). assert (B : ceqb (CStr s) (CStr OFs) = false) by (apply ceqb_false; congruence).
      assert (C : ceqb (CStr s) CNaN = false) by reflexivity. destruct d, u, o; rewrite ?C, ?A, ?B; reflexivity.
Qed.

Lemma binned_cells : forall arr e c d u o, (1 <= length e)%nat -> ascending e -> In c (map (clean1 d u o) (fst (bin_array arr e))) ->
  (exists i : nat, c = CInt (Z.of_nat i) /\ In c (fst (bin_array arr e))) \/ marker c = true \/ c = CNaN.
Proof.
  intros arr e c d u o Hl Ha Hc. apply in_map_iff in Hc. destruct Hc as (c' & <- & Hc'). pose proof Hc' as Hin. rewrite bin_array_fst in Hc'. apply in_map_iff in Hc'. destruct Hc' as (v & <- & _).
  pose proof (bin1_spec e v Hl Ha) as B. destruct (clean1_shape d u o (bin1 e v)) as [->|[[H|H] _]]; auto.
  inversion B as [F E|F E|F E|i Hi F1 F2 E]; rewrite <- E in *; auto. left. exists i. auto.
Qed.

Lemma axis_labels_spec : forall nd arr e d u o axis, (1 <= length e)%nat -> ascending e -> ssorted axis ->
  (forall c, In c axis -> In c (map (clean1 d u o) (fst (bin_array arr e))) /\ c <> CNaN) ->
  axis_labels fmt nd (snd (bin_array arr e)) (map (clean1 d u o) (fst (bin_array arr e))) axis = map (edge_label nd e) axis.
Proof.
  intros nd arr e d u o axis Hl Ha Sx Hx.
  destruct (bin_array_labels arr e Hl Ha) as (is & El & Si & Hi). unfold axis_labels.
  set (cells := map (clean1 d u o) (fst (bin_array arr e))) in *. set (toC := fun i : nat => CInt (Z.of_nat i)).
  assert (Hint : forall i, In (toC i) cells <-> In (toC i) (fst (bin_array arr e))).
  { intros i. unfold cells. rewrite in_map_iff. split.
    - intros (c & E & Hc). destruct (clean1_shape d u o c) as [E'|[[E'|E'] _]]; [congruence| |]; rewrite E in E'; discriminate.
    - intros H. exists (toC i). split; [|exact H]. destruct d, u, o; reflexivity. }
  assert (Orig : dsort (filter (fun c => negb (isna c)) (filter (fun c => negb (marker c)) cells)) = map toC is).
  { apply ssorted_ext.
    - apply dsort_sorted.
    - clear - Si. induction is as [|i l IH]; [constructor|]. inversion Si as [|? ? S F]; subst. cbn [map]. constructor; [apply IH; exact S|].
      rewrite Forall_forall in *. intros c Hc. apply in_map_iff in Hc. destruct Hc as (j & <- & Hj). specialize (F j Hj). unfold clt, toC. cbn. apply Z.compare_lt_iff. lia.
    - intros c. rewrite dsort_In, !filter_In, in_map_iff. split.
      + intros ((Hc & Hm) & Hn). destruct (binned_cells arr e c d u o Hl Ha Hc) as [(i & E & Hb)|[M| ->]]; [|rewrite M in Hm; discriminate|discriminate].
        exists i. split; [symmetry; exact E|]. apply Hi. subst c. split; [|exact Hb].
        rewrite bin_array_fst in Hb. apply in_map_iff in Hb. destruct Hb as (v & Ev & _). pose proof (bin1_spec e v Hl Ha) as B. rewrite Ev in B. inversion B. lia.
      + intros (i & <- & Hin). apply Hi in Hin. destruct Hin as [_ Hb]. split; [split|]; [apply Hint; exact Hb|reflexivity|reflexivity]. }
  rewrite Orig, El. set (orig := map toC is).
  assert (ND : NoDup orig).
  { apply ssorted_NoDup. unfold orig. rewrite <- Orig. apply dsort_sorted. }
  assert (Len : length (map (fun i : nat => (nth (i - 1) e fnan, nth i e fnan)) is) = length orig) by (unfold orig; rewrite !map_length; reflexivity).
  rewrite Len.
  set (imissing := map (fun v => position v orig) (filter (fun v => negb (existsb (ceqb v) axis)) orig)).
  assert (IM : forall i, (i < length orig)%nat -> existsb (Nat.eqb i) imissing = negb (existsb (ceqb (nth i orig CNaN)) axis)).
  { intros i Hi'. apply eq_true_iff_eq. rewrite existsb_exists. unfold imissing. split.
    - intros (k & Hk & E). apply Nat.eqb_eq in E. subst k. apply in_map_iff in Hk. destruct Hk as (v & Ev & Hv). apply filter_In in Hv. destruct Hv as [Hv1 Hv2].
      destruct (In_nth _ _ CNaN Hv1) as (k & Hk & Ek). rewrite <- Ek in Ev. rewrite position_nth in Ev by assumption. subst k. rewrite Ek. exact Hv2.
    - intros H. exists i. split; [|apply Nat.eqb_refl]. apply in_map_iff. exists (nth i orig CNaN). split; [apply position_nth; assumption|]. apply filter_In. split; [apply nth_In; exact Hi'|exact H]. }
  assert (V : map (fun i => CStr (fmt nd (nth i (map (fun i : nat => (nth (i - 1) e fnan, nth i e fnan)) is) (fnan, fnan)))) (filter (fun i => negb (existsb (Nat.eqb i) imissing)) (seq 0 (length orig)))
              = map (edge_label nd e) (filter (fun c => existsb (ceqb c) axis) orig)).
  { apply select_seq with (d := CNaN). intros i Hi'. split; [rewrite IM by exact Hi'; apply negb_involutive|].
    unfold orig in Hi'. rewrite map_length in Hi'. unfold orig. rewrite (nth_indep (map toC is) CNaN (toC 0%nat)) by (rewrite map_length; exact Hi'). rewrite map_nth.
    rewrite (nth_indep _ (fnan, fnan) (nth (0 - 1) e fnan, nth 0 e fnan)) by (rewrite map_length; exact Hi').
    rewrite (map_nth (fun i : nat => (nth (i - 1) e fnan, nth i e fnan)) is 0%nat). unfold toC, edge_label. rewrite Nat2Z.id. reflexivity. }
  rewrite V.
  assert (IS : forall c, In c axis -> int_or_str c).
  { intros c Hc. destruct (Hx c Hc) as [H1 H2]. destruct (binned_cells arr e c d u o Hl Ha H1) as [(i & -> & _)|[M| ->]]; [exact I| |contradiction].
    unfold marker in M. apply orb_true_iff in M. destruct M as [M|M]; [apply orb_true_iff in M; destruct M as [M|M]|]; apply ceqb_eq in M; subst c; exact I. }
  pose proof (sorted_split axis Sx IS) as SP.
  assert (EI : filter is_int axis = filter (fun c => existsb (ceqb c) axis) orig).
  { apply ssorted_ext.
    - apply filter_sorted. exact Sx.
    - apply filter_sorted. unfold orig. rewrite <- Orig. apply dsort_sorted.
    - intros c. rewrite !filter_In, existsb_ceqb. split.
      + intros [H1 H2]. split; [|exact H1]. destruct (Hx c H1) as [H3 _]. destruct (binned_cells arr e c d u o Hl Ha H3) as [(i & -> & Hb)|[M| ->]]; [|destruct c; discriminate|discriminate].
        unfold orig. apply in_map_iff. exists i. split; [reflexivity|]. apply Hi. split; [|exact Hb].
        rewrite bin_array_fst in Hb. apply in_map_iff in Hb. destruct Hb as (v & Ev & _). pose proof (bin1_spec e v Hl Ha) as B. rewrite Ev in B. inversion B. lia.
      + intros [H1 H2]. split; [exact H2|]. unfold orig in H1. apply in_map_iff in H1. destruct H1 as (i & <- & _). reflexivity. }
  rewrite <- EI. rewrite map_length.
  assert (SK : skipn (length (filter is_int axis)) axis = filter (fun c => negb (is_int c)) axis).
  { rewrite SP at 2. rewrite skipn_app, Nat.sub_diag. rewrite skipn_all. reflexivity. }
  rewrite SK. rewrite SP at 3. rewrite map_app. f_equal.
  rewrite <- (map_id (filter (fun c => negb (is_int c)) axis)) at 1. apply map_ext_in. intros c Hc. apply filter_In in Hc. destruct c; try reflexivity. destruct Hc; discriminate.
Qed.

(** the labels of one axis after relabelling, for a frame made by bin_data *)
Definition labels_of npq (df : frame) (ic : list string) (bins : bins_arg) (q : bool) (nd : Z) (c : string) (axis labels : list cell) : Prop :=
  (In c ic -> exists column arr edges, assoc c df = Some column /\ mapM to_float (c_cells column) = Ok arr /\ asks_for npq bins q c arr edges /\ labels = map (edge_label nd edges) axis) /\
  (~ In c ic -> labels = axis).
Definition good_edges npq (df : frame) (ic : list string) (bins : bins_arg) (q : bool) : Prop :=
  forall c column arr edges, In c ic -> assoc c df = Some column -> mapM to_float (c_cells column) = Ok arr -> asks_for npq bins q c arr edges -> (1 <= length edges)%nat /\ ascending edges.

Variable L : olib.
Variable npq : list f64 -> Z -> list f64.

Lemma relabel_spec : forall df ic bins q out dict c x nd d u o axis,
  bin_data npq df ic bins q = Ok (out, dict) -> (forall c, In c ic -> supported (spec_of bins c)) -> good_edges npq df ic bins q ->
  assoc c out = Some x -> ssorted axis -> (forall a, In a axis -> In a (map (clean1 d u o) (c_cells x)) /\ a <> CNaN) ->
  exists labels, relabel fmt nd dict c (map (clean1 d u o) (c_cells x)) axis = Ok labels /\ labels_of npq df ic bins q nd c axis labels.
Proof.
  intros df ic bins q out dict c x nd d u o axis HB HS HG Hx Sx HA. destruct (in_dec string_dec c ic) as [Hin|Hout].
  - destruct (bin_data_spec npq df ic bins q out dict HB) as (_ & _ & B). destruct (B c Hin (HS c Hin)) as (column & arr & edges & B1 & B2 & B3 & B4 & B5).
    rewrite Hx in B4. injection B4 as ->. cbn [c_cells] in *. destruct (HG c column arr edges Hin B1 B2 B3) as [Hl Ha].
    exists (map (edge_label nd edges) axis). unfold relabel. rewrite B5. rewrite axis_labels_spec by assumption. rewrite map_length, Nat.eqb_refl.
    split; [reflexivity|]. split; [|contradiction]. intros _. exists column, arr, edges. auto.
  - exists axis. split; [|split; [contradiction|reflexivity]]. unfold relabel.
    assert (E : assoc c dict = None).
    { assert (HC : match bins with BDict d => forallb (fun c => mem c (keys d)) ic = true | _ => True end).
      { destruct bins as [b|d0]; [exact I|]. unfold bin_data in HB. destruct (forallb _ ic); [reflexivity|discriminate]. }
      destruct (bin_data_bin_cols npq df ic bins q HC) as (xb & _ & _ & E). rewrite E in HB. apply bin_cols_frame in HB. destruct HB as [_ F]. destruct (F c Hout) as [_ F2]. rewrite F2. reflexivity. }
    rewrite E. reflexivity.
Qed.

Lemma clean_two : forall d u o c0 x c1 y, clean d u o [(c0, x); (c1, y)] = [(c0, mkCol (c_num x) (map (clean1 d u o) (c_cells x))); (c1, mkCol (c_num y) (map (clean1 d u o) (c_cells y)))].
Proof. reflexivity. Qed.

(** C60: the outlier matrix of a frame made by bin_data: NaN for a table with fewer than two rows or columns, otherwise the Z-values of
    the table under the labels described above; relabelling itself never fails *)
Theorem C60_labels : forall df ic bins q dict c0 x c1 y CI nd d u o h,
  bin_data npq df ic bins q = Ok ([(c0, x); (c1, y)], dict) -> c0 <> c1 -> (forall c, In c ic -> supported (spec_of bins c)) -> good_edges npq df ic bins q ->
  fst (hist2d_from_rebinned_df [(c0, x); (c1, y)] d u o) = Ok h ->
  let r := fst (outlier_significance_matrix_from_rebinned_df L fmt [(c0, x); (c1, y)] dict CI nd d u o) in
  ((length (h_rows h) < 2 \/ length (h_cols h) < 2)%nat -> r = Ok ONaN) /\
  ((2 <= length (h_rows h))%nat -> (2 <= length (h_cols h))%nat ->
   exists rows cols, labels_of npq df ic bins q nd c0 (h_rows h) rows /\ labels_of npq df ic bins q nd c1 (h_cols h) cols /\
     r = (let* pz := outlier_significance_matrix_from_hist2d L h CI in Ok (OMat rows cols (map (map snd) pz)))).
Proof.
  intros df ic bins q dict c0 x c1 y CI nd d u o h HB NE HS HG HH r.
  assert (Hx : assoc c0 [(c0, x); (c1, y)] = Some x) by (cbn [assoc]; rewrite String.eqb_refl; reflexivity).
  assert (Hy : assoc c1 [(c0, x); (c1, y)] = Some y) by (cbn [assoc]; destruct (String.eqb_spec c1 c0); [congruence|]; rewrite String.eqb_refl; reflexivity).
  unfold r. cbn [outlier_significance_matrix_from_rebinned_df]. unfold hist2d_from_rebinned_df in *. rewrite clean_two in *. cbn [fst snd rbind] in *.
  set (cx := mkCol (c_num x) (map (clean1 d u o) (c_cells x))) in *. set (cy := mkCol (c_num y) (map (clean1 d u o) (c_cells y))) in *.
  set (recs := combine (c_cells cx) (c_cells cy)) in *. apply Ok_inj in HH. subst h. set (h := crosstab recs).
  assert (T : forall n, is01 n = true <-> (n < 2)%nat) by (intros n; unfold is01; rewrite orb_true_iff, !Nat.eqb_eq; lia).
  split.
  - intros H. assert (E : is01 (length (h_rows h)) || is01 (length (h_cols h)) = true) by (apply orb_true_iff; rewrite !T; exact H). rewrite E. reflexivity.
  - intros H1 H2. assert (E : is01 (length (h_rows h)) || is01 (length (h_cols h)) = false).
    { apply orb_false_iff. split; apply not_true_iff_false; rewrite T; lia. }
    rewrite E.
    destruct (relabel_spec df ic bins q _ dict c0 x nd d u o (h_rows h) HB HS HG Hx (dsort_sorted _)) as (rows & R1 & R2).
    { intros a Ha. apply in_rows in Ha. destruct Ha as ([a' b'] & Hr & C & <-). cbn [fst]. unfold recs in Hr. split; [apply in_combine_l in Hr; exact Hr|].
      unfold complete in C. cbn [fst snd] in C. intros ->. discriminate. }
    destruct (relabel_spec df ic bins q _ dict c1 y nd d u o (h_cols h) HB HS HG Hy (dsort_sorted _)) as (cols & R3 & R4).
    { intros a Ha. apply in_cols in Ha. destruct Ha as ([a' b'] & Hr & C & <-). cbn [snd]. unfold recs in Hr. split; [apply in_combine_r in Hr; exact Hr|].
      unfold complete in C. cbn [fst snd] in C. intros ->. apply andb_true_iff in C. destruct C; discriminate. }
    exists rows, cols. split; [exact R2|]. split; [exact R4|].
    change (c_cells cx) with (map (clean1 d u o) (c_cells x)). change (c_cells cy) with (map (clean1 d u o) (c_cells y)). fold h. rewrite R1, R3. reflexivity.
Qed.

(** markers come after all bins *)
Theorem C60_markers_last : forall recs i j, (i <= j)%nat -> (j < length (h_rows (crosstab recs)))%nat -> is_int (nth j (h_rows (crosstab recs)) CNaN) = true ->
  forall s, nth i (h_rows (crosstab recs)) CNaN <> CStr s.
Proof.
  intros recs i j Hij Hj HI s E.
  assert (S : forall l, ssorted l -> forall i j, (i < j)%nat -> (j < length l)%nat -> clt (nth i l CNaN) (nth j l CNaN)).
  { clear. induction l as [|a l IH]; intros S i j Hij Hj; [simpl in Hj; lia|]. inversion S as [|? ? S' F]; subst. destruct j as [|j]; [lia|]. simpl in Hj. destruct i as [|i]; cbn [nth].
    - rewrite Forall_forall in F. apply F, nth_In. lia.
    - apply IH; [exact S'|lia|lia]. }
  destruct (Nat.eq_dec i j) as [->|N].
  - rewrite E in HI. discriminate.
  - pose proof (S _ (dsort_sorted _) i j ltac:(lia) Hj) as C. change (dsort _) with (h_rows (crosstab recs)) in C. rewrite E in C. destruct (nth j (h_rows (crosstab recs)) CNaN); discriminate.
Qed.

(** * C13, C62 *)
Theorem C13_outlier_two_columns : forall df ic CI nd bins q d u o, length df <> 2%nat -> outlier_significance_matrix L fmt npq df ic CI nd bins q d u o = Raise ValueError.
Proof. intros. unfold outlier_significance_matrix. rewrite (proj2 (Nat.eqb_neq _ _)) by assumption. reflexivity. Qed.

Lemma rebinned_not_two : forall f dict CI nd d u o, length f <> 2%nat -> fst (outlier_significance_matrix_from_rebinned_df L fmt f dict CI nd d u o) = Raise ValueError.
Proof. intros [|[c0 x] [|[c1 y] [|p f]]] dict CI nd d u o H; try reflexivity. simpl in H. lia. Qed.
(** if the data-quality check removes a column of a two-column frame the call fails; with ValueError unless the binning of the
    remaining column fails first *)
Theorem C62_dropped_column : forall df ic CI nd bins q d u o df' ic',
  length df = 2%nat -> dq_check_nunique_values df (match ic with Some l => l | None => guess_interval_cols df end) d = (df', ic') -> (length df' < 2)%nat ->
  is_ok (outlier_significance_matrix L fmt npq df ic CI nd bins q d u o) = false /\
  (is_ok (bin_data npq df' ic' bins q) = true -> outlier_significance_matrix L fmt npq df ic CI nd bins q d u o = Raise ValueError).
Proof.
  intros df ic CI nd bins q d u o df' ic' H2 HD HL. unfold outlier_significance_matrix. rewrite H2. cbn [Nat.eqb negb]. rewrite HD.
  destruct (bin_data npq df' ic' bins q) as [[out dict]|e] eqn:HB; cbn [rbind is_ok]; [|split; [reflexivity|discriminate]].
  destruct (bin_data_spec npq df' ic' bins q out dict HB) as (K & _). assert (length out <> 2%nat).
  { unfold keys in K. apply (f_equal (@length string)) in K. rewrite !map_length in K. lia. }
  cbn [fst snd]. rewrite rebinned_not_two by assumption. split; reflexivity.
Qed.
Theorem C62_degenerate_pair : forall c0 x c1 y dict CI nd d u o h, fst (hist2d_from_rebinned_df [(c0, x); (c1, y)] d u o) = Ok h -> (length (h_rows h) < 2 \/ length (h_cols h) < 2)%nat ->
  fst (outlier_significance_matrix_from_rebinned_df L fmt [(c0, x); (c1, y)] dict CI nd d u o) = Ok ONaN.
Proof.
  intros c0 x c1 y dict CI nd d u o h HH H. cbn [outlier_significance_matrix_from_rebinned_df]. unfold hist2d_from_rebinned_df in *. rewrite clean_two in *. cbn [fst rbind] in *. apply Ok_inj in HH. rewrite HH.
  assert (T : forall n, is01 n = true <-> (n < 2)%nat) by (intros n; unfold is01; rewrite orb_true_iff, !Nat.eqb_eq; lia).
  assert (E : is01 (length (h_rows h)) || is01 (length (h_cols h)) = true) by (apply orb_true_iff; rewrite !T; exact H). rewrite E. reflexivity.
Qed.

(** * the entries of the matrix *)
Definition cnt (h : htable) (i j : nat) : nat := nth j (nth i (h_cnt h) []) 0%nat.
Theorem C59_matrix_entry : forall h CI pz est i j, outlier_significance_matrix_from_hist2d L h CI = Ok pz -> get_independent_frequency_estimates L (hmat h) CI = Ok est ->
  length (h_cnt h) = length (h_rows h) -> (forall row, In row (h_cnt h) -> length row = length (h_cols h)) ->
  (i < length (h_rows h))%nat -> (j < length (h_cols h))%nat ->
  let e := nth j (nth i est []) (NaN, NaN) in let z := nth j (nth i pz []) (NaN, NaN) in
  fst z = poisson_obs_mid_p L (cnt h i j) (fst e) (snd e) /\ poisson_obs_mid_z L (cnt h i j) (fst e) (snd e) = Ok (snd z).
Proof.
  intros h CI pz est i j H He Lr Lc Hi Hj e z. unfold outlier_significance_matrix_from_hist2d in H. rewrite He in H. cbn [rbind] in H. unfold get_outlier_significances in H.
  destruct (estimates_nth L (hmat h) CI est i j He Hi Hj) as (E1 & E2 & _). cbn [hmat nr nc] in E1, E2.
  pose proof (mapM_nth _ _ _ _ _ i ([], []) [] H ltac:(rewrite combine_length; lia)) as R. rewrite combine_nth in R by lia. cbn [fst snd] in R.
  assert (Lrow : length (nth i (h_cnt h) []) = length (h_cols h)) by (apply Lc, nth_In; lia).
  pose proof (mapM_nth _ _ _ _ _ j (0%nat, (NaN, NaN)) (NaN, NaN) R ltac:(rewrite combine_length; lia)) as R2. rewrite combine_nth in R2 by lia. cbn [fst snd] in R2.
  unfold cell_significance in R2. fold (cnt h i j) e z in R2. destruct (poisson_obs_mid_z L (cnt h i j) (fst e) (snd e)) as [zz|]; [|discriminate]. cbn [rbind] in R2. injection R2 as R2. rewrite <- R2. split; reflexivity.
Qed.
End Fmt.
