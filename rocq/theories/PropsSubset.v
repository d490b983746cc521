(** C108: outlier matrices of selected rows of a binned frame, with the binning dictionary of the whole frame. *)
From Coq Require Import String Ascii ZArith List Bool Reals Lra Lia Sorting.Sorted.
Import ListNotations.
From Verif Require Import F64 Base Cells BinModel SpecBin BinProofs BinDataProofs HistModel SpecHist HistProofs RSum StatsModel StatsProofs Num PhikModel SpecPhik FrameProofs ArrayModel SparkModel SpecSpark SparkProofs
  BetaModel SpecSig SigModel PairMatProofs OutModel SpecOut OutProofs PropsOut PropsOut2 PropsOut3 SpecSubset.
Open Scope list_scope.

Lemma filter_count : forall (A : Type) (P : A -> bool) l, (length (filter P l) + length (filter (fun x => negb (P x)) l) = length l)%nat.
Proof. intros A P l. induction l as [|a l IH]; [reflexivity|]. cbn [filter]. destruct (P a); cbn [negb length]; lia. Qed.
Lemma filter_in_count : forall k im, NoDup im -> (forall i, In i im -> (i < k)%nat) -> length (filter (fun i => negb (existsb (Nat.eqb i) im)) (seq 0 k)) = (k - length im)%nat.
Proof.
  intros k im ND B. pose proof (filter_count nat (fun i => existsb (Nat.eqb i) im) (seq 0 k)) as E. rewrite seq_length in E.
  assert (X : length (filter (fun i => existsb (Nat.eqb i) im) (seq 0 k)) = length im); [|lia].
  apply Nat.le_antisymm; apply NoDup_incl_length.
  - apply NoDup_filter, seq_NoDup.
  - intros i Hi. apply filter_In in Hi. destruct Hi as [_ Hi]. apply existsb_exists in Hi. destruct Hi as (j & Hj & E'). apply Nat.eqb_eq in E'. subst j. exact Hj.
  - exact ND.
  - intros i Hi. apply filter_In. split; [apply in_seq; specialize (B i Hi); lia|]. apply existsb_exists. exists i. split; [exact Hi|apply Nat.eqb_refl].
Qed.
Lemma position_lt : forall v l, In v l -> (position v l < length l)%nat /\ nth (position v l) l CNaN = v.
Proof.
  intros v l. induction l as [|a l IH]; [intros []|]. intros H. cbn [position]. destruct (ceqb a v) eqn:E.
  - apply ceqb_eq in E. subst a. cbn [length nth]. split; [lia|reflexivity].
  - destruct H as [-> | H]; [rewrite ceqb_refl in E; discriminate|]. destruct (IH H) as [I1 I2]. cbn [length nth]. split; [lia|exact I2].
Qed.
Lemma positions_nodup : forall l m, NoDup m -> incl m l -> NoDup (map (fun v => position v l) m).
Proof.
  intros l m ND. induction ND as [|a m NI _ IH]; intros H; [constructor|]. cbn [map]. constructor; [|apply IH; intros x Hx; apply H; right; exact Hx].
  intros C. apply in_map_iff in C. destruct C as (b & E & Hb). apply NI. destruct (position_lt a l (H a (or_introl eq_refl))) as [_ A]. destruct (position_lt b l (H b (or_intror Hb))) as [_ B]. rewrite <- A, <- E, B. exact Hb.
Qed.
Lemma same_set_len : forall (A : Type) (l l' : list A), NoDup l -> NoDup l' -> (forall x, In x l <-> In x l') -> length l = length l'.
Proof. intros A l l' N N' H. apply Nat.le_antisymm; apply NoDup_incl_length; try assumption; intros x Hx; apply H; exact Hx. Qed.
Lemma nodup_filter_dsort : forall P l, NoDup (filter P (dsort l)).
Proof. intros P l. apply NoDup_filter, ssorted_NoDup, dsort_sorted. Qed.

Section Fmt.
Variable fmt : Z -> f64 * f64 -> string.

(** the labels the code makes from the dictionary entry: one per listed bin, less those of the selection that are missing in the table *)
Lemma axis_labels_split : forall nd edges cells axis, exists vals, axis_labels fmt nd edges cells axis = vals ++ skipn (length vals) axis /\
  (forall v, In v vals -> exists e, v = CStr (fmt nd e) /\ In e edges) /\
  let orig := dsort (filter (fun c => negb (isna c)) (filter (fun c => negb (marker c)) cells)) in
  ((length orig <= length edges)%nat -> length vals = (length edges - length (filter (fun v => negb (existsb (ceqb v) axis)) orig))%nat).
Proof.
  intros nd edges cells axis. unfold axis_labels. eexists. split; [reflexivity|]. split.
  - intros v Hv. apply in_map_iff in Hv. destruct Hv as (i & <- & Hi). exists (nth i edges (fnan, fnan)). split; [reflexivity|]. apply nth_In. apply filter_In in Hi. destruct Hi as [Hi _]. apply in_seq in Hi. lia.
  - cbv zeta. set (orig := dsort _). intros Hl. rewrite map_length. rewrite filter_in_count.
    + rewrite map_length. reflexivity.
    + apply positions_nodup; [apply nodup_filter_dsort|]. intros x Hx. apply filter_In in Hx. tauto.
    + intros i Hi. apply in_map_iff in Hi. destruct Hi as (v & <- & Hv). apply filter_In in Hv. destruct (position_lt v orig) as [B _]; [tauto|]. lia.
Qed.

Variable L : olib.
Variable npq : list f64 -> Z -> list f64.

Lemma bin_is_int : forall c, bin_number c = is_int c. Proof. intros []; reflexivity. Qed.

Section One.
  Variables (df : frame) (ic : list string) (bins : bins_arg) (q : bool) (out : frame) (dict : list (string * list (f64 * f64))).
  Hypothesis HB : bin_data npq df ic bins q = Ok (out, dict).
  Hypothesis HS : forall c, In c ic -> supported (spec_of bins c).
  Hypothesis HG : good_edges npq df ic bins q.
  Variables (c : string) (x : col) (nd : Z) (d u o : bool).
  Hypothesis Hx : assoc c out = Some x.
  Hypothesis Hin : In c ic.
  Variables (sel axis : list cell).
  Hypothesis SI : incl sel (c_cells x).
  Hypothesis Sx : ssorted axis.
  Hypothesis HA : forall a, In a axis -> In a (map (clean1 d u o) sel) /\ a <> CNaN.
  Let cells := map (clean1 d u o) sel.
  Let orig := dsort (filter (fun c => negb (isna c)) (filter (fun c => negb (marker c)) cells)).

  Lemma facts : exists column arr e is, assoc c df = Some column /\ mapM to_float (c_cells column) = Ok arr /\ asks_for npq bins q c arr e /\ (1 <= length e)%nat /\ ascending e /\
    c_cells x = fst (bin_array arr e) /\ assoc c dict = Some (snd (bin_array arr e)) /\
    snd (bin_array arr e) = map (fun i => (nth (i - 1) e fnan, nth i e fnan)) is /\ StronglySorted lt is /\ forall i, In i is <-> (1 <= i < length e)%nat /\ In (CInt (Z.of_nat i)) (fst (bin_array arr e)).
  Proof.
    destruct (bin_data_spec npq df ic bins q out dict HB) as (_ & _ & B). destruct (B c Hin (HS c Hin)) as (column & arr & edges & B1 & B2 & B3 & B4 & B5).
    rewrite Hx in B4. injection B4 as B4. destruct (HG c column arr edges Hin B1 B2 B3) as [Hl Ha]. destruct (bin_array_labels arr edges Hl Ha) as (is & El & Si & Hi).
    exists column, arr, edges, is. rewrite B4. cbn [c_cells]. repeat split; try assumption; apply Hi; assumption.
  Qed.
  (** the values of the selection that are no markers are its bin numbers *)
  Lemma in_orig : forall b, In b orig <-> bin_number b = true /\ In b sel.
  Proof.
    destruct facts as (column & arr & e & is & _ & _ & _ & Hl & Ha & EX & _). intros b. unfold orig. rewrite dsort_In, !filter_In. unfold cells. split.
    - intros ((Hc & Hm) & Hn). apply in_map_iff in Hc. destruct Hc as (c' & <- & Hc'). pose proof (SI _ Hc') as Hf. rewrite EX, bin_array_fst in Hf. apply in_map_iff in Hf. destruct Hf as (v & <- & _). pose proof (bin1_spec e v Hl Ha) as B.
      destruct (clean1_shape d u o (bin1 e v)) as [E|[[H|H] _]]; [|rewrite H in Hm; discriminate|rewrite H in Hn; discriminate]. rewrite E in *. split; [|exact Hc']. inversion B as [F E1|F E1|F E1|i Hi F1 F2 E1]; rewrite <- E1 in *; try discriminate; reflexivity.
    - intros [Hb Hs]. destruct b as [|z|k|s]; try discriminate. split; [split|]; try reflexivity. apply in_map_iff. exists (CInt z). split; [destruct d, u, o; reflexivity|exact Hs].
  Qed.
  Lemma edges_count : forall edges, assoc c dict = Some edges -> length edges = length (dsort (filter bin_number (c_cells x))).
  Proof.
    destruct facts as (column & arr & e & is & _ & _ & _ & Hl & Ha & EX & ED & EL & Si & Hi). intros edges E. assert (EE : edges = snd (bin_array arr e)) by congruence. subst edges. rewrite EL, map_length, <- (map_length (fun i => CInt (Z.of_nat i)) is).
    apply same_set_len.
    - assert (ND : NoDup is) by (clear - Si; induction Si as [|i l _ IH F]; constructor; [|exact IH]; intros C; rewrite Forall_forall in F; specialize (F i C); lia).
      clear - ND. induction ND as [|i l NI _ IH]; cbn [map]; constructor; [|exact IH]. intros C. apply in_map_iff in C. destruct C as (j & E & Hj). injection E as E. assert (j = i) by lia. subst j. contradiction.
    - apply ssorted_NoDup, dsort_sorted.
    - intros b. rewrite in_map_iff, dsort_In, filter_In, EX. split.
      + intros (i & <- & H). apply Hi in H. tauto.
      + intros [H1 H2]. pose proof H1 as Hf. rewrite bin_array_fst in Hf. apply in_map_iff in Hf. destruct Hf as (v & Ev & _). pose proof (bin1_spec e v Hl Ha) as B. rewrite Ev in B. destruct b as [|z|k|s]; try discriminate. inversion B as [| | |i Hi' F1 F2 E1]. subst z. exists i. split; [reflexivity|]. apply Hi. split; [lia|exact H1].
  Qed.
  Lemma orig_count : (length orig + lost_bins (c_cells x) sel = length (dsort (filter bin_number (c_cells x))))%nat.
  Proof.
    unfold lost_bins. rewrite <- (filter_count _ (fun b => existsb (ceqb b) sel) (dsort (filter bin_number (c_cells x)))). f_equal. apply same_set_len; [unfold orig; apply ssorted_NoDup, dsort_sorted|apply nodup_filter_dsort|].
    intros b. rewrite in_orig, filter_In, dsort_In, filter_In, existsb_ceqb. split; [intros [A B]; repeat split; try assumption; apply SI; exact B|tauto].
  Qed.
  Lemma axis_shape : forall a, In a axis -> int_or_str a.
  Proof.
    destruct facts as (column & arr & e & is & _ & _ & _ & Hl & Ha & EX & _). intros a H. destruct (HA a H) as [H1 H2]. apply in_map_iff in H1. destruct H1 as (c' & <- & Hc'). pose proof (SI _ Hc') as Hf. rewrite EX in Hf.
    destruct (binned_cells arr e (clean1 d u o c') d u o Hl Ha) as [(i & -> & _)|[M|M]]; [apply in_map; exact Hf|exact I| |contradiction].
    unfold marker in M. apply orb_true_iff in M. destruct M as [M|M]; [apply orb_true_iff in M; destruct M as [M|M]|]; apply ceqb_eq in M; rewrite M; exact I.
  Qed.
  Lemma missing_count : (length (filter (fun v => negb (existsb (ceqb v) axis)) orig) + bin_entries axis = length orig)%nat.
  Proof.
    rewrite <- (filter_count _ (fun v => existsb (ceqb v) axis) orig). rewrite Nat.add_comm. f_equal. unfold bin_entries. apply same_set_len; [apply NoDup_filter, ssorted_NoDup, Sx|unfold orig; apply nodup_filter_dsort|].
    intros b. rewrite !filter_In, in_orig, existsb_ceqb. split; [|tauto]. intros [A B]. repeat split; try assumption. destruct (HA b A) as [C _]. apply in_map_iff in C. destruct C as (c' & E & Hc'). destruct (clean1_shape d u o c') as [E'|[[E'|E'] _]]; [congruence| |]; rewrite E in E'; destruct b; discriminate.
  Qed.
  (** all listed bins still occur: the labels are right *)
  Lemma relabel_all : lost_bins (c_cells x) sel = 0%nat -> exists labels, relabel fmt nd dict c cells axis = Ok labels /\ labels_of fmt npq df ic bins q nd c axis labels.
  Proof.
    intros L0. assert (HA' : forall a, In a axis -> In a (map (clean1 d u o) (c_cells x)) /\ a <> CNaN).
    { intros a Ha. destruct (HA a Ha) as [H1 H2]. split; [|exact H2]. apply in_map_iff in H1. destruct H1 as (c' & <- & H1). apply in_map, SI, H1. }
    destruct (relabel_spec fmt npq df ic bins q out dict c x nd d u o axis HB HS HG Hx Sx HA') as (labels & E & LO). exists labels. split; [|exact LO]. rewrite <- E. unfold relabel. destruct (assoc c dict) as [edges|] eqn:ED; [|reflexivity].
    assert (X : axis_labels fmt nd edges cells axis = axis_labels fmt nd edges (map (clean1 d u o) (c_cells x)) axis); [|rewrite X; reflexivity]. unfold axis_labels. fold orig.
    assert (O : orig = dsort (filter (fun c0 => negb (isna c0)) (filter (fun c0 => negb (marker c0)) (map (clean1 d u o) (c_cells x))))); [|rewrite O; reflexivity].
    apply ssorted_ext; try apply dsort_sorted. intros b. split.
    - intros H. unfold orig in H. rewrite dsort_In, !filter_In in *. destruct H as [[H1 H2] H3]. split; [split; [|exact H2]|exact H3]. unfold cells in H1. apply in_map_iff in H1. destruct H1 as (c' & <- & H1). apply in_map, SI, H1.
    - intros H. rewrite dsort_In, !filter_In in H. destruct H as [[H1 H2] H3]. apply in_orig. destruct facts as (column & arr & e & is & _ & _ & _ & Hl & Ha & EX & _). rewrite EX in H1. destruct (binned_cells arr e b d u o Hl Ha H1) as [(i & -> & Hb)|[M|M]]; [|rewrite M in H2; discriminate|subst b; discriminate].
      split; [reflexivity|]. unfold lost_bins in L0. apply length_zero_iff_nil in L0. destruct (existsb (ceqb (CInt (Z.of_nat i))) sel) eqn:EE; [apply existsb_ceqb; exact EE|]. exfalso.
      assert (Y : In (CInt (Z.of_nat i)) (filter (fun b => negb (existsb (ceqb b) sel)) (dsort (filter bin_number (c_cells x))))) by (apply filter_In; rewrite EE; split; [apply dsort_In, filter_In; rewrite EX; split; [exact Hb|reflexivity]|reflexivity]). rewrite L0 in Y. exact Y.
  Qed.
  Lemma relabel_lost :
    ((marker_entries axis < lost_bins (c_cells x) sel)%nat -> relabel fmt nd dict c cells axis = Raise ValueError) /\
    ((lost_bins (c_cells x) sel <= marker_entries axis)%nat -> exists labels edges, relabel fmt nd dict c cells axis = Ok labels /\ assoc c dict = Some edges /\ length labels = length axis /\
       forall k, (bin_entries axis <= k < bin_entries axis + lost_bins (c_cells x) sel)%nat -> bin_number (nth k axis CNaN) = false /\ (k < length axis)%nat /\ exists e, In e edges /\ nth k labels CNaN = CStr (fmt nd e)).
  Proof.
    destruct facts as (column & arr & e & is & _ & _ & _ & Hl & Ha & EX & ED & _). pose proof (edges_count _ ED) as EC. set (edges := snd (bin_array arr e)) in *.
    unfold relabel. rewrite ED. destruct (axis_labels_split nd edges cells axis) as (vals & EV & IV & LV). cbv zeta in LV. fold orig in LV. pose proof orig_count as OC. specialize (LV ltac:(lia)). pose proof missing_count as MC.
    assert (LN : (bin_entries axis + marker_entries axis = length axis)%nat) by apply filter_count. assert (LL : length vals = (bin_entries axis + lost_bins (c_cells x) sel)%nat) by lia.
    rewrite EV, app_length, skipn_length. split.
    - intros H. destruct (Nat.eqb_spec (length vals + (length axis - length vals)) (length axis)) as [Q|Q]; [exfalso; lia|reflexivity].
    - intros H. destruct (Nat.eqb_spec (length vals + (length axis - length vals)) (length axis)) as [Q|Q]; [|exfalso; lia]. exists (vals ++ skipn (length vals) axis), edges. split; [reflexivity|]. split; [reflexivity|]. split; [rewrite app_length, skipn_length; exact Q|].
      intros k Hk. split; [|split; [lia|]].
      + pose proof (sorted_split axis Sx axis_shape) as SP. assert (E1 : forall l, filter is_int l = filter bin_number l) by (intros l; apply filter_ext; intros; symmetry; apply bin_is_int).
        rewrite SP. rewrite app_nth2; rewrite E1; fold (bin_entries axis); [|lia]. set (j := (k - length (filter bin_number axis))%nat). assert (Hj : (j < length (filter (fun c0 => negb (is_int c0)) axis))%nat). { replace (length (filter (fun c0 => negb (is_int c0)) axis)) with (marker_entries axis) by (unfold marker_entries; f_equal; apply filter_ext; intros; rewrite bin_is_int; reflexivity). unfold j, bin_entries in *. lia. }
        pose proof (nth_In _ CNaN Hj) as I. apply filter_In in I. destruct I as [_ I]. rewrite bin_is_int. apply negb_true_iff. exact I.
      + rewrite app_nth1 by lia. destruct (IV (nth k vals CNaN)) as (e' & E' & I'); [apply nth_In; lia|]. exists e'. auto.
  Qed.
End One.

Definition selected (rows : list nat) (x : col) : list cell := map (fun i => nth i (c_cells x) CNaN) rows.
Lemma selected_incl : forall rows x, (forall i, In i rows -> (i < length (c_cells x))%nat) -> incl (selected rows x) (c_cells x).
Proof. intros rows x H c Hc. unfold selected in Hc. apply in_map_iff in Hc. destruct Hc as (i & <- & Hi). apply nth_In, H, Hi. Qed.

Section Frame.
  Variables (df : frame) (ic : list string) (bins : bins_arg) (q : bool) (dict : list (string * list (f64 * f64))) (c0 c1 : string) (x y : col).
  Hypothesis HB : bin_data npq df ic bins q = Ok ([(c0, x); (c1, y)], dict).
  Hypothesis NE : c0 <> c1.
  Hypothesis HS : forall c, In c ic -> supported (spec_of bins c).
  Hypothesis HG : good_edges npq df ic bins q.
  Variable rows : list nat.
  Hypothesis RX : forall i, In i rows -> (i < length (c_cells x))%nat /\ (i < length (c_cells y))%nat.
  Variables (CI : string) (nd : Z) (d u o : bool) (h : htable).
  Hypothesis HH : fst (hist2d_from_rebinned_df (reorder rows [(c0, x); (c1, y)]) d u o) = Ok h.
  Hypothesis H2R : (2 <= length (h_rows h))%nat.
  Hypothesis H2C : (2 <= length (h_cols h))%nat.
  Let r := fst (outlier_significance_matrix_from_rebinned_df L fmt (reorder rows [(c0, x); (c1, y)]) dict CI nd d u o).
  Let Hx : assoc c0 [(c0, x); (c1, y)] = Some x. Proof. cbn [assoc]; rewrite String.eqb_refl; reflexivity. Qed.
  Let Hy : assoc c1 [(c0, x); (c1, y)] = Some y. Proof. cbn [assoc]; destruct (String.eqb_spec c1 c0); [congruence|]; rewrite String.eqb_refl; reflexivity. Qed.
  Let IX : incl (selected rows x) (c_cells x). Proof. apply selected_incl. intros i Hi. apply RX, Hi. Qed.
  Let IY : incl (selected rows y) (c_cells y). Proof. apply selected_incl. intros i Hi. apply RX, Hi. Qed.

  Lemma h_is : h = crosstab (combine (map (clean1 d u o) (selected rows x)) (map (clean1 d u o) (selected rows y))).
  Proof. unfold hist2d_from_rebinned_df in HH. cbn [reorder map fst snd] in HH. rewrite clean_two in HH. cbn [fst snd c_cells rbind] in HH. apply Ok_inj in HH. symmetry. exact HH. Qed.
  Lemma result_is : r = (let* rw := relabel fmt nd dict c0 (map (clean1 d u o) (selected rows x)) (h_rows h) in
                        let* cl := relabel fmt nd dict c1 (map (clean1 d u o) (selected rows y)) (h_cols h) in
                        let* pz := outlier_significance_matrix_from_hist2d L h CI in Ok (OMat rw cl (map (map snd) pz))).
  Proof.
    pose proof h_is as E. unfold r. cbn [reorder map fst snd outlier_significance_matrix_from_rebinned_df]. unfold hist2d_from_rebinned_df. rewrite clean_two. cbn [fst snd c_cells rbind c_num]. fold (selected rows x) (selected rows y). rewrite <- E.
    assert (T : forall n, (2 <= n)%nat -> is01 n = false) by (intros n Hn; unfold is01; apply orb_false_iff; rewrite !Nat.eqb_neq; lia). rewrite !T by assumption. reflexivity.
  Qed.
  Lemma rows_sorted : ssorted (h_rows h). Proof. rewrite h_is. apply dsort_sorted. Qed.
  Lemma cols_sorted : ssorted (h_cols h). Proof. rewrite h_is. apply dsort_sorted. Qed.
  Lemma rows_in : forall a, In a (h_rows h) -> In a (map (clean1 d u o) (selected rows x)) /\ a <> CNaN.
  Proof. rewrite h_is. intros a Ha. apply in_rows in Ha. destruct Ha as ([a' b'] & Hr & C & <-). cbn [fst]. split; [apply in_combine_l in Hr; exact Hr|]. unfold complete in C. cbn [fst snd] in C. intros ->. discriminate. Qed.
  Lemma cols_in : forall a, In a (h_cols h) -> In a (map (clean1 d u o) (selected rows y)) /\ a <> CNaN.
  Proof. rewrite h_is. intros a Ha. apply in_cols in Ha. destruct Ha as ([a' b'] & Hr & C & <-). cbn [snd]. split; [apply in_combine_r in Hr; exact Hr|]. unfold complete in C. cbn [fst snd] in C. intros ->. apply andb_true_iff in C. destruct C; discriminate. Qed.
  Lemma other : forall c cells axis, ~ In c ic -> relabel fmt nd dict c cells axis = Ok axis.
  Proof.
    intros c cells axis Hout. unfold relabel. assert (E : assoc c dict = None).
    { assert (HC : match bins with BDict d => forallb (fun c => mem c (keys d)) ic = true | _ => True end).
      { destruct bins as [b|d0]; [exact I|]. unfold bin_data in HB. destruct (forallb _ ic); [reflexivity|discriminate]. }
      destruct (bin_data_bin_cols npq df ic bins q HC) as (xb & _ & _ & E). pose proof HB as HB'. rewrite E in HB'. apply bin_cols_frame in HB'. destruct HB' as [_ F]. destruct (F c Hout) as [_ F2]. rewrite F2. reflexivity. }
    rewrite E. reflexivity.
  Qed.
  Lemma all_ok : (In c0 ic -> lost_bins (c_cells x) (selected rows x) = 0%nat) -> (In c1 ic -> lost_bins (c_cells y) (selected rows y) = 0%nat) ->
    exists rw cl, labels_of fmt npq df ic bins q nd c0 (h_rows h) rw /\ labels_of fmt npq df ic bins q nd c1 (h_cols h) cl /\
      r = (let* pz := outlier_significance_matrix_from_hist2d L h CI in Ok (OMat rw cl (map (map snd) pz))).
  Proof.
    intros L0 L1. rewrite result_is.
    assert (A : exists rw, relabel fmt nd dict c0 (map (clean1 d u o) (selected rows x)) (h_rows h) = Ok rw /\ labels_of fmt npq df ic bins q nd c0 (h_rows h) rw).
    { destruct (in_dec string_dec c0 ic) as [I|I]; [exact (relabel_all df ic bins q _ dict HB HS HG c0 x nd d u o Hx I _ _ IX rows_sorted rows_in (L0 I))|]. exists (h_rows h). split; [apply other, I|split; [contradiction|reflexivity]]. }
    assert (B : exists cl, relabel fmt nd dict c1 (map (clean1 d u o) (selected rows y)) (h_cols h) = Ok cl /\ labels_of fmt npq df ic bins q nd c1 (h_cols h) cl).
    { destruct (in_dec string_dec c1 ic) as [I|I]; [exact (relabel_all df ic bins q _ dict HB HS HG c1 y nd d u o Hy I _ _ IY cols_sorted cols_in (L1 I))|]. exists (h_cols h). split; [apply other, I|split; [contradiction|reflexivity]]. }
    destruct A as (rw & -> & A). destruct B as (cl & -> & B). exists rw, cl. auto.
  Qed.
  Lemma total : forall c z cells axis, assoc c [(c0, x); (c1, y)] = Some z -> incl cells (c_cells z) -> ssorted axis -> (forall a, In a axis -> In a (map (clean1 d u o) cells) /\ a <> CNaN) ->
    relabel fmt nd dict c (map (clean1 d u o) cells) axis = Raise ValueError \/ exists labels, relabel fmt nd dict c (map (clean1 d u o) cells) axis = Ok labels.
  Proof.
    intros c z cells axis Hz IZ SA HA. destruct (in_dec string_dec c ic) as [I|I]; [|right; exists axis; apply other, I].
    destruct (relabel_lost df ic bins q _ dict HB HS HG c z nd d u o Hz I _ _ IZ SA HA) as [A B]. destruct (Nat.lt_ge_cases (marker_entries axis) (lost_bins (c_cells z) cells)) as [H|H]; [left; exact (A H)|right]. destruct (B H) as (l & e & E & _). exists l. exact E.
  Qed.
  Lemma raises : (In c0 ic /\ (marker_entries (h_rows h) < lost_bins (c_cells x) (selected rows x))%nat) \/ (In c1 ic /\ (marker_entries (h_cols h) < lost_bins (c_cells y) (selected rows y))%nat) -> r = Raise ValueError.
  Proof.
    rewrite result_is. destruct (total c0 x _ _ Hx IX rows_sorted rows_in) as [E|[rw E]]; [rewrite E; reflexivity|]. intros [[I H]|[I H]].
    - destruct (relabel_lost df ic bins q _ dict HB HS HG c0 x nd d u o Hx I _ _ IX rows_sorted rows_in) as [A _]. rewrite (A H). reflexivity.
    - rewrite E. cbn [rbind]. destruct (relabel_lost df ic bins q _ dict HB HS HG c1 y nd d u o Hy I _ _ IY cols_sorted cols_in) as [A _]. rewrite (A H). reflexivity.
  Qed.
  Lemma mislabelled_rows : In c0 ic -> (lost_bins (c_cells x) (selected rows x) <= marker_entries (h_rows h))%nat -> (In c1 ic -> lost_bins (c_cells y) (selected rows y) <= marker_entries (h_cols h))%nat ->
    exists rw cl edges, r = (let* pz := outlier_significance_matrix_from_hist2d L h CI in Ok (OMat rw cl (map (map snd) pz))) /\ assoc c0 dict = Some edges /\ length rw = length (h_rows h) /\
      forall k, (bin_entries (h_rows h) <= k < bin_entries (h_rows h) + lost_bins (c_cells x) (selected rows x))%nat ->
        bin_number (nth k (h_rows h) CNaN) = false /\ (k < length (h_rows h))%nat /\ exists e, In e edges /\ nth k rw CNaN = CStr (fmt nd e).
  Proof.
    intros I H H'. rewrite result_is. destruct (relabel_lost df ic bins q _ dict HB HS HG c0 x nd d u o Hx I _ _ IX rows_sorted rows_in) as [_ A]. destruct (A H) as (rw & edges & E & ED & LN & F). rewrite E. cbn [rbind].
    assert (B : exists cl, relabel fmt nd dict c1 (map (clean1 d u o) (selected rows y)) (h_cols h) = Ok cl).
    { destruct (in_dec string_dec c1 ic) as [J|J]; [|exists (h_cols h); apply other, J]. destruct (relabel_lost df ic bins q _ dict HB HS HG c1 y nd d u o Hy J _ _ IY cols_sorted cols_in) as [_ B]. destruct (B (H' J)) as (cl & e & E' & _). exists cl. exact E'. }
    destruct B as [cl ->]. cbn [rbind]. exists rw, cl, edges. auto.
  Qed.
End Frame.

(** Rows selected from a binned frame, with the dictionary of the whole frame.  If every bin listed in the dictionary still occurs among the
    selected rows, the labels are those of the bins (C60). *)
Theorem C108_all_bins_left : forall df ic bins q dict c0 x c1 y rows CI nd d u o h,
  bin_data npq df ic bins q = Ok ([(c0, x); (c1, y)], dict) -> c0 <> c1 -> (forall c, In c ic -> supported (spec_of bins c)) -> good_edges npq df ic bins q ->
  (forall i, In i rows -> (i < length (c_cells x))%nat /\ (i < length (c_cells y))%nat) ->
  fst (hist2d_from_rebinned_df (reorder rows [(c0, x); (c1, y)]) d u o) = Ok h -> (2 <= length (h_rows h))%nat -> (2 <= length (h_cols h))%nat ->
  (In c0 ic -> lost_bins (c_cells x) (selected rows x) = 0%nat) -> (In c1 ic -> lost_bins (c_cells y) (selected rows y) = 0%nat) ->
  exists rw cl, labels_of fmt npq df ic bins q nd c0 (h_rows h) rw /\ labels_of fmt npq df ic bins q nd c1 (h_cols h) cl /\
    fst (outlier_significance_matrix_from_rebinned_df L fmt (reorder rows [(c0, x); (c1, y)]) dict CI nd d u o) = (let* pz := outlier_significance_matrix_from_hist2d L h CI in Ok (OMat rw cl (map (map snd) pz))).
Proof. intros. eapply all_ok; eassumption. Qed.
(** If more bins of a variable are lost than its axis has UF, OF and NaN entries, the call raises. *)
Theorem C108_raises : forall df ic bins q dict c0 x c1 y rows CI nd d u o h,
  bin_data npq df ic bins q = Ok ([(c0, x); (c1, y)], dict) -> c0 <> c1 -> (forall c, In c ic -> supported (spec_of bins c)) -> good_edges npq df ic bins q ->
  (forall i, In i rows -> (i < length (c_cells x))%nat /\ (i < length (c_cells y))%nat) ->
  fst (hist2d_from_rebinned_df (reorder rows [(c0, x); (c1, y)]) d u o) = Ok h -> (2 <= length (h_rows h))%nat -> (2 <= length (h_cols h))%nat ->
  (In c0 ic /\ (marker_entries (h_rows h) < lost_bins (c_cells x) (selected rows x))%nat) \/ (In c1 ic /\ (marker_entries (h_cols h) < lost_bins (c_cells y) (selected rows y))%nat) ->
  fst (outlier_significance_matrix_from_rebinned_df L fmt (reorder rows [(c0, x); (c1, y)]) dict CI nd d u o) = Raise ValueError.
Proof. intros. eapply raises; eassumption. Qed.
(** Otherwise the call succeeds, and as many UF, OF and NaN rows as bins are lost carry the label of an interval. *)
Theorem C108_markers_mislabelled : forall df ic bins q dict c0 x c1 y rows CI nd d u o h,
  bin_data npq df ic bins q = Ok ([(c0, x); (c1, y)], dict) -> c0 <> c1 -> (forall c, In c ic -> supported (spec_of bins c)) -> good_edges npq df ic bins q ->
  (forall i, In i rows -> (i < length (c_cells x))%nat /\ (i < length (c_cells y))%nat) ->
  fst (hist2d_from_rebinned_df (reorder rows [(c0, x); (c1, y)]) d u o) = Ok h -> (2 <= length (h_rows h))%nat -> (2 <= length (h_cols h))%nat ->
  In c0 ic -> (lost_bins (c_cells x) (selected rows x) <= marker_entries (h_rows h))%nat -> (In c1 ic -> lost_bins (c_cells y) (selected rows y) <= marker_entries (h_cols h))%nat ->
  exists rw cl edges, fst (outlier_significance_matrix_from_rebinned_df L fmt (reorder rows [(c0, x); (c1, y)]) dict CI nd d u o) = (let* pz := outlier_significance_matrix_from_hist2d L h CI in Ok (OMat rw cl (map (map snd) pz))) /\
    assoc c0 dict = Some edges /\ length rw = length (h_rows h) /\
    forall k, (bin_entries (h_rows h) <= k < bin_entries (h_rows h) + lost_bins (c_cells x) (selected rows x))%nat ->
      bin_number (nth k (h_rows h) CNaN) = false /\ (k < length (h_rows h))%nat /\ exists e, In e edges /\ nth k rw CNaN = CStr (fmt nd e).
Proof. intros. eapply mislabelled_rows; eassumption. Qed.
End Fmt.

(** The hypotheses are met.  Eight records, a variable x binned at 0, 1, 2, 3 (one record pair below 0) and a category y.  Rows 2 to 7 contain
    every bin; without rows 4 and 5 bin 2 is lost: if the underflow is dropped there is no marker row and the call raises, if it is kept the
    table has the rows 1, 3 and UF, and the row UF gets the label of an interval. *)
Definition df108 : frame :=
  [("x"%string, mkCol true [CInt (-5); CInt (-5); CInt 1; CInt 1; CInt 2; CInt 2; CInt 3; CInt 3]);
   ("y"%string, mkCol false [CStr "a"; CStr "b"; CStr "a"; CStr "b"; CStr "a"; CStr "b"; CStr "a"; CStr "b"]%string)].
Definition edges108 : list f64 := [ofZ 0; ofZ 1; ofZ 2; ofZ 3].
Definition bins108 : bins_arg := BOne (BEdges edges108).
Lemma asc108 : (1 <= length edges108)%nat /\ ascending edges108.
Proof.
  split; [cbn; lia|]. intros i j Hij. cbn [edges108 length] in Hij.
  assert (K : forallb (fun i => forallb (fun j => implb (Nat.leb i j) (fle (nth i edges108 fnan) (nth j edges108 fnan))) (seq 0 4)) (seq 0 4) = true) by (vm_compute; reflexivity).
  rewrite forallb_forall in K. specialize (K i ltac:(apply in_seq; lia)). rewrite forallb_forall in K. specialize (K j ltac:(apply in_seq; lia)). rewrite (proj2 (Nat.leb_le i j)) in K by lia. exact K.
Qed.
Example C108_hyps : forall npq, exists x y dict, bin_data npq df108 ["x"%string] bins108 false = Ok ([("x"%string, x); ("y"%string, y)], dict) /\
  good_edges npq df108 ["x"%string] bins108 false /\ (forall c, In c ["x"%string] -> supported (spec_of bins108 c)) /\
  lost_bins (c_cells x) (selected [2; 3; 4; 5; 6; 7]%nat x) = 0%nat /\
  let rows := [0; 1; 2; 3; 6; 7]%nat in (forall i, In i rows -> (i < length (c_cells x))%nat /\ (i < length (c_cells y))%nat) /\ lost_bins (c_cells x) (selected rows x) = 1%nat /\
  (exists h, fst (hist2d_from_rebinned_df (reorder rows [("x"%string, x); ("y"%string, y)]) true true true) = Ok h /\ length (h_rows h) = 2%nat /\ length (h_cols h) = 2%nat /\ marker_entries (h_rows h) = 0%nat) /\
  (exists h, fst (hist2d_from_rebinned_df (reorder rows [("x"%string, x); ("y"%string, y)]) true false true) = Ok h /\ h_rows h = [CInt 1; CInt 3; CStr UFs] /\ length (h_cols h) = 2%nat /\ marker_entries (h_rows h) = 1%nat /\ bin_entries (h_rows h) = 2%nat).
Proof.
  intros npq. eexists _, _, _. split; [reflexivity|]. split; [|split; [|split; [|split; [|split; [|split]]]]].
  - intros c column arr e [<- | []] _ _ A. cbn [asks_for spec_of bins108] in A. subst e. exact asc108.
  - intros c [<- | []]. exact I.
  - vm_compute. reflexivity.
  - intros i Hi. cbn [c_cells]. change (i < 8 /\ i < 8)%nat. cbn in Hi. intuition lia.
  - vm_compute. reflexivity.
  - eexists. split; [reflexivity|]. split; [vm_compute; reflexivity|]. split; vm_compute; reflexivity.
  - eexists. split; [reflexivity|]. split; [vm_compute; reflexivity|]. split; [vm_compute; reflexivity|]. split; vm_compute; reflexivity.
Qed.
Print Assumptions C108_all_bins_left.
Print Assumptions C108_raises.
Print Assumptions C108_markers_mislabelled.
