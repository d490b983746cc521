(** C100: searching the bins as numpy does: sorted edges, unsorted edges. *)
From Coq Require Import String ZArith List Bool Lia Reals Sorting.Permutation.
From Flocq Require Import BinarySingleNaN.
From Verif Require Import LinspaceProofs F64 FOrder Base Cells BinModel SpecBin BinProofs BinDataProofs HistModel SpecHist HistProofs SearchModel.
Import ListNotations.
Open Scope Z_scope.
Open Scope list_scope.

(** * numpy's order on floats is a strict weak order *)
Lemma npless_trans : forall a b c, npless a b = true -> npless b c = true -> npless a c = true.
Proof.
  intros a b c. unfold npless, fisnan. rewrite !orb_true_iff, !andb_true_iff, !negb_true_iff. intros [H|[H1 H2]] [G|[G1 G2]].
  - left. eapply fle_lt_trans; [apply flt_le; exact H|exact G].
  - right. split; [exact G1|]. destruct (flt_nan _ _ H). assumption.
  - destruct (flt_nan _ _ G). congruence.
  - congruence.
Qed.
Lemma npless_neg : forall a b c, npless a b = false -> npless b c = false -> npless a c = false.
Proof.
  intros a b c H G. destruct (is_nan a) eqn:A.
  - unfold npless, fisnan. rewrite A. cbn [negb]. rewrite andb_false_r, orb_false_r. destruct (flt a c) eqn:F; [|reflexivity]. apply flt_nan in F. destruct F. congruence.
  - assert (B : is_nan b = false). { destruct (is_nan b) eqn:B; [|reflexivity]. unfold npless, fisnan in H. rewrite A, B, orb_true_r in H. discriminate. }
    assert (C : is_nan c = false). { destruct (is_nan c) eqn:C; [|reflexivity]. unfold npless, fisnan in G. rewrite B, C, orb_true_r in G. discriminate. }
    rewrite npless_num in * by assumption. rewrite flt_negb_fle in * by assumption. apply negb_false_iff in H. apply negb_false_iff in G. apply negb_false_iff. eapply fle_trans; eassumption.
Qed.
Lemma npless_irrefl : forall a, npless a a = false.
Proof.
  intros a. destruct (is_nan a) eqn:A; unfold npless, fisnan; rewrite A; cbn [negb andb].
  - rewrite orb_false_r. destruct (flt a a) eqn:F; [|reflexivity]. apply flt_nan in F. destruct F. congruence.
  - rewrite orb_false_r. rewrite flt_negb_fle by assumption. rewrite fle_refl by assumption. reflexivity.
Qed.

(** * one search, on any list of edges *)
Lemma bisect_any : forall fuel e v lo hi, (hi - lo < fuel)%nat -> (lo <= hi)%nat ->
  let r := bisect fuel e v lo hi in
  (lo <= r <= hi)%nat /\ (r = lo \/ npless (nth (r - 1) e fnan) v = true) /\ (r = hi \/ npless (nth r e fnan) v = false).
Proof.
  induction fuel as [|fuel IH]; intros e v lo hi Hf Hb; [lia|]. cbn [bisect]. destruct (Nat.ltb_spec lo hi) as [L|L].
  - set (mid := (lo + Nat.div2 (hi - lo))%nat). assert (Hd : (Nat.div2 (hi - lo) < hi - lo)%nat) by (apply Nat.lt_div2; lia).
    destruct (npless (nth mid e fnan) v) eqn:E.
    + destruct (IH e v (S mid) hi) as (R1 & R2 & R3); [lia|lia|]. cbv zeta. split; [lia|]. split; [|exact R3]. right. destruct R2 as [R2|R2]; [|exact R2]. rewrite R2. replace (S mid - 1)%nat with mid by lia. exact E.
    + destruct (IH e v lo mid) as (R1 & R2 & R3); [lia|lia|]. cbv zeta. split; [lia|]. split; [exact R2|]. right. destruct R3 as [R3|R3]; [rewrite R3|]; assumption.
  - cbv zeta. replace hi with lo by lia. split; [lia|]. split; left; reflexivity.
Qed.
(** r is a place where v fits: the edge before r is smaller than v, the edge at r is not *)
Definition fits (e : list f64) (v : f64) (r : nat) : Prop :=
  (r <= length e)%nat /\ (r = 0%nat \/ npless (nth (r - 1) e fnan) v = true) /\ (r = length e \/ npless (nth r e fnan) v = false).
Lemma search_from_fits : forall e keys last r, (fits e last r \/ (r = length e /\ match keys with k :: _ => npless last k = false | [] => True end)) ->
  Forall2 (fits e) keys (search_from e last r keys).
Proof.
  intros e keys. induction keys as [|k keys IH]; intros last r H; [constructor|]. cbn [search_from].
  set (lo := if npless last k then r else 0%nat). set (hi := if npless last k then length e else if Nat.ltb r (length e) then S r else length e). set (i := bisect _ e k lo hi).
  assert (HB : (lo <= hi)%nat /\ (hi <= length e)%nat).
  { assert (r <= length e)%nat by (destruct H as [H|[-> _]]; [apply H|lia]). unfold lo, hi. destruct (npless last k); [lia|]. destruct (Nat.ltb_spec r (length e)); lia. }
  destruct (bisect_any (S (length e)) e k lo hi ltac:(lia) (proj1 HB)) as (R1 & R2 & R3). fold i in R1, R2, R3.
  assert (F : fits e k i).
  { split; [lia|]. unfold lo, hi in *. destruct (npless last k) eqn:E.
    - destruct H as [(_ & H & _)|[_ H]]; [|discriminate H]. split; [|exact R3]. destruct R2 as [R2|R2]; [|right; exact R2]. rewrite R2. destruct H as [H|H]; [left; exact H|right]. eapply npless_trans; eassumption.
    - split; [exact R2|]. destruct (Nat.ltb_spec r (length e)) as [L|L]; [|exact R3]. destruct H as [(_ & _ & H)|[-> _]]; [|lia]. destruct H as [H|H]; [lia|].
      destruct R3 as [R3|R3]; [|right; exact R3]. exfalso. destruct R2 as [R2|R2]; [lia|]. rewrite R3 in R2. replace (S r - 1)%nat with r in R2 by lia.
      rewrite (npless_neg _ _ _ H E) in R2. discriminate. }
  constructor; [exact F|]. apply IH. left. exact F.
Qed.
Lemma np_fits : forall e keys, Forall2 (fits e) keys (np_searchsorted e keys).
Proof.
  intros e [|k keys]; [constructor|]. unfold np_searchsorted. apply search_from_fits. right. split; [reflexivity|apply npless_irrefl].
Qed.
Lemma fits_unique : forall e v r s, ascending e -> fits e v r -> fits e v s -> (r <= s)%nat.
Proof.
  intros e v r s A (R1 & R2 & R3) (S1 & S2 & S3). destruct (le_lt_dec r s) as [L|L]; [exact L|exfalso]. destruct R2 as [R2|R2]; [lia|]. destruct S3 as [S3|S3]; [lia|].
  rewrite (npless_mono e v A s (r - 1)%nat ltac:(lia) R2) in S3. discriminate.
Qed.
Lemma searchsorted_fits : forall e v, ascending e -> fits e v (searchsorted e v).
Proof.
  intros e v A. destruct (searchsorted_spec e v A) as (R1 & R2 & R3). split; [exact R1|]. split.
  - destruct (Nat.eq_dec (searchsorted e v) 0) as [E|E]; [left; exact E|right]. apply R2. lia.
  - destruct (Nat.eq_dec (searchsorted e v) (length e)) as [E|E]; [left; exact E|right]. apply R3. lia.
Qed.
Lemma np_sorted : forall e keys, ascending e -> np_searchsorted e keys = map (searchsorted e) keys.
Proof.
  intros e keys A. pose proof (np_fits e keys) as F. induction F as [|k r keys rs H F IH]; [reflexivity|]. cbn [map]. f_equal; [|exact IH].
  pose proof (searchsorted_fits e k A) as G. pose proof (fits_unique e k _ _ A H G). pose proof (fits_unique e k _ _ A G H). lia.
Qed.

(** For ascending edges the search from the previous place finds what the search for each value alone finds. *)
Theorem C100_sorted : forall arr e, ascending e -> bin_array_np arr e = bin_array arr e.
Proof. intros arr e A. unfold bin_array_np, bin_array. rewrite (np_sorted e arr A). reflexivity. Qed.

Definition bin1r (e : list f64) (v : f64) (r : nat) : cell :=
  if fisnan v then CNaN else if Nat.eqb r 0 then CStr UFs else if Nat.eqb r (length e) then CStr OFs else CInt (Z.of_nat r).
Lemma bin_array_np_fst : forall arr e, fst (bin_array_np arr e) = map (fun p => bin1r e (fst p) (snd p)) (combine arr (np_searchsorted e arr)).
Proof.
  intros arr e. unfold bin_array_np. cbn [fst]. generalize (np_searchsorted e arr) as idx. induction arr as [|v arr IH]; intros [|r idx]; try reflexivity. cbn [map combine]. rewrite IH. f_equal.
  unfold bin1r. cbn [fst snd]. destruct (fisnan v).
  - rewrite !ceqb_false by discriminate. reflexivity.
  - destruct (Nat.eqb_spec r 0) as [-> |Hne].
    + change (Z.of_nat 0) with 0%Z. rewrite ceqb_refl. rewrite ceqb_false by discriminate. reflexivity.
    + rewrite (ceqb_false (CInt (Z.of_nat r)) (CInt 0)) by (intros H; inversion H; lia).
      destruct (Nat.eqb_spec r (length e)) as [-> |Hne2].
      * rewrite ceqb_refl. reflexivity.
      * rewrite ceqb_false by (intros H; inversion H; lia). reflexivity.
Qed.
(** Edges in any order: a value is still only put into a bin that contains it, below the first edge, or above the last edge. *)
Theorem C100_any_edges : forall arr e, (1 <= length e)%nat -> (forall x, In x e -> fisnan x = false) ->
  Forall2 (bin_of e) arr (fst (bin_array_np arr e)).
Proof.
  intros arr e L N. rewrite bin_array_np_fst. pose proof (np_fits e arr) as F. induction F as [|v r arr rs (R1 & R2 & R3) F IH]; [constructor|]. cbn [combine map fst snd]. constructor; [|exact IH].
  unfold bin1r. destruct (fisnan v) eqn:Hn; [constructor; exact Hn|].
  assert (Hle : forall i, (i < length e)%nat -> npless (nth i e fnan) v = false -> fle v (nth i e fnan) = true).
  { intros i Hi H. rewrite npless_num in H by exact Hn. rewrite flt_negb_fle in H by (try exact Hn; apply N, nth_In; exact Hi). apply negb_false_iff in H. exact H. }
  assert (Hlt : forall i, npless (nth i e fnan) v = true -> flt (nth i e fnan) v = true) by (intros i H; rewrite npless_num in H by exact Hn; exact H).
  destruct (Nat.eqb_spec r 0) as [E|E].
  - apply bin_under. apply Hle; [lia|]. destruct R3 as [R3|R3]; [lia|]. rewrite E in R3. exact R3.
  - destruct R2 as [R2|R2]; [contradiction|]. destruct (Nat.eqb_spec r (length e)) as [E2|E2].
    + apply bin_over. apply Hlt. rewrite <- E2. exact R2.
    + destruct R3 as [R3|R3]; [contradiction|]. apply bin_inside; [lia|apply Hlt; exact R2|apply Hle; [lia|exact R3]].
Qed.
(** ... but which of them depends on the values that come before it: with the edges 0, 20, 10 the value 20 is in bin 1 or overflow. *)
Theorem C100_order_matters :
  fst (bin_array_np [ofZ 15; ofZ 20] [ofZ 0; ofZ 20; ofZ 10]) = [CInt 1; CStr "OF"]%string /\
  fst (bin_array_np [ofZ 20; ofZ 15] [ofZ 0; ofZ 20; ofZ 10]) = [CInt 1; CInt 1].
Proof. split; vm_compute; reflexivity. Qed.

(** * bin_data *)
Lemma bin_cols_np_eq : forall npq data bins q,
  (forall c l, spec_of bins c = Some (BEdges l) -> ascending l) ->
  forall cols xb acc dict,
  (forall c column arr n edges, In c cols -> assoc c data = Some column -> mapM to_float (c_cells column) = Ok arr -> spec_of bins c = Some (BNum n) -> bin_edges npq arr n q = Ok edges -> ascending edges) ->
  match xb with Some e => ascending e | None => True end -> bin_cols_np npq data cols bins q xb acc dict = bin_cols npq data cols bins q xb acc dict.
Proof.
  intros npq data bins q HE. induction cols as [|c cols IH]; intros xb acc dict HN HX; [reflexivity|]. cbn [bin_cols_np bin_cols].
  destruct (assoc c data) as [column|] eqn:EC; [|reflexivity]. destruct (mapM to_float (c_cells column)) as [arr|] eqn:EA; [|reflexivity]. cbn [rbind].
  assert (K : forall r : res (option (list f64)), (forall e, r = Ok (Some e) -> ascending e) ->
    (let* xb0 := r in match xb0 with None => Raise UnboundLocalError | Some edges => let (b, labels) := bin_array_np arr edges in bin_cols_np npq data cols bins q xb0 (set_assoc c (mkCol false b) acc) (dict_set c labels dict) end) =
    (let* xb0 := r in match xb0 with None => Raise UnboundLocalError | Some edges => let (b, labels) := bin_array arr edges in bin_cols npq data cols bins q xb0 (set_assoc c (mkCol false b) acc) (dict_set c labels dict) end)).
  { intros [[e|]|] H; try reflexivity. cbn [rbind]. rewrite (C100_sorted arr e (H e eq_refl)). destruct (bin_array arr e). apply IH; [intros c' col' a' n' e' I; apply HN; right; exact I|exact (H e eq_refl)]. }
  apply K. intros e. destruct bins as [[n|l|]|d].
  - destruct (bin_edges npq arr n q) as [x|] eqn:B; [|discriminate]. cbn. intros X. injection X as <-. eapply HN; try eassumption; [left; reflexivity|reflexivity].
  - intros X. injection X as ->. exact HX.
  - intros X. injection X as ->. exact HX.
  - destruct (assoc c d) as [[n|l|]|] eqn:D; [| | |discriminate].
    + destruct (bin_edges npq arr n q) as [x|] eqn:B; [|discriminate]. cbn. intros X. injection X as <-. eapply HN; try eassumption. left; reflexivity.
    + intros X. injection X as <-. eapply HE. exact D.
    + intros X. injection X as ->. exact HX.
Qed.
(** If all bin edges ascend, numpy's search gives the bins of the model in BinModel.v, on which all other properties are based. *)
Theorem C100_bin_data : forall npq data cols bins q,
  (forall c l, spec_of bins c = Some (BEdges l) -> ascending l) ->
  (forall c column arr n edges, In c cols -> assoc c data = Some column -> mapM to_float (c_cells column) = Ok arr -> spec_of bins c = Some (BNum n) -> bin_edges npq arr n q = Ok edges -> ascending edges) ->
  bin_data_np npq data cols bins q = bin_data npq data cols bins q.
Proof.
  intros npq data cols bins q HE HN. unfold bin_data_np, bin_data. destruct bins as [[n|l|]|d]; try (apply bin_cols_np_eq; try assumption; exact I).
  - apply bin_cols_np_eq; try assumption. apply (HE ""%string). reflexivity.
  - destruct (forallb _ cols); [|reflexivity]. apply bin_cols_np_eq; try assumption. exact I.
Qed.

(** In particular for automatic uniform bins, *)
Theorem C100_uniform : forall npq data cols n, (1 <= n <= 2 ^ 50)%Z ->
  (forall c column arr, In c cols -> assoc c data = Some column -> mapM to_float (c_cells column) = Ok arr -> exists lo hi, data_range arr lo hi) ->
  bin_data_np npq data cols (BOne (BNum n)) false = bin_data npq data cols (BOne (BNum n)) false.
Proof.
  intros npq data cols n Hn D. apply C100_bin_data; [discriminate|]. intros c column arr m edges I A M E B. cbn in E. injection E as ->.
  destruct (D c column arr I A M) as (lo & hi & R). destruct (bin_edges_uniform npq arr m lo hi R Hn) as (e & E & _ & G & _). rewrite E in B. injection B as <-. exact G.
Qed.
(** and for the same list of ascending edges for all columns. *)
Theorem C100_explicit : forall npq data cols l q, ascending l -> bin_data_np npq data cols (BOne (BEdges l)) q = bin_data npq data cols (BOne (BEdges l)) q.
Proof. intros npq data cols l q A. apply C100_bin_data; [intros c l' E; injection E as <-; exact A|intros c column arr n edges I _ _ E; discriminate E]. Qed.
(** The order of the records changes the histogram if the edges are not sorted: one record or two are counted. *)
Theorem C100_histogram_changes : forall npq,
  let edges := BOne (BEdges [ofZ 0; ofZ 20; ofZ 10]) in
  let f := [("v", mkCol true [CInt 15; CInt 20]); ("w", mkCol false [CStr "a"; CStr "b"])]%string in
  let g := [("v", mkCol true [CInt 20; CInt 15]); ("w", mkCol false [CStr "b"; CStr "a"])]%string in
  let table f := match bin_data_np npq f ["v"%string] edges false with Ok (b, _) => match fst (hist2d_from_rebinned_df b true true true) with Ok h => Some (h_cnt h) | _ => None end | _ => None end in
  table f = Some [[1]]%nat /\ table g = Some [[1; 1]]%nat.
Proof. intros npq. split; vm_compute; reflexivity. Qed.
(** the hypotheses of C100_bin_data are met by a frame with an explicit and an automatic column *)
Theorem C100_example : forall npq,
  let f := [("v", mkCol true [CInt 15; CInt 20; CInt 3]); ("w", mkCol true [CInt 3; CInt 1; CInt 2])]%string in
  let bins := BDict [("v", BEdges [ofZ 0; ofZ 10; ofZ 20]); ("w", BNum 2)]%string in
  bin_data_np npq f ["v"; "w"]%string bins false = bin_data npq f ["v"; "w"]%string bins false /\
  match bin_data_np npq f ["v"; "w"]%string bins false with Ok (b, _) => b | _ => [] end = [("v", mkCol false [CInt 2; CInt 2; CInt 1]); ("w", mkCol false [CInt 2; CInt 1; CInt 2])]%string.
Proof.
  intros npq f bins. split; [|vm_compute; reflexivity].
  assert (AD : forall e, forallb (fun i => forallb (fun j => negb (Nat.leb i j) || fle (nth i e fnan) (nth j e fnan)) (seq 0 (length e))) (seq 0 (length e)) = true -> ascending e).
  { intros e H i j Hij. rewrite forallb_forall in H. specialize (H i ltac:(apply in_seq; lia)). rewrite forallb_forall in H. specialize (H j ltac:(apply in_seq; lia)). rewrite (proj2 (Nat.leb_le i j)) in H by lia. exact H. }
  apply C100_bin_data.
  - intros c l H. cbn in H. destruct (String.eqb c "v"); [injection H as <-; apply AD; vm_compute; reflexivity|]. destruct (String.eqb c "w"); discriminate.
  - assert (Z : match bin_edges npq [ofZ 3; ofZ 1; ofZ 2] 2 false with Ok e => forallb (fun i => forallb (fun j => negb (Nat.leb i j) || fle (nth i e fnan) (nth j e fnan)) (seq 0 (length e))) (seq 0 (length e)) | _ => false end = true) by (vm_compute; reflexivity).
    intros c column arr n edges [<- |[<- |[]]] A M E B; [discriminate E|]. assert (A' : Some (mkCol true [CInt 3; CInt 1; CInt 2]) = Some column) by (rewrite <- A; reflexivity). injection A' as <-.
    assert (E' : Some (BNum 2) = Some (BNum n)) by (rewrite <- E; reflexivity). injection E' as <-.
    assert (M' : Ok [ofZ 3; ofZ 1; ofZ 2] = Ok arr) by (rewrite <- M; reflexivity). assert (M2 : arr = [ofZ 3; ofZ 1; ofZ 2]) by congruence. subst arr.
    rewrite B in Z. apply AD. exact Z.
Qed.
Print Assumptions C100_sorted. Print Assumptions C100_any_edges. Print Assumptions C100_bin_data. Print Assumptions C100_uniform. Print Assumptions C100_histogram_changes.
