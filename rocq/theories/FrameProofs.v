(** Reordering records and renaming categories commute with binning and the data-quality check. *)
From Coq Require Import String ZArith List Bool Reals Lra Lia Sorting.Permutation Sorting.Sorted.
Import ListNotations.
From Flocq Require Import Core BinarySingleNaN.
From Verif Require Import F64 FOrder Base Cells BinModel SpecBin BinProofs BinDataProofs HistModel SpecHist HistProofs PhikModel SpecPhik PairMatProofs.
Open Scope list_scope.

(** * numbers in a column: never -0.0 *)
Lemma ofZ_kf_ok : forall z, kf_ok (ofZ z) = true.
Proof.
  intros z. unfold ofZ. generalize (binary_normalize_correct 53 1024 _ _ mode_NE z 0 false). cbv zeta.
  set (b := binary_normalize _ _ _ _ _ _ _ _). destruct (Rlt_bool _ _).
  - intros (H1 & H2 & H3). destruct b as [[|]|s| |s m e He]; try reflexivity; [|discriminate].
    exfalso. cbn [B2R Bsign] in *. destruct (Rcompare_spec (F2R (Float radix2 z 0)) 0) as [L|L|L]; try discriminate.
    assert (Z1 : (z <= -1)%Z).
    { assert (IZR z < 0)%R by (unfold F2R in L; cbn in L; lra). apply lt_IZR in H. lia. }
    assert (B : (round radix2 (SpecFloat.fexp 53 1024) (round_mode mode_NE) (F2R (Float radix2 z 0)) <= -1)%R).
    { change (rnd (F2R (Float radix2 z 0)) <= -1)%R. rewrite <- (rnd_id (-1)) by (apply (fmt_IZR (-1)); lia). apply rnd_le. unfold F2R. cbn [Fnum Fexp bpow]. apply IZR_le in Z1. lra. }
    lra.
  - intros H. destruct b as [[|]|s| |s m e He]; try reflexivity; cbn in H; destruct (Rlt_bool _ _) in H; discriminate H.
Qed.
Lemma to_float_kf : forall c v, to_float c = Ok v -> fisnan v = false -> kf_ok v = true.
Proof. intros [|z|k|s] v H N; inversion H; subst; [discriminate|apply ofZ_kf_ok|apply kok]. Qed.

Definition below (a b : f64) : Prop := flt b a = false.
Lemma kf_nan : forall v, kf_ok v = true -> is_nan v = false. Proof. intros [[|]|[|]| |s m e H]; try discriminate; reflexivity. Qed.
Lemma below_antisym : forall a b, kf_ok a = true -> kf_ok b = true -> flt a b = false -> flt b a = false -> a = b.
Proof.
  intros a b Ha Hb H1 H2. pose proof (kf_nan a Ha) as Na. pose proof (kf_nan b Hb) as Nb.
  assert (E : kcmp (mkK a Ha) (mkK b Hb) = Eq).
  { unfold kcmp. cbn [kval]. rewrite fcmp_ext by assumption.
    assert (X : ~ (flt a b = true)) by congruence. assert (Y : ~ (flt b a = true)) by congruence. rewrite flt_ext in X, Y by assumption.
    destruct (Z.compare_spec (rk a) (rk b)) as [E|E|E]; [|exfalso; tauto|exfalso; tauto]. apply Rcompare_Eq. destruct (Rtotal_order (f2R a) (f2R b)) as [?|[?|?]]; [exfalso; apply X; right; split; [exact E|lra]|exact H|exfalso; apply Y; right; split; [congruence|lra]]. }
  apply kcmp_eq in E. congruence.
Qed.
Lemma nlt_trans : forall a b c, kf_ok a = true -> kf_ok b = true -> kf_ok c = true -> flt a b = false -> flt b c = false -> flt a c = false.
Proof.
  intros a b c Ha Hb Hc H1 H2. pose proof (kf_nan a Ha). pose proof (kf_nan b Hb). pose proof (kf_nan c Hc).
  rewrite flt_negb_fle in * by assumption. apply negb_false_iff in H1, H2. apply negb_false_iff. eapply fle_trans; eassumption.
Qed.
Lemma nlt_refl : forall a, kf_ok a = true -> flt a a = false.
Proof. intros a H. pose proof (kf_nan a H). rewrite flt_negb_fle by assumption. rewrite fle_refl by assumption. reflexivity. Qed.
Lemma flt_asym : forall a b, kf_ok a = true -> kf_ok b = true -> flt a b = true -> flt b a = false.
Proof. intros a b Ha Hb H. pose proof (kf_nan a Ha). pose proof (kf_nan b Hb). rewrite flt_negb_fle by assumption. apply flt_le in H. rewrite H. reflexivity. Qed.

Lemma fold_min : forall l a, kf_ok a = true -> (forall v, In v l -> kf_ok v = true) ->
  In (fold_left fmin2 l a) (a :: l) /\ forall v, In v (a :: l) -> flt v (fold_left fmin2 l a) = false.
Proof.
  induction l as [|b l IH]; intros a Ha H.
  - cbn. split; [auto|]. intros v [<-|[]]. apply nlt_refl. exact Ha.
  - cbn [fold_left]. assert (Hb : kf_ok b = true) by (apply H; left; reflexivity).
    assert (Hm : kf_ok (fmin2 a b) = true) by (unfold fmin2; destruct (flt b a); assumption).
    destruct (IH (fmin2 a b) Hm) as [I1 I2]; [intros; apply H; right; assumption|]. set (r := fold_left fmin2 l (fmin2 a b)) in *.
    assert (Hr : kf_ok r = true) by (destruct I1 as [<-|I1]; [exact Hm|apply H; right; exact I1]).
    pose proof (I2 _ (or_introl eq_refl)) as I3. split.
    + destruct I1 as [E|I1]; [rewrite <- E; unfold fmin2; destruct (flt b a); simpl; auto|simpl; auto].
    + assert (Q : flt a (fmin2 a b) = false /\ flt b (fmin2 a b) = false).
      { unfold fmin2. destruct (flt b a) eqn:E; split; try (apply nlt_refl; assumption); [apply flt_asym; assumption|exact E]. }
      destruct Q as [Q1 Q2]. intros v [<-|[<-|Hv]]; [apply (nlt_trans _ (fmin2 a b)); assumption|apply (nlt_trans _ (fmin2 a b)); assumption|apply I2; right; exact Hv].
Qed.
Lemma fold_max : forall l a, kf_ok a = true -> (forall v, In v l -> kf_ok v = true) ->
  In (fold_left fmax2 l a) (a :: l) /\ forall v, In v (a :: l) -> flt (fold_left fmax2 l a) v = false.
Proof.
  induction l as [|b l IH]; intros a Ha H.
  - cbn. split; [auto|]. intros v [<-|[]]. apply nlt_refl. exact Ha.
  - cbn [fold_left]. assert (Hb : kf_ok b = true) by (apply H; left; reflexivity).
    assert (Hm : kf_ok (fmax2 a b) = true) by (unfold fmax2; destruct (flt a b); assumption).
    destruct (IH (fmax2 a b) Hm) as [I1 I2]; [intros; apply H; right; assumption|]. set (r := fold_left fmax2 l (fmax2 a b)) in *.
    assert (Hr : kf_ok r = true) by (destruct I1 as [<-|I1]; [exact Hm|apply H; right; exact I1]).
    pose proof (I2 _ (or_introl eq_refl)) as I3. split.
    + destruct I1 as [E|I1]; [rewrite <- E; unfold fmax2; destruct (flt a b); simpl; auto|simpl; auto].
    + assert (Q : flt (fmax2 a b) a = false /\ flt (fmax2 a b) b = false).
      { unfold fmax2. destruct (flt a b) eqn:E; split; try (apply nlt_refl; assumption); [apply flt_asym; assumption|exact E]. }
      destruct Q as [Q1 Q2]. intros v [<-|[<-|Hv]]; [apply (nlt_trans _ (fmax2 a b)); assumption|apply (nlt_trans _ (fmax2 a b)); assumption|apply I2; right; exact Hv].
Qed.
Lemma fminl_perm : forall l l', Permutation l l' -> (forall v, In v l -> kf_ok v = true) -> fminl l = fminl l' /\ fmaxl l = fmaxl l'.
Proof.
  intros l l' P H. assert (H' : forall v, In v l' -> kf_ok v = true) by (intros v Hv; apply H; eapply Permutation_in; [apply Permutation_sym; exact P|exact Hv]).
  destruct l as [|a l].
  - apply Permutation_nil in P. subst. auto.
  - destruct l' as [|b l']; [apply Permutation_sym, Permutation_nil in P; discriminate|]. cbn [fminl fmaxl].
    destruct (fold_min l a) as [A1 A2]; [apply H; left; reflexivity|intros; apply H; right; assumption|].
    destruct (fold_min l' b) as [B1 B2]; [apply H'; left; reflexivity|intros; apply H'; right; assumption|].
    destruct (fold_max l a) as [C1 C2]; [apply H; left; reflexivity|intros; apply H; right; assumption|].
    destruct (fold_max l' b) as [D1 D2]; [apply H'; left; reflexivity|intros; apply H'; right; assumption|].
    split; apply below_antisym; try (apply H; assumption); try (apply H'; assumption).
    + apply B2. eapply Permutation_in; eassumption.
    + apply A2. eapply Permutation_in; [apply Permutation_sym; exact P|assumption].
    + apply C2. eapply Permutation_in; [apply Permutation_sym; exact P|assumption].
    + apply D2. eapply Permutation_in; eassumption.
Qed.
Lemma bin_edges_perm : forall npq arr arr' n q, order_free npq -> Permutation arr arr' -> (forall v, In v arr -> fisnan v = false -> kf_ok v = true) -> bin_edges npq arr n q = bin_edges npq arr' n q.
Proof.
  intros npq arr arr' n q OF P H. unfold bin_edges.
  assert (P' : Permutation (filter (fun v => negb (fisnan v)) arr) (filter (fun v => negb (fisnan v)) arr')) by (apply OverviewProofs.perm_filter; exact P).
  assert (K : forall v, In v (filter (fun v => negb (fisnan v)) arr) -> kf_ok v = true) by (intros v Hv; apply filter_In in Hv; destruct Hv as [A B]; apply H; [exact A|apply negb_true_iff; exact B]).
  destruct q; [rewrite (OF _ _ n P' K); reflexivity|]. destruct (fminl_perm _ _ P' K) as [-> ->]. reflexivity.
Qed.

(** * picking records *)
Definition pick {A} (d : A) (l : list nat) (xs : list A) : list A := map (fun i => nth i xs d) l.
Lemma pick_perm : forall A (d : A) l xs, Permutation l (seq 0 (length xs)) -> Permutation (pick d l xs) xs.
Proof.
  intros A d l xs P. unfold pick. apply Permutation_trans with (map (fun i => nth i xs d) (seq 0 (length xs))); [apply Permutation_map; exact P|].
  replace (map (fun i => nth i xs d) (seq 0 (length xs))) with xs; [apply Permutation_refl|]. apply nth_ext with (d := d) (d' := d); [rewrite map_length, seq_length; reflexivity|].
  intros i Hi. rewrite (nth_indep (map _ _) d (nth 0 xs d)) by (rewrite map_length, seq_length; exact Hi). rewrite (map_nth (fun i => nth i xs d)), seq_nth by exact Hi. reflexivity.
Qed.
Lemma pick_map : forall A B (g : A -> B) d l xs, pick (g d) l (map g xs) = map g (pick d l xs).
Proof. intros. unfold pick. rewrite map_map. apply map_ext. intros i. apply map_nth. Qed.
Lemma pick_map_in : forall A B (g : A -> B) d d' l xs, (forall i, In i l -> (i < length xs)%nat) -> pick d' l (map g xs) = map g (pick d l xs).
Proof. intros. unfold pick. rewrite map_map. apply map_ext_in. intros i Hi. rewrite (nth_indep _ d' (g d)) by (rewrite map_length; auto). apply map_nth. Qed.
Lemma pick_combine : forall A B (d : A) (d' : B) l xs ys, length xs = length ys -> combine (pick d l xs) (pick d' l ys) = pick (d, d') l (combine xs ys).
Proof. intros A B d d' l xs ys H. unfold pick. induction l as [|i l IH]; [reflexivity|]. cbn [map combine]. rewrite IH. f_equal. symmetry. apply combine_nth. exact H. Qed.

Lemma to_float_raise : forall l, is_ok (mapM to_float l) = true \/ mapM to_float l = Raise ValueError.
Proof.
  induction l as [|c l IH]; [left; reflexivity|]. simpl. destruct c as [|z|k|s]; cbn [to_float rbind]; try (right; reflexivity);
    (destruct IH as [IH|IH]; [left; destruct (mapM to_float l); [reflexivity|discriminate]|right; rewrite IH; reflexivity]).
Qed.
Lemma mapM_length : forall A B (f : A -> res B) l bs, mapM f l = Ok bs -> length bs = length l.
Proof. intros A B f l bs H. apply Base.mapM_ok in H. induction H; simpl; congruence. Qed.
Lemma mapM_nth : forall A B (f : A -> res B) l bs d d' i, mapM f l = Ok bs -> (i < length l)%nat -> f (nth i l d) = Ok (nth i bs d').
Proof.
  induction l as [|a l IH]; intros bs d d' i H Hi; [simpl in Hi; lia|]. simpl in H. destruct (f a) as [b|] eqn:E; [cbn [rbind] in H|discriminate].
  destruct (mapM f l) as [bs'|] eqn:E2; [cbn [rbind] in H|discriminate]. injection H as <-. destruct i; [exact E|]. simpl. apply IH; [reflexivity|simpl in Hi; lia].
Qed.
Lemma mapM_pick : forall l cells n, length cells = n -> (forall i, (i < n)%nat <-> In i l) ->
  mapM to_float (pick CNaN l cells) = rmap (pick fnan l) (mapM to_float cells).
Proof.
  intros l cells n Hn Hl. destruct (mapM to_float cells) as [arr|e] eqn:E; cbn [rmap].
  - unfold pick. rewrite mapM_map_in. apply mapM_all_ok. intros i Hi. apply mapM_nth; [exact E|]. apply Hl in Hi. lia.
  - destruct (to_float_raise cells) as [H|H]; [rewrite E in H; discriminate|]. assert (e = ValueError) by congruence. subst e.
    destruct (to_float_raise (pick CNaN l cells)) as [H2|H2]; [|exact H2]. exfalso.
    apply mapM_raise in E. destruct E as (c & Hc & E). assert (In c (pick CNaN l cells)).
    { apply (In_nth _ _ CNaN) in Hc. destruct Hc as (i & Hi & <-). unfold pick. apply in_map_iff. exists i. split; [reflexivity|]. apply Hl. lia. }
    destruct (mapM to_float (pick CNaN l cells)) as [bs|] eqn:E2; [|discriminate]. apply Base.mapM_ok in E2. clear -E H0 E2.
    induction E2 as [|x y xs ys Hxy _ IH]; [contradiction|]. destruct H0 as [->|H0]; [congruence|auto].
Qed.
Lemma bin_array_pick : forall l arr edges, Permutation l (seq 0 (length arr)) -> bin_array (pick fnan l arr) edges = (pick CNaN l (fst (bin_array arr edges)), snd (bin_array arr edges)).
Proof.
  intros l arr edges P. apply injective_projections; cbn [fst snd].
  - rewrite !bin_array_fst. symmetry. apply pick_map_in. intros i Hi. apply (Permutation_in _ P) in Hi. apply in_seq in Hi. lia.
  - unfold bin_array. cbn [snd]. f_equal. apply filter_ext. intros i. apply eq_true_iff_eq. rewrite !existsb_exists. pose proof (pick_perm _ fnan l arr P) as Q.
    split; intros (j & Hj & E); exists j; (split; [|exact E]); apply in_map_iff in Hj; destruct Hj as (v & <- & Hv); apply in_map; eapply Permutation_in; try eassumption; apply Permutation_sym; exact Q.
Qed.

(** * reordering *)
Section Reorder.
  Variable npq : list f64 -> Z -> list f64.
  Hypothesis OF : order_free npq.
  Variables (n : nat) (l : list nat).
  Hypothesis P : Permutation l (seq 0 n).
  Definition rcol (c : col) : col := mkCol (c_num c) (pick CNaN l (c_cells c)).
  Lemma reorder_map : forall f, reorder l f = map (fun p => (fst p, rcol (snd p))) f. Proof. reflexivity. Qed.
  Lemma keys_reorder : forall f, keys (reorder l f) = keys f. Proof. intros. unfold reorder, keys. rewrite map_map. reflexivity. Qed.
  Lemma assoc_reorder : forall c f, assoc c (reorder l f) = option_map rcol (assoc c f).
  Proof. induction f as [|[k x] f IH]; [reflexivity|]. cbn [reorder map assoc fst snd]. destruct (String.eqb c k); [reflexivity|exact IH]. Qed.
  Lemma set_reorder : forall c x f, set_assoc c (rcol x) (reorder l f) = reorder l (set_assoc c x f).
  Proof. intros c x f. rewrite !reorder_map. induction f as [|[k y] f IH]; [reflexivity|]. cbn [map set_assoc fst snd]. destruct (String.eqb c k); [reflexivity|]. cbn [map]. rewrite <- IH. reflexivity. Qed.
  Lemma rect_assoc : forall f c x, rectangular n f -> assoc c f = Some x -> length (c_cells x) = n.
  Proof. intros f c x R H. apply assoc_In in H. exact (R _ H). Qed.
  Lemma in_l : forall i, (i < n)%nat <-> In i l.
  Proof. intros i. split; intros H; [eapply Permutation_in; [apply Permutation_sym; exact P|apply in_seq; lia]|apply (Permutation_in _ P) in H; apply in_seq in H; lia]. Qed.

  Lemma bin_cols_reorder : forall data bins q cols xb acc dict, rectangular n data ->
    bin_cols npq (reorder l data) cols bins q xb (reorder l acc) dict = rmap (fun r => (reorder l (fst r), snd r)) (bin_cols npq data cols bins q xb acc dict).
  Proof.
    intros data bins q cols. induction cols as [|c cols IH]; intros xb acc dict R; [reflexivity|].
    cbn [bin_cols]. rewrite assoc_reorder. destruct (assoc c data) as [column|] eqn:E1; [|reflexivity]. cbn [option_map]. pose proof (rect_assoc _ _ _ R E1) as LC.
    cbn [rcol c_cells]. rewrite (mapM_pick l _ n LC in_l). destruct (mapM to_float (c_cells column)) as [arr|e] eqn:E2; [|reflexivity]. cbn [rmap rbind].
    assert (LA : length arr = n) by (rewrite <- LC; apply (mapM_length _ _ _ _ _ E2)).
    assert (PA : Permutation l (seq 0 (length arr))) by (rewrite LA; exact P).
    assert (BE : forall k, bin_edges npq (pick fnan l arr) k q = bin_edges npq arr k q).
    { intros k. symmetry. apply bin_edges_perm; [exact OF|apply Permutation_sym, pick_perm; exact PA|]. intros v Hv. apply Base.mapM_ok in E2. clear -E2 Hv.
      induction E2 as [|x y xs ys Hxy _ IH]; [contradiction|]. destruct Hv as [->|Hv]; [apply (to_float_kf x); exact Hxy|auto]. }
    assert (ST : forall xb', match xb' with None => Raise UnboundLocalError | Some edges => let (b, labels) := bin_array (pick fnan l arr) edges in bin_cols npq (reorder l data) cols bins q (Some edges) (set_assoc c (mkCol false b) (reorder l acc)) (dict_set c labels dict) end =
      rmap (fun r => (reorder l (fst r), snd r)) match xb' with None => Raise UnboundLocalError | Some edges => let (b, labels) := bin_array arr edges in bin_cols npq data cols bins q (Some edges) (set_assoc c (mkCol false b) acc) (dict_set c labels dict) end).
    { intros [edges|]; [|reflexivity]. rewrite bin_array_pick by exact PA. destruct (bin_array arr edges) as [b labels]. cbn [fst snd].
      change (mkCol false (pick CNaN l b)) with (rcol (mkCol false b)). rewrite set_reorder. apply IH. exact R. }
    destruct bins as [[k|e|]|d].
    - rewrite BE. destruct (bin_edges npq arr k q) as [edges|]; [|reflexivity]. cbn [rmap rbind]. apply (ST (Some edges)).
    - cbn [rbind]. destruct xb as [edges|]; [apply (ST (Some edges))|reflexivity].
    - cbn [rbind]. destruct xb as [edges|]; [apply (ST (Some edges))|reflexivity].
    - destruct (assoc c d) as [[k|e|]|]; [| | |reflexivity].
      + rewrite BE. destruct (bin_edges npq arr k q) as [edges|]; [|reflexivity]. cbn [rmap rbind]. apply (ST (Some edges)).
      + cbn [rbind]. apply (ST (Some e)).
      + cbn [rbind]. destruct xb as [edges|]; [apply (ST (Some edges))|reflexivity].
  Qed.
  Lemma bin_data_reorder : forall data cols bins q, rectangular n data ->
    bin_data npq (reorder l data) cols bins q = rmap (fun r => (reorder l (fst r), snd r)) (bin_data npq data cols bins q).
  Proof.
    intros data cols bins q R. unfold bin_data. destruct bins as [[k|e|]|d]; try (apply bin_cols_reorder; exact R). destruct (forallb _ _); [apply bin_cols_reorder; exact R|reflexivity].
  Qed.
  Lemma nunique_reorder : forall c, length (c_cells c) = n -> nunique (rcol c) = nunique c.
  Proof.
    intros c H. unfold nunique. f_equal. apply ssorted_ext; try apply dsort_sorted. intros x. rewrite !dsort_In, !filter_In. cbn [rcol c_cells].
    assert (Q : Permutation (pick CNaN l (c_cells c)) (c_cells c)) by (apply pick_perm; rewrite H; exact P).
    split; intros [A B]; (split; [|exact B]); eapply Permutation_in; try eassumption; apply Permutation_sym; exact Q.
  Qed.
  Lemma guess_reorder : forall f, guess_interval_cols (reorder l f) = guess_interval_cols f.
  Proof. intros f. unfold guess_interval_cols. rewrite reorder_map. induction f as [|[k x] f IH]; [reflexivity|]. cbn [map filter fst snd rcol c_num]. destruct (c_num x); cbn [map fst]; rewrite IH; reflexivity. Qed.
  Lemma filter_reorder : forall (p : string -> bool) f, filter (fun x => p (fst x)) (reorder l f) = reorder l (filter (fun x => p (fst x)) f).
  Proof. intros p f. rewrite !reorder_map. induction f as [|[k x] f IH]; [reflexivity|]. cbn [map filter fst]. destruct (p k); cbn [map]; rewrite <- IH; reflexivity. Qed.
  Lemma dq_reorder : forall df ic d, rectangular n df -> dq_check_nunique_values (reorder l df) ic d = (reorder l (fst (dq_check_nunique_values df ic d)), snd (dq_check_nunique_values df ic d)).
  Proof.
    intros df ic d R. unfold dq_check_nunique_values. rewrite keys_reorder.
    assert (NU : forall c, match assoc c (reorder l df) with Some x => nunique x | None => 0%nat end = match assoc c df with Some x => nunique x | None => 0%nat end).
    { intros c. rewrite assoc_reorder. destruct (assoc c df) eqn:E; [|reflexivity]. cbn [option_map]. apply nunique_reorder. eapply rect_assoc; eassumption. }
    cbn zeta. set (ic' := filter (fun c => mem c (keys df)) ic).
    rewrite (filter_ext (fun c => Nat.ltb (match assoc c (reorder l df) with Some x => nunique x | None => 0%nat end) 2) (fun c => Nat.ltb (match assoc c df with Some x => nunique x | None => 0%nat end) 2)) by (intros c; rewrite NU; reflexivity).
    rewrite (filter_ext (fun c => Nat.eqb (match assoc c (reorder l df) with Some x => nunique x | None => 0%nat end) 0 || (Nat.eqb (match assoc c (reorder l df) with Some x => nunique x | None => 0%nat end) 1 && d)) (fun c => Nat.eqb (match assoc c df with Some x => nunique x | None => 0%nat end) 0 || (Nat.eqb (match assoc c df with Some x => nunique x | None => 0%nat end) 1 && d))) by (intros c; rewrite NU; reflexivity).
    destruct (_ ++ _) as [|x xs]; [reflexivity|]. cbn [fst snd]. f_equal. apply (filter_reorder (fun k => negb (mem k (x :: xs)))).
  Qed.
  Lemma rect_filter : forall f (p : string * col -> bool), rectangular n f -> rectangular n (filter p f).
  Proof. intros f p R x H. apply filter_In in H. apply R. tauto. Qed.
  Lemma rect_dq : forall df ic d, rectangular n df -> rectangular n (fst (dq_check_nunique_values df ic d)).
  Proof. intros df ic d R. unfold dq_check_nunique_values. cbn zeta. destruct (_ ++ _); [exact R|]. apply rect_filter. exact R. Qed.
End Reorder.

Lemma rect_set : forall n f c x, rectangular n f -> length (c_cells x) = n -> rectangular n (set_assoc c x f).
Proof.
  intros n f c x R H. induction f as [|[k y] f IH]; [intros p []|]. cbn [set_assoc]. destruct (String.eqb c k).
  - intros p [<-|Hp]; [exact H|]. apply R. right. exact Hp.
  - intros p [<-|Hp]; [apply R; left; reflexivity|]. apply IH; [|exact Hp]. intros q Hq. apply R. right. exact Hq.
Qed.
Lemma bin_cols_rect : forall npq n data bins q cols xb acc dict out dict', rectangular n data -> rectangular n acc -> bin_cols npq data cols bins q xb acc dict = Ok (out, dict') -> rectangular n out.
Proof.
  intros npq n data bins q cols. induction cols as [|c cols IH]; intros xb acc dict out dict' R RA H; [inversion H; subst; exact RA|].
  destruct (bin_cols_step npq data bins q c cols xb acc dict) as [S1 S2]. destruct (turn_dec npq data bins q xb c) as [(arr & edges & HT)|HT].
  - rewrite (S1 _ _ HT) in H. eapply IH; [exact R| |exact H]. apply rect_set; [exact RA|]. cbn [c_cells]. rewrite bin_array_fst, map_length. destruct HT as (column & A & B & _). rewrite (mapM_length _ _ _ _ _ B). apply assoc_In in A. exact (R _ A).
  - apply S2 in HT. rewrite H in HT. discriminate.
Qed.
Lemma bin_data_rect : forall npq n data bins q cols out dict, rectangular n data -> bin_data npq data cols bins q = Ok (out, dict) -> rectangular n out.
Proof. intros npq n data bins q cols out dict R H. unfold bin_data in H. destruct bins as [[k|e|]|d]; try (eapply bin_cols_rect; [| |exact H]; assumption). destruct (forallb _ _); [|discriminate]. eapply bin_cols_rect; [| |exact H]; assumption. Qed.

(** * renaming *)
Section Rename.
  Variable npq : list f64 -> Z -> list f64.
  Variables (c : string) (g : cell -> cell).
  Definition gcol (k : string) (x : col) : col := if String.eqb k c then mkCol (c_num x) (map g (c_cells x)) else x.
  Lemma rename_map : forall f, rename c g f = map (fun p => (fst p, gcol (fst p) (snd p))) f.
  Proof. intros f. unfold rename, gcol. apply map_ext. intros [k x]. cbn. destruct (String.eqb k c); reflexivity. Qed.
  Lemma keys_rename : forall f, keys (rename c g f) = keys f. Proof. intros. rewrite rename_map. unfold keys. rewrite map_map. reflexivity. Qed.
  Lemma assoc_rename : forall k f, assoc k (rename c g f) = option_map (gcol k) (assoc k f).
  Proof. intros k f. rewrite rename_map. induction f as [|[k' x] f IH]; [reflexivity|]. cbn [map assoc fst snd]. destruct (String.eqb_spec k k'); [subst; reflexivity|exact IH]. Qed.
  Lemma set_rename : forall k x f, k <> c -> set_assoc k x (rename c g f) = rename c g (set_assoc k x f).
  Proof.
    intros k x f H. rewrite !rename_map. induction f as [|[k' y] f IH]; [reflexivity|]. cbn [map set_assoc fst snd]. destruct (String.eqb_spec k k').
    - subst. cbn [map fst snd]. unfold gcol at 2. rewrite (proj2 (String.eqb_neq _ _) H). reflexivity.
    - cbn [map]. rewrite IH. reflexivity.
  Qed.
  Lemma bin_cols_rename : forall data bins q cols xb acc dict, ~ In c cols ->
    bin_cols npq (rename c g data) cols bins q xb (rename c g acc) dict = rmap (fun r => (rename c g (fst r), snd r)) (bin_cols npq data cols bins q xb acc dict).
  Proof.
    intros data bins q cols. induction cols as [|k cols IH]; intros xb acc dict H; [reflexivity|].
    assert (Hk : k <> c) by (intros ->; apply H; left; reflexivity). assert (Hc : ~ In c cols) by (intros X; apply H; right; exact X).
    cbn [bin_cols]. rewrite assoc_rename. destruct (assoc k data) as [column|]; [|reflexivity]. cbn [option_map]. unfold gcol. rewrite (proj2 (String.eqb_neq _ _) Hk).
    destruct (mapM to_float (c_cells column)) as [arr|e]; [|reflexivity]. cbn [rbind].
    match goal with |- rbind ?m _ = _ => destruct m as [[edges|]|] end; cbn [rbind]; try reflexivity. destruct (bin_array arr edges) as [b labels]. rewrite set_rename by exact Hk. apply IH. exact Hc.
  Qed.
  Lemma bin_data_rename : forall data cols bins q, ~ In c cols ->
    bin_data npq (rename c g data) cols bins q = rmap (fun r => (rename c g (fst r), snd r)) (bin_data npq data cols bins q).
  Proof. intros data cols bins q H. unfold bin_data. destruct bins as [[k|e|]|d]; try (apply bin_cols_rename; exact H). destruct (forallb _ _); [apply bin_cols_rename; exact H|reflexivity]. Qed.
  Lemma guess_rename : forall f, guess_interval_cols (rename c g f) = guess_interval_cols f.
  Proof. intros f. unfold guess_interval_cols. rewrite rename_map. induction f as [|[k x] f IH]; [reflexivity|]. cbn [map filter fst snd].
    assert (E : c_num (gcol k x) = c_num x) by (unfold gcol; destruct (String.eqb k c); reflexivity). rewrite E. destruct (c_num x); cbn [map fst]; rewrite IH; reflexivity. Qed.
  Lemma nunique_rename : forall x, good_renaming g (c_cells x) -> nunique (mkCol (c_num x) (map g (c_cells x))) = nunique x.
  Proof.
    intros x (G1 & G2 & G3). apply (distinct_values_fun (mkCol (c_num x) (map g (c_cells x)))); [apply nunique_spec|]. destruct (nunique_spec x) as (ls & N & LN & S).
    assert (MK : forall v, In v (c_cells x) -> (g v = CNaN <-> v = CNaN)).
    { intros v Hv. split; intros E; [|rewrite E in *; apply G2; [exact Hv|left; reflexivity]]. destruct (cell_eq_dec v CNaN) as [|NE]; [assumption|].
      assert (NM : ~ is_marker v). { intros M. rewrite (G2 v Hv M) in E. contradiction. } exfalso. apply (G3 v Hv NM). left. exact E. }
    exists (map g ls). split; [|split].
    - assert (INJ : forall a b, In a ls -> In b ls -> g a = g b -> a = b) by (intros a b Ha Hb; apply G1; [apply S, Ha|apply S, Hb]). clear -N INJ.
      induction N as [|a l Ha N IH]; cbn [map]; constructor; [|apply IH; intros; apply INJ; try (right; assumption); assumption].
      intros H. apply in_map_iff in H. destruct H as (b & E & Hb). assert (b = a) by (apply INJ; [right; exact Hb|left; reflexivity|exact E]). congruence.
    - rewrite map_length. exact LN.
    - intros y. cbn [c_cells]. split.
      + intros H. apply in_map_iff in H. destruct H as (v & <- & Hv). apply S in Hv. split; [apply in_map; tauto|]. intros E. destruct Hv as [Hv NN]. apply NN. apply (proj1 (MK v Hv)). exact E.
      + intros [H NE]. apply in_map_iff in H. destruct H as (v & <- & Hv). apply in_map. apply S. split; [exact Hv|]. intros E. apply NE. apply MK; assumption.
  Qed.
  Lemma filter_rename : forall (p : string -> bool) f, filter (fun x => p (fst x)) (rename c g f) = rename c g (filter (fun x => p (fst x)) f).
  Proof. intros p f. rewrite !rename_map. induction f as [|[k x] f IH]; [reflexivity|]. cbn [map filter fst]. destruct (p k); cbn [map]; rewrite IH; reflexivity. Qed.
  Lemma dq_rename : forall df ic d, (forall x, assoc c df = Some x -> good_renaming g (c_cells x)) ->
    dq_check_nunique_values (rename c g df) ic d = (rename c g (fst (dq_check_nunique_values df ic d)), snd (dq_check_nunique_values df ic d)).
  Proof.
    intros df ic d G. unfold dq_check_nunique_values. rewrite keys_rename.
    assert (NU : forall k, match assoc k (rename c g df) with Some x => nunique x | None => 0%nat end = match assoc k df with Some x => nunique x | None => 0%nat end).
    { intros k. rewrite assoc_rename. destruct (assoc k df) eqn:E; [|reflexivity]. cbn [option_map]. unfold gcol. destruct (String.eqb_spec k c) as [->|]; [|reflexivity]. apply nunique_rename. apply G. exact E. }
    cbn zeta. set (ic' := filter (fun c => mem c (keys df)) ic).
    rewrite (filter_ext (fun c0 => Nat.ltb (match assoc c0 (rename c g df) with Some x => nunique x | None => 0%nat end) 2) (fun c => Nat.ltb (match assoc c df with Some x => nunique x | None => 0%nat end) 2)) by (intros k; rewrite NU; reflexivity).
    rewrite (filter_ext (fun c0 => Nat.eqb (match assoc c0 (rename c g df) with Some x => nunique x | None => 0%nat end) 0 || (Nat.eqb (match assoc c0 (rename c g df) with Some x => nunique x | None => 0%nat end) 1 && d)) (fun c => Nat.eqb (match assoc c df with Some x => nunique x | None => 0%nat end) 0 || (Nat.eqb (match assoc c df with Some x => nunique x | None => 0%nat end) 1 && d))) by (intros k; rewrite NU; reflexivity).
    destruct (_ ++ _) as [|x xs]; [reflexivity|]. cbn [fst snd]. f_equal. apply (filter_rename (fun k => negb (mem k (x :: xs)))).
  Qed.
End Rename.
