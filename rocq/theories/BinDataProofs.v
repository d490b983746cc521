(** Proofs about bin_data (C06, C07). *)
From Coq Require Import String ZArith List Bool Lia.
Import ListNotations.
From Verif Require Import F64 Base Cells BinModel SpecBin BinProofs.
Open Scope list_scope.

Lemma assoc_app_last : forall B k (b : B) l c, assoc k l = None -> assoc c (l ++ [(k, b)]) = if String.eqb c k then Some b else assoc c l.
Proof.
  induction l as [|[k' b'] l IH]; intros c H; [reflexivity|]. simpl in *.
  destruct (String.eqb_spec k k'); [discriminate|]. destruct (String.eqb_spec c k').
  - subst. destruct (String.eqb_spec k' k); [congruence|reflexivity].
  - apply IH; exact H.
Qed.
Lemma assoc_dict_set : forall B k (b : B) l c, assoc c (dict_set k b l) = if String.eqb c k then Some b else assoc c l.
Proof.
  intros B k b l c. unfold dict_set. destruct (assoc k l) eqn:E.
  - destruct (String.eqb_spec c k) as [->|Hne].
    + apply assoc_set_same. destruct (in_dec string_dec k (keys l)) as [H|H]; [exact H|]. apply assoc_None in H. congruence.
    + apply assoc_set_other; exact Hne.
  - apply assoc_app_last. exact E.
Qed.

Section BD.
Variable npq : list f64 -> Z -> list f64.

(** one turn of the loop *)
Definition turn (data : frame) (bins : bins_arg) (q : bool) (xb : option (list f64)) (c : string) (arr edges : list f64) : Prop :=
  exists column, assoc c data = Some column /\ mapM to_float (c_cells column) = Ok arr /\
  match spec_of bins c with
  | Some (BNum n) => bin_edges npq arr n q = Ok edges
  | Some (BEdges l) => match bins with BOne _ => xb = Some edges | BDict _ => edges = l end
  | Some BOther => xb = Some edges
  | None => False
  end.

Lemma bin_cols_step : forall data bins q c cols xb acc dict,
  (forall arr edges, turn data bins q xb c arr edges ->
     bin_cols npq data (c :: cols) bins q xb acc dict =
     bin_cols npq data cols bins q (Some edges) (set_assoc c (mkCol false (fst (bin_array arr edges))) acc)
        (dict_set c (snd (bin_array arr edges)) dict)) /\
  ((forall arr edges, ~ turn data bins q xb c arr edges) -> is_ok (bin_cols npq data (c :: cols) bins q xb acc dict) = false).
Proof.
  intros data bins q c cols xb acc dict. split.
  - intros arr edges (column & H1 & H2 & H3). cbn [bin_cols]. rewrite H1, H2. cbn [rbind].
    unfold spec_of in H3. destruct bins as [[n|l|]|d].
    + rewrite H3. cbn [rmap rbind]. destruct (bin_array arr edges); reflexivity.
    + cbn [rbind]. rewrite H3. destruct (bin_array arr edges); reflexivity.
    + cbn [rbind]. rewrite H3. destruct (bin_array arr edges); reflexivity.
    + destruct (assoc c d) as [[n|l|]|]; [| | |contradiction].
      * rewrite H3. cbn [rmap rbind]. destruct (bin_array arr edges); reflexivity.
      * subst l. cbn [rbind]. destruct (bin_array arr edges); reflexivity.
      * cbn [rbind]. rewrite H3. destruct (bin_array arr edges); reflexivity.
  - intros H. cbn [bin_cols]. destruct (assoc c data) as [column|] eqn:E1; [|reflexivity].
    destruct (mapM to_float (c_cells column)) as [arr|] eqn:E2; cbn [rbind]; [|reflexivity].
    assert (HT : forall edges, match spec_of bins c with
        | Some (BNum n) => bin_edges npq arr n q = Ok edges
        | Some (BEdges l) => match bins with BOne _ => xb = Some edges | BDict _ => edges = l end
        | Some BOther => xb = Some edges
        | None => False end -> False).
    { intros edges Hx. apply (H arr edges). exists column. auto. }
    clear H. unfold spec_of in HT.
    destruct bins as [[n|l|]|d].
    + destruct (bin_edges npq arr n q) as [e|]; [exfalso; apply (HT e); reflexivity|reflexivity].
    + cbn [rbind]. destruct xb as [e|]; [exfalso; apply (HT e); reflexivity|reflexivity].
    + cbn [rbind]. destruct xb as [e|]; [exfalso; apply (HT e); reflexivity|reflexivity].
    + destruct (assoc c d) as [[n|l|]|]; [| | |reflexivity].
      * destruct (bin_edges npq arr n q) as [e|]; [exfalso; apply (HT e); reflexivity|reflexivity].
      * exfalso. apply (HT l). reflexivity.
      * cbn [rbind]. destruct xb as [e|]; [exfalso; apply (HT e); reflexivity|reflexivity].
Qed.

Lemma turn_dec : forall data bins q xb c, (exists arr edges, turn data bins q xb c arr edges) \/ (forall arr edges, ~ turn data bins q xb c arr edges).
Proof.
  intros data bins q xb c. unfold turn. destruct (assoc c data) as [column|]; [|right; intros arr edges (col & H & _); discriminate].
  destruct (mapM to_float (c_cells column)) as [arr|] eqn:E; [|right; intros arr edges (col & H & H2 & _); congruence].
  assert (HD : forall P : list f64 -> Prop, (exists e, P e) \/ (forall e, ~ P e) ->
     (exists arr0 edges, exists column0, Some column = Some column0 /\ mapM to_float (c_cells column0) = Ok arr0 /\ P edges) \/
     (forall arr0 edges, ~ exists column0, Some column = Some column0 /\ mapM to_float (c_cells column0) = Ok arr0 /\ P edges)).
  { intros P [[e He]|He]; [left; exists arr, e, column; auto|right; intros a e (x & _ & _ & Hx); exact (He e Hx)]. }
  unfold spec_of. destruct bins as [[n|l|]|d].
  - destruct (bin_edges npq arr n q) as [e|] eqn:Ee.
    + left. exists arr, e, column. auto.
    + right. intros a0 e0 (x & H1 & H2 & H3). congruence.
  - apply HD. destruct xb as [e|]; [left; exists e; reflexivity|right; discriminate].
  - apply HD. destruct xb as [e|]; [left; exists e; reflexivity|right; discriminate].
  - destruct (assoc c d) as [[n|l|]|].
    + destruct (bin_edges npq arr n q) as [e|] eqn:Ee.
      * left. exists arr, e, column. auto.
      * right. intros a0 e0 (x & H1 & H2 & H3). congruence.
    + apply HD. left. exists l. reflexivity.
    + apply HD. destruct xb as [e|]; [left; exists e; reflexivity|right; discriminate].
    + apply HD. right. auto.
Qed.

(** the list variant of bins keeps its edges in [xbins] throughout *)
Definition xb_ok (bins : bins_arg) (xb : option (list f64)) : Prop :=
  match bins with BOne (BEdges l) => xb = Some l | _ => True end.

Lemma turn_xb_ok : forall data bins q xb c arr edges, xb_ok bins xb -> turn data bins q xb c arr edges -> xb_ok bins (Some edges).
Proof.
  intros data [[n|l|]|d] q xb c arr edges H (column & _ & _ & H3); simpl in *; try exact I. congruence.
Qed.

Lemma turn_asks : forall data bins q xb c arr edges, xb_ok bins xb -> turn data bins q xb c arr edges -> supported (spec_of bins c) ->
  exists column, assoc c data = Some column /\ mapM to_float (c_cells column) = Ok arr /\ asks_for npq bins q c arr edges.
Proof.
  intros data bins q xb c arr edges Hx (column & H1 & H2 & H3) Hs. exists column. repeat split; try assumption.
  unfold asks_for. destruct (spec_of bins c) as [[n|l|]|] eqn:E; try contradiction; [exact H3|].
  destruct bins as [b|d]; [|exact H3]. unfold spec_of in E. inversion E; subst b. simpl in Hx. congruence.
Qed.

Lemma asks_turn : forall data bins q xb c column arr edges, xb_ok bins xb -> assoc c data = Some column ->
  mapM to_float (c_cells column) = Ok arr -> asks_for npq bins q c arr edges -> turn data bins q xb c arr edges.
Proof.
  intros data bins q xb c column arr edges Hx H1 H2 H3. exists column. repeat split; try assumption.
  unfold asks_for in H3. destruct (spec_of bins c) as [[n|l|]|] eqn:E; try contradiction; [exact H3|].
  destruct bins as [b|d]; [|exact H3]. unfold spec_of in E. inversion E; subst b. simpl in Hx. congruence.
Qed.

Lemma bin_cols_frame : forall data bins q cols xb acc dict out dict',
  bin_cols npq data cols bins q xb acc dict = Ok (out, dict') ->
  keys out = keys acc /\ forall c, ~ In c cols -> assoc c out = assoc c acc /\ assoc c dict' = assoc c dict.
Proof.
  intros data bins q. induction cols as [|c0 cols IH]; intros xb acc dict out dict' H.
  - inversion H; subst. auto.
  - destruct (bin_cols_step data bins q c0 cols xb acc dict) as [S1 S2].
    destruct (turn_dec data bins q xb c0) as [(arr & edges & HT)|HT].
    + rewrite (S1 _ _ HT) in H. apply IH in H. destruct H as [K F]. rewrite keys_set_assoc in K. split; [exact K|].
      intros c Hc. simpl in Hc. destruct (F c ltac:(tauto)) as [F1 F2]. rewrite F1, F2.
      rewrite assoc_set_other by intuition congruence. rewrite assoc_dict_set.
      destruct (String.eqb_spec c c0); [exfalso; intuition congruence|auto].
    + apply S2 in HT. rewrite H in HT. discriminate.
Qed.

Lemma bin_cols_cols : forall data bins q cols xb acc dict out dict',
  bin_cols npq data cols bins q xb acc dict = Ok (out, dict') -> keys acc = keys data -> xb_ok bins xb ->
  forall c, In c cols -> supported (spec_of bins c) ->
  exists column arr edges, assoc c data = Some column /\ mapM to_float (c_cells column) = Ok arr /\ asks_for npq bins q c arr edges /\
    assoc c out = Some (mkCol false (fst (bin_array arr edges))) /\ assoc c dict' = Some (snd (bin_array arr edges)).
Proof.
  intros data bins q. induction cols as [|c0 cols IH]; intros xb acc dict out dict' H Hk Hx c Hc Hs; [contradiction|].
  destruct (bin_cols_step data bins q c0 cols xb acc dict) as [S1 S2].
  destruct (turn_dec data bins q xb c0) as [(arr & edges & HT)|HT]; [|apply S2 in HT; rewrite H in HT; discriminate].
  rewrite (S1 _ _ HT) in H.
  destruct (in_dec string_dec c cols) as [Hin|Hin].
  - eapply IH; [exact H|rewrite keys_set_assoc; exact Hk|eapply turn_xb_ok; eassumption|exact Hin|exact Hs].
  - destruct Hc as [->|Hc]; [|contradiction].
    apply bin_cols_frame in H. destruct H as [_ F]. destruct (F c Hin) as [F1 F2].
    destruct (turn_asks _ _ _ _ _ _ _ Hx HT Hs) as (column & A1 & A2 & A3).
    exists column, arr, edges. repeat split; try assumption.
    + rewrite F1. apply assoc_set_same. rewrite Hk.
      destruct (in_dec string_dec c (keys data)) as [Hi|Hi]; [exact Hi|]. apply assoc_None in Hi. congruence.
    + rewrite F2, assoc_dict_set, String.eqb_refl. reflexivity.
Qed.

Lemma bin_data_bin_cols : forall data cols bins q, 
  match bins with BDict d => forallb (fun c => mem c (keys d)) cols = true | _ => True end ->
  exists xb, xb_ok bins xb /\ (match bins with BOne (BEdges _) => True | _ => xb = None end) /\ bin_data npq data cols bins q = bin_cols npq data cols bins q xb data [].
Proof.
  intros data cols bins q H. unfold bin_data. destruct bins as [[n|l|]|d].
  - exists None. auto. - exists (Some l). simpl. auto. - exists None. auto.
  - rewrite H. exists None. simpl. auto.
Qed.

Lemma dict_check : forall d cols, forallb (fun c => mem c (keys d)) cols = false <-> exists c, In c cols /\ @assoc bspec c d = None.
Proof.
  intros d cols. split.
  - intros H. induction cols as [|c cols IH]; [discriminate|]. simpl in H. apply andb_false_iff in H. destruct H as [H|H].
    + exists c. split; [left; reflexivity|]. apply assoc_None, mem_false. exact H.
    + destruct (IH H) as (x & Hx & E). exists x. split; [right; exact Hx|exact E].
  - intros (c & Hc & E). destruct (forallb _ cols) eqn:F; [|reflexivity].
    rewrite forallb_forall in F. specialize (F c Hc). apply mem_In in F. apply assoc_None in E. contradiction.
Qed.

Lemma bin_data_spec : forall data cols bins q out dict,
  bin_data npq data cols bins q = Ok (out, dict) ->
  keys out = keys data /\ (forall c, ~ In c cols -> assoc c out = assoc c data) /\
  (forall c, In c cols -> supported (spec_of bins c) ->
   exists column arr edges, assoc c data = Some column /\ mapM to_float (c_cells column) = Ok arr /\ asks_for npq bins q c arr edges /\
    assoc c out = Some (mkCol false (fst (bin_array arr edges))) /\ assoc c dict = Some (snd (bin_array arr edges))).
Proof.
  intros data cols bins q out dict H.
  assert (HC : match bins with BDict d => forallb (fun c => mem c (keys d)) cols = true | _ => True end).
  { destruct bins as [b|d]; [exact I|]. unfold bin_data in H. destruct (forallb _ cols); [reflexivity|discriminate]. }
  destruct (bin_data_bin_cols data cols bins q HC) as (xb & Hx & _ & E). rewrite E in H.
  destruct (bin_cols_frame _ _ _ _ _ _ _ _ _ H) as [F1 F2].
  split; [exact F1|]. split; [intros c Hc; apply F2; exact Hc|].
  intros c Hc Hs. eapply bin_cols_cols; eauto.
Qed.

Lemma bin_cols_total : forall data bins q cols xb acc dict, xb_ok bins xb ->
  (forall c, In c cols -> exists column arr edges, assoc c data = Some column /\ mapM to_float (c_cells column) = Ok arr /\ asks_for npq bins q c arr edges) ->
  is_ok (bin_cols npq data cols bins q xb acc dict) = true.
Proof.
  intros data bins q. induction cols as [|c0 cols IH]; intros xb acc dict Hx H; [reflexivity|].
  destruct (bin_cols_step data bins q c0 cols xb acc dict) as [S1 _].
  destruct (H c0 (or_introl eq_refl)) as (column & arr & edges & H1 & H2 & H3).
  assert (HT := asks_turn _ _ _ xb _ _ _ _ Hx H1 H2 H3). rewrite (S1 _ _ HT). apply IH.
  - eapply turn_xb_ok; eassumption.
  - intros c Hc. apply H. right. exact Hc.
Qed.

Lemma bin_data_total : forall data cols bins q,
  (forall c, In c cols -> exists column arr edges, assoc c data = Some column /\ mapM to_float (c_cells column) = Ok arr /\ asks_for npq bins q c arr edges) ->
  exists out dict, bin_data npq data cols bins q = Ok (out, dict).
Proof.
  intros data cols bins q H.
  assert (HC : match bins with BDict d => forallb (fun c => mem c (keys d)) cols = true | _ => True end).
  { destruct bins as [b|d]; [exact I|]. apply forallb_forall. intros c Hc. destruct (H c Hc) as (_ & arr & edges & _ & _ & H3).
    unfold asks_for, spec_of in H3. destruct (mem c (keys d)) eqn:E; [reflexivity|].
    apply mem_false, assoc_None in E. rewrite E in H3. contradiction. }
  destruct (bin_data_bin_cols data cols bins q HC) as (xb & Hx & _ & E). rewrite E.
  assert (HT := bin_cols_total data bins q cols xb data [] Hx H).
  destruct (bin_cols npq data cols bins q xb data []) as [[out dict]|]; [exists out, dict; reflexivity|discriminate].
Qed.

(** C07 *)
Lemma bin_data_missing_key : forall data cols d q c, In c cols -> assoc c d = None ->
  bin_data npq data cols (BDict d) q = Raise ValueError.
Proof.
  intros data cols d q c H1 H2. unfold bin_data. rewrite (proj2 (dict_check d cols)); [reflexivity|]. exists c. auto.
Qed.

Lemma bin_data_unsupported_first : forall data cols bins q c column arr,
  assoc c data = Some column -> mapM to_float (c_cells column) = Ok arr -> spec_of bins c = Some BOther ->
  (forall d, bins = BDict d -> forall c', In c' (c :: cols) -> assoc c' d <> None) ->
  bin_data npq data (c :: cols) bins q = Raise UnboundLocalError.
Proof.
  intros data cols bins q c column arr H1 H2 H3 H4.
  assert (HC : match bins with BDict d => forallb (fun c => mem c (keys d)) (c :: cols) = true | _ => True end).
  { destruct bins as [b|d]; [exact I|]. destruct (forallb _ _) eqn:F; [reflexivity|].
    apply dict_check in F. destruct F as (x & Hx & E). exfalso. exact (H4 d eq_refl x Hx E). }
  destruct (bin_data_bin_cols data (c :: cols) bins q HC) as (xb & _ & Hxb & ->).
  cbn [bin_cols]. rewrite H1, H2. cbn [rbind]. unfold spec_of in H3. destruct bins as [b|d].
  - inversion H3; subst b. rewrite Hxb. reflexivity.
  - rewrite H3. cbn [rbind]. rewrite Hxb. reflexivity.
Qed.

Lemma bin_cols_app : forall data bins q l1 l2 xb acc dict,
  xb_ok bins xb ->
  bin_cols npq data (l1 ++ l2) bins q xb acc dict =
  match bin_cols npq data l1 bins q xb acc dict with
  | Raise e => Raise e
  | Ok (acc', dict') =>
      bin_cols npq data l2 bins q
        (fold_left (fun x c => match assoc c data with Some column => match mapM to_float (c_cells column) with Ok arr =>
            match spec_of bins c with Some (BNum n) => match bin_edges npq arr n q with Ok e => Some e | _ => x end
            | Some (BEdges l) => Some l | _ => x end | _ => x end | _ => x end) l1 xb) acc' dict'
  end.
Proof.
  intros data bins q. induction l1 as [|c l1 IH]; intros l2 xb acc dict Hx; [reflexivity|].
  rewrite <- app_comm_cons.
  destruct (bin_cols_step data bins q c (l1 ++ l2) xb acc dict) as [S1 S2].
  destruct (bin_cols_step data bins q c l1 xb acc dict) as [T1 T2].
  destruct (turn_dec data bins q xb c) as [(arr & edges & HT)|HT].
  - rewrite (S1 _ _ HT), (T1 _ _ HT). rewrite IH by (eapply turn_xb_ok; eassumption).
    cbn [fold_left]. 
    destruct HT as (column & H1 & H2 & H3). rewrite H1, H2.
    destruct (spec_of bins c) as [[n|l|]|] eqn:E; [| | |contradiction].
    + rewrite H3. reflexivity.
    + destruct bins as [b|d]; [|subst l; reflexivity]. unfold spec_of in E. inversion E; subst b. simpl in Hx. rewrite Hx in H3. inversion H3. subst. reflexivity.
    + rewrite H3. reflexivity.
  - cbn [bin_cols]. destruct (assoc c data) as [column|] eqn:E1; [|reflexivity].
    destruct (mapM to_float (c_cells column)) as [arr|] eqn:E2; cbn [rbind]; [|reflexivity].
    match goal with |- context [rbind ?m _] => destruct m as [[e|]|] eqn:E3 end; cbn [rbind]; try reflexivity.
    exfalso. apply (HT arr e). exists column. split; [exact E1|]. split; [exact E2|].
    unfold spec_of. destruct bins as [[n|l|]|d].
    + destruct (bin_edges npq arr n q); [inversion E3; reflexivity|discriminate].
    + inversion E3; reflexivity.
    + inversion E3; reflexivity.
    + destruct (assoc c d) as [[n|l|]|].
      * destruct (bin_edges npq arr n q); [inversion E3; reflexivity|discriminate].
      * inversion E3; reflexivity.
      * inversion E3; reflexivity.
      * discriminate.
Qed.

Lemma bin_data_unsupported_later : forall data l p c r d q out dict pcol parr pedges,
  bin_data npq data (l ++ p :: c :: r) (BDict d) q = Ok (out, dict) ->
  ~ In c r -> In c (keys data) -> assoc c d = Some BOther ->
  assoc p data = Some pcol -> mapM to_float (c_cells pcol) = Ok parr -> asks_for npq (BDict d) q p parr pedges ->
  exists column arr, assoc c data = Some column /\ mapM to_float (c_cells column) = Ok arr /\
    assoc c out = Some (mkCol false (fst (bin_array arr pedges))).
Proof.
  intros data l p c r d q out dict pcol parr pedges H Hr Hk Hc P1 P2 P3.
  unfold bin_data in H. destruct (forallb _ _); [|discriminate].
  rewrite bin_cols_app in H by exact I.
  destruct (bin_cols npq data l (BDict d) q None data []) as [[acc dc]|] eqn:E; [|discriminate].
  assert (Ka : keys acc = keys data) by (apply bin_cols_frame in E; apply E).
  match type of H with bin_cols _ _ _ _ _ ?x _ _ = _ => set (xb := x) in * end.
  destruct (bin_cols_step data (BDict d) q p (c :: r) xb acc dc) as [S1 _].
  assert (HT : turn data (BDict d) q xb p parr pedges) by (eapply asks_turn; try eassumption; exact I).
  rewrite (S1 _ _ HT) in H. clear S1.
  match type of H with bin_cols _ _ _ _ _ ?x ?a ?dd = _ => set (acc2 := a) in *; set (dc2 := dd) in * end.
  destruct (bin_cols_step data (BDict d) q c r (Some pedges) acc2 dc2) as [S1 S2].
  destruct (turn_dec data (BDict d) q (Some pedges) c) as [(arr & edges & HT2)|HT2]; [|apply S2 in HT2; rewrite H in HT2; discriminate].
  rewrite (S1 _ _ HT2) in H. destruct HT2 as (column & C1 & C2 & C3). unfold spec_of in C3. rewrite Hc in C3. inversion C3; subst edges.
  exists column, arr. repeat split; try assumption.
  apply bin_cols_frame in H. destruct H as [_ F]. destruct (F c Hr) as [F1 _]. rewrite F1.
  apply assoc_set_same. unfold acc2. rewrite keys_set_assoc, Ka. exact Hk.
Qed.
End BD.
