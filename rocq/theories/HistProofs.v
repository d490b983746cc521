(** Proofs about contingency tables and data quality checks (C08-C10, C13, C38, C39). *)
From Coq Require Import String ZArith List Bool Lia Sorting.Sorted Sorting.Permutation.
Import ListNotations.
From Verif Require Import F64 Base Cells BinModel SpecBin BinProofs BinDataProofs HistModel SpecHist.
Open Scope list_scope.

Definition seen0 (c : cell) : option cell := match c with CNaN => None | _ => Some c end.

Lemma isna_true : forall c, isna c = true <-> c = CNaN.
Proof. intros c. apply ceqb_eq. Qed.
Lemma isna_false : forall c, isna c = false <-> c <> CNaN.
Proof. intros c. rewrite <- isna_true. destruct (isna c); split; congruence. Qed.
Lemma seen0_some : forall c a, seen0 c = Some a <-> c = a /\ c <> CNaN.
Proof. intros [| | |] a; simpl; split; intros H; try discriminate; try (inversion H; split; [reflexivity|discriminate]); try (destruct H; congruence). Qed.

Lemma repl_eq : forall a b c, repl a b c = if cell_eq_dec c a then b else c.
Proof.
  intros a b c. unfold repl. destruct (cell_eq_dec c a) as [->|H]; [rewrite ceqb_refl; reflexivity|].
  rewrite ceqb_false by exact H. reflexivity.
Qed.

Lemma seen_clean : forall d u o c, seen0 (clean1 d u o c) = counted_as d u o c.
Proof.
  intros d u o c. unfold clean1. rewrite !repl_eq.
  destruct c as [|z|k|s].
  - destruct d.
    + cbn [counted_as]. destruct u, o; repeat (rewrite ?repl_eq; destruct (cell_eq_dec _ _)); try discriminate; try reflexivity; try congruence.
    + cbn [counted_as]. destruct (cell_eq_dec CNaN CNaN) as [_|n]; [|congruence].
      destruct u, o; repeat (rewrite ?repl_eq; destruct (cell_eq_dec _ _)); try discriminate; try reflexivity; try congruence.
  - destruct d, u, o; repeat (rewrite ?repl_eq; destruct (cell_eq_dec _ _)); try discriminate; reflexivity.
  - destruct d, u, o; repeat (rewrite ?repl_eq; destruct (cell_eq_dec _ _)); try discriminate; reflexivity.
  - cbn [counted_as].
    assert (HN : (if d then CStr s else if cell_eq_dec (CStr s) CNaN then CStr NaNs else CStr s) = CStr s).
    { destruct d; [reflexivity|]. destruct (cell_eq_dec (CStr s) CNaN); [discriminate|reflexivity]. }
    destruct (String.eqb_spec s "UF") as [->|HU]; [|destruct (String.eqb_spec s "OF") as [->|HO]].
    + change (String.eqb "UF" "OF") with false. rewrite HN. rewrite ?andb_true_r, ?andb_false_r, ?orb_false_r.
      destruct u.
      * destruct (cell_eq_dec (CStr "UF") (CStr UFs)) as [_|n]; [|exfalso; apply n; reflexivity].
        destruct o; [|reflexivity]. rewrite ?repl_eq. destruct (cell_eq_dec CNaN (CStr OFs)); [discriminate|reflexivity].
      * destruct o; [|reflexivity]. rewrite ?repl_eq. destruct (cell_eq_dec (CStr "UF") (CStr OFs)); [discriminate|reflexivity].
    + rewrite HN. rewrite ?andb_true_r, ?andb_false_r, ?orb_false_l.
      destruct u.
      * destruct (cell_eq_dec (CStr "OF") (CStr UFs)) as [n|_]; [discriminate|].
        destruct o; [|reflexivity]. rewrite ?repl_eq. destruct (cell_eq_dec (CStr "OF") (CStr OFs)) as [_|n]; [reflexivity|exfalso; apply n; reflexivity].
      * destruct o; [|reflexivity]. rewrite ?repl_eq. destruct (cell_eq_dec (CStr "OF") (CStr OFs)) as [_|n]; [reflexivity|exfalso; apply n; reflexivity].
    + rewrite HN. rewrite ?andb_false_r. cbn [orb].
      assert (H1 : (if u then if cell_eq_dec (CStr s) (CStr UFs) then CNaN else CStr s else CStr s) = CStr s).
      { destruct u; [|reflexivity]. destruct (cell_eq_dec (CStr s) (CStr UFs)) as [E|]; [inversion E; contradiction|reflexivity]. }
      rewrite H1. destruct o; [|reflexivity]. destruct (cell_eq_dec (CStr s) (CStr OFs)) as [E|]; [inversion E; contradiction|reflexivity].
Qed.

(** counting *)
Lemma count_if_filter : forall A (p : A -> bool) l, length (filter p l) = count_if p l.
Proof. induction l as [|a l IH]; simpl; [reflexivity|]. destruct (p a); simpl; rewrite IH; reflexivity. Qed.
Lemma count_if_ext : forall A (p q : A -> bool) l, (forall a, In a l -> p a = q a) -> count_if p l = count_if q l.
Proof. induction l as [|a l IH]; simpl; intros H; [reflexivity|]. rewrite H by auto. rewrite IH by auto. reflexivity. Qed.
Lemma count_if_map : forall A B (f : A -> B) p l, count_if p (map f l) = count_if (fun a => p (f a)) l.
Proof. induction l as [|a l IH]; simpl; [reflexivity|]. rewrite IH. reflexivity. Qed.
Lemma count_if_pos : forall A (p : A -> bool) l, (0 < count_if p l)%nat <-> exists a, In a l /\ p a = true.
Proof.
  induction l as [|a l IH]; simpl; [split; [lia|intros (x & [] & _)]|].
  destruct (p a) eqn:E.
  - split; [intros _; exists a; auto|lia].
  - simpl. rewrite IH. split; intros (x & Hx & Hp); exists x; auto. destruct Hx as [<-|Hx]; [congruence|auto].
Qed.
Lemma count_if_perm : forall A (p : A -> bool) l l', Permutation l l' -> count_if p l = count_if p l'.
Proof. induction 1; simpl; lia. Qed.
Lemma count_if_and_filter : forall A (p q : A -> bool) l, count_if p (filter q l) = count_if (fun a => q a && p a) l.
Proof. induction l as [|a l IH]; simpl; [reflexivity|]. destruct (q a); simpl; rewrite IH; reflexivity. Qed.

Definition nsum (l : list nat) : nat := fold_right plus 0%nat l.
Lemma nsum_map_plus : forall A (f g : A -> nat) l, nsum (map (fun a => f a + g a)%nat l) = (nsum (map f l) + nsum (map g l))%nat.
Proof. induction l as [|a l IH]; simpl; [reflexivity|]. rewrite IH. lia. Qed.
Lemma nsum_map_0 : forall A (l : list A), nsum (map (fun _ => 0%nat) l) = 0%nat.
Proof. induction l as [|a l IH]; simpl; auto. Qed.
Lemma nsum_indicator : forall (x : cell) l, NoDup l -> nsum (map (fun b => if ceqb x b then 1 else 0)%nat l) = if in_dec cell_eq_dec x l then 1%nat else 0%nat.
Proof.
  induction l as [|b l IH]; intros H; [reflexivity|]. inversion H as [|? ? Hn Hl]; subst. cbn [map nsum fold_right].
  fold (nsum (map (fun b => if ceqb x b then 1 else 0)%nat l)). rewrite IH by exact Hl.
  destruct (cell_eq_dec x b) as [->|Hne].
  - rewrite ceqb_refl. destruct (in_dec cell_eq_dec b l); [contradiction|]. destruct (in_dec cell_eq_dec b (b :: l)) as [|n9]; [reflexivity|exfalso; apply n9; left; reflexivity].
  - rewrite ceqb_false by exact Hne. destruct (in_dec cell_eq_dec x l) as [i|n]; destruct (in_dec cell_eq_dec x (b :: l)) as [i'|n']; try reflexivity.
    + exfalso. apply n'. right. exact i.
    + exfalso. destruct i' as [E|i']; [congruence|contradiction].
Qed.
(** splitting a count by the value of [f] *)
Lemma count_split : forall A (f : A -> cell) (p : A -> bool) l ls, NoDup ls -> (forall a, In a l -> In (f a) ls) ->
  nsum (map (fun b => count_if (fun a => p a && ceqb (f a) b) l) ls) = count_if p l.
Proof.
  induction l as [|a l IH]; intros ls Hn Hin; cbn [count_if].
  - rewrite nsum_map_0. reflexivity.
  - rewrite (nsum_map_plus _ (fun b => if p a && ceqb (f a) b then 1 else 0)%nat). rewrite IH; [|exact Hn|intros; apply Hin; right; assumption].
    f_equal. destruct (p a); cbn [andb]; [|apply nsum_map_0].
    rewrite nsum_indicator by exact Hn. destruct (in_dec cell_eq_dec (f a) ls) as [|n]; [reflexivity|]. exfalso. apply n, Hin. left. reflexivity.
Qed.

Lemma complete_iff : forall r, complete r = true <-> fst r <> CNaN /\ snd r <> CNaN.
Proof. intros r. unfold complete. rewrite andb_true_iff, !negb_true_iff, !isna_false. tauto. Qed.

Lemma crosstab_entry : forall recs i j, (i < length (h_rows (crosstab recs)))%nat -> (j < length (h_cols (crosstab recs)))%nat ->
  entry (crosstab recs) i j = count_if (fun r => complete r && paireqb (nth i (h_rows (crosstab recs)) CNaN) (nth j (h_cols (crosstab recs)) CNaN) r) recs.
Proof.
  intros recs i j Hi Hj. unfold entry. unfold crosstab in *. cbn [h_rows h_cols h_cnt] in *.
  set (ok := filter complete recs) in *. set (rows := dsort (map fst ok)) in *. set (cols := dsort (map snd ok)) in *.
  rewrite nth_indep with (d' := map (fun b => length (filter (paireqb CNaN b) ok)) cols) by (rewrite map_length; exact Hi).
  rewrite (map_nth (fun a => map (fun b => length (filter (paireqb a b) ok)) cols)).
  rewrite nth_indep with (d' := length (filter (paireqb (nth i rows CNaN) CNaN) ok)) by (rewrite map_length; exact Hj).
  rewrite (map_nth (fun b => length (filter (paireqb (nth i rows CNaN) b) ok))).
  rewrite count_if_filter. unfold ok. apply count_if_and_filter.
Qed.

Lemma in_rows : forall recs a, In a (h_rows (crosstab recs)) <-> exists r, In r recs /\ complete r = true /\ fst r = a.
Proof.
  intros recs a. cbn [crosstab h_rows]. rewrite dsort_In, in_map_iff. split.
  - intros (r & E & H). apply filter_In in H. exists r. tauto.
  - intros (r & H1 & H2 & E). exists r. rewrite filter_In. auto.
Qed.
Lemma in_cols : forall recs a, In a (h_cols (crosstab recs)) <-> exists r, In r recs /\ complete r = true /\ snd r = a.
Proof.
  intros recs a. cbn [crosstab h_cols]. rewrite dsort_In, in_map_iff. split.
  - intros (r & E & H). apply filter_In in H. exists r. tauto.
  - intros (r & H1 & H2 & E). exists r. rewrite filter_In. auto.
Qed.

Lemma opair_complete : forall r a b, a <> CNaN -> b <> CNaN ->
  opair_eqb (seen0 (fst r)) (seen0 (snd r)) a b = complete r && paireqb a b r.
Proof.
  intros [x y] a b Ha Hb. unfold complete, paireqb, isna. cbn [fst snd].
  assert (E : forall u v, ceqb u v = if cell_eq_dec u v then true else false).
  { intros u v. destruct (cell_eq_dec u v) as [->|n]; [apply ceqb_refl|apply ceqb_false; exact n]. }
  rewrite !E.
  destruct (cell_eq_dec x CNaN) as [->|Hx]; [reflexivity|].
  destruct (cell_eq_dec y CNaN) as [->|Hy]; [destruct x; reflexivity|].
  assert (S1 : seen0 x = Some x) by (apply seen0_some; auto). assert (S2 : seen0 y = Some y) by (apply seen0_some; auto).
  rewrite S1, S2. cbn [opair_eqb negb andb]. destruct (cell_eq_dec x a); reflexivity.
Qed.

Lemma crosstab_table : forall recs, is_table_of seen0 recs (crosstab recs).
Proof.
  intros recs. set (h := crosstab recs).
  assert (NR : forall a, In a (h_rows h) -> a <> CNaN).
  { intros a H. apply in_rows in H. destruct H as (r & _ & C & <-). apply complete_iff in C. tauto. }
  assert (NC : forall a, In a (h_cols h) -> a <> CNaN).
  { intros a H. apply in_cols in H. destruct H as (r & _ & C & <-). apply complete_iff in C. tauto. }
  assert (SR : StronglySorted clt (h_rows h)) by apply dsort_sorted.
  assert (SC : StronglySorted clt (h_cols h)) by apply dsort_sorted.
  assert (HS : forall r, complete r = true <-> exists a b, seen0 (fst r) = Some a /\ seen0 (snd r) = Some b).
  { intros r. rewrite complete_iff. split.
    - intros [H1 H2]. exists (fst r), (snd r). rewrite !seen0_some. tauto.
    - intros (a & b & H1 & H2). apply seen0_some in H1, H2. tauto. }
  assert (LEN : length (h_cnt h) = length (h_rows h)) by (unfold h, crosstab; cbn [h_cnt h_rows]; apply map_length).
  assert (ENT : forall i j, (i < length (h_rows h))%nat -> (j < length (h_cols h))%nat ->
     entry h i j = count_if (fun r => opair_eqb (seen0 (fst r)) (seen0 (snd r)) (nth i (h_rows h) CNaN) (nth j (h_cols h) CNaN)) recs).
  { intros i j Hi Hj. unfold h at 1. rewrite crosstab_entry by assumption. apply count_if_ext. intros r _. symmetry.
    apply opair_complete; [apply NR, nth_In, Hi|apply NC, nth_In, Hj]. }
  assert (POS : forall i j r, (i < length (h_rows h))%nat -> (j < length (h_cols h))%nat -> In r recs -> complete r = true ->
     fst r = nth i (h_rows h) CNaN -> snd r = nth j (h_cols h) CNaN -> (0 < entry h i j)%nat).
  { intros i j r Hi Hj Hr Hc E1 E2. unfold h. rewrite crosstab_entry by assumption. apply count_if_pos. exists r. split; [exact Hr|].
    rewrite Hc. unfold paireqb. fold h. rewrite E1, E2, !ceqb_refl. reflexivity. }
  repeat split.
  - intros H. apply in_rows in H. destruct H as (r & Hr & C & E). apply complete_iff in C. exists r, (snd r).
    rewrite !seen0_some. tauto.
  - intros (r & b9 & Hr & E1 & E2). apply in_rows. exists r. apply seen0_some in E1, E2. split; [exact Hr|]. rewrite complete_iff. tauto.
  - intros H. apply in_cols in H. destruct H as (r & Hr & C & E). apply complete_iff in C. exists r, (fst r).
    rewrite !seen0_some. tauto.
  - intros (r & b9 & Hr & E1 & E2). apply in_cols. exists r. apply seen0_some in E1, E2. split; [exact Hr|]. rewrite complete_iff. tauto.
  - exact SR.
  - exact SC.
  - exact LEN.
  - intros row Hrow. unfold h, crosstab in Hrow. cbn [h_cnt] in Hrow. apply in_map_iff in Hrow. destruct Hrow as (a & <- & _). apply map_length.
  - exact ENT.
  - intros i Hi. assert (Hin : In (nth i (h_rows h) CNaN) (h_rows h)) by (apply nth_In; exact Hi).
    apply in_rows in Hin. destruct Hin as (r & Hr & C & E).
    assert (Hc : In (snd r) (h_cols h)) by (apply in_cols; exists r; auto).
    apply In_nth with (d := CNaN) in Hc. destruct Hc as (j & Hj & Ej). exists j. split; [exact Hj|]. eapply POS; eauto.
  - intros j Hj. assert (Hin : In (nth j (h_cols h) CNaN) (h_cols h)) by (apply nth_In; exact Hj).
    apply in_cols in Hin. destruct Hin as (r & Hr & C & E).
    assert (Hc : In (fst r) (h_rows h)) by (apply in_rows; exists r; auto).
    apply In_nth with (d := CNaN) in Hc. destruct Hc as (i & Hi & Ei). exists i. split; [exact Hi|]. eapply POS; eauto.
  - transitivity (count_if complete recs).
    2:{ apply count_if_ext. intros [x y] _. unfold complete, isna, both_some. cbn [fst snd]. 
        destruct x, y; reflexivity. }
    rewrite <- count_if_filter.
    set (ok := filter complete recs).
    assert (E : total h = nsum (map (fun a => nsum (map (fun b => count_if (paireqb a b) ok) (h_cols h))) (h_rows h))).
    { unfold total, h, crosstab. cbn [h_cnt h_rows h_cols]. fold ok.
      generalize (dsort (map fst ok)) as rs. generalize (dsort (map snd ok)) as cs. intros cs rs.
      induction rs as [|a rs IH]; [reflexivity|]. cbn [map fold_right nsum]. rewrite IH. f_equal.
      unfold nsum. f_equal. apply map_ext. intros b. apply count_if_filter. }
    rewrite E.
    assert (E2 : forall a, nsum (map (fun b => count_if (paireqb a b) ok) (h_cols h)) = count_if (fun r => true && ceqb (fst r) a) ok).
    { intros a. unfold paireqb. transitivity (count_if (fun r : cell * cell => ceqb (fst r) a) ok); [|reflexivity]. rewrite <- (count_split _ snd (fun r => ceqb (fst r) a) ok (h_cols h)).
      - reflexivity.
      - apply ssorted_NoDup. exact SC.
      - intros r Hr. apply in_cols. apply filter_In in Hr. exists r. tauto. }
    rewrite (map_ext _ _ E2). rewrite (count_split _ fst (fun _ => true) ok (h_rows h)).
    + rewrite <- count_if_filter. clear. induction ok as [|r ok IH]; simpl; [reflexivity|]. f_equal. exact IH.
    + apply ssorted_NoDup. exact SR.
    + intros r Hr. apply in_rows. apply filter_In in Hr. exists r. tauto.
Qed.

Lemma is_table_map : forall seen (g : cell -> cell) recs h,
  is_table_of seen (map (fun r => (g (fst r), g (snd r))) recs) h -> is_table_of (fun c => seen (g c)) recs h.
Proof.
  intros seen g recs h (A1 & A2 & A3 & A4 & A5 & A6 & A7 & A8 & A9 & A10).
  repeat split; try assumption.
  - intros H. apply A1 in H. destruct H as (r & b9 & H & H1 & H2). apply in_map_iff in H. destruct H as (r' & <- & H). exists r', b9. auto.
  - intros (r & b9 & H & H1 & H2). apply A1. exists (g (fst r), g (snd r)), b9. split; [|auto]. apply in_map_iff. exists r. auto.
  - intros H. apply A2 in H. destruct H as (r & b9 & H & H1 & H2). apply in_map_iff in H. destruct H as (r' & <- & H). exists r', b9. auto.
  - intros (r & b9 & H & H1 & H2). apply A2. exists (g (fst r), g (snd r)), b9. split; [|auto]. apply in_map_iff. exists r. auto.
  - intros i j Hi Hj. rewrite A7 by assumption. rewrite count_if_map. reflexivity.
  - rewrite A10, count_if_map. reflexivity.
Qed.

Lemma is_table_ext : forall s1 s2 recs h, (forall c, s1 c = s2 c) -> is_table_of s1 recs h -> is_table_of s2 recs h.
Proof.
  intros s1 s2 recs h HE (A1 & A2 & A3 & A4 & A5 & A6 & A7 & A8 & A9 & A10).
  repeat split; try assumption.
  - intros H. apply A1 in H. destruct H as (r & b9 & H & H1 & H2). exists r, b9. rewrite <- !HE. auto.
  - intros (r & b9 & H & H1 & H2). apply A1. exists r, b9. rewrite !HE. auto.
  - intros H. apply A2 in H. destruct H as (r & b9 & H & H1 & H2). exists r, b9. rewrite <- !HE. auto.
  - intros (r & b9 & H & H1 & H2). apply A2. exists r, b9. rewrite !HE. auto.
  - intros i j Hi Hj. rewrite A7 by assumption. apply count_if_ext. intros r _. rewrite !HE. reflexivity.
  - rewrite A10. apply count_if_ext. intros r _. rewrite !HE. reflexivity.
Qed.

Lemma combine_map2 : forall A B (g : A -> B) l1 l2, combine (map g l1) (map g l2) = map (fun r => (g (fst r), g (snd r))) (combine l1 l2).
Proof. induction l1 as [|a l1 IH]; intros [|b l2]; simpl; try reflexivity. rewrite IH. reflexivity. Qed.

(** C08, C09 *)
Lemma hist2d_rebinned_spec : forall c0 c1 x y dropna uf of,
  exists h, fst (hist2d_from_rebinned_df [(c0, x); (c1, y)] dropna uf of) = Ok h /\
    is_table_of (counted_as dropna uf of) (combine (c_cells x) (c_cells y)) h.
Proof.
  intros c0 c1 x y d u o. eexists. split; [reflexivity|].
  apply is_table_ext with (s1 := fun c => seen0 (clean1 d u o c)); [intros c; apply seen_clean|].
  apply is_table_map. rewrite <- combine_map2. apply crosstab_table.
Qed.

(** two tables of the same records are equal *)
Lemma is_table_unique : forall seen recs h1 h2, is_table_of seen recs h1 -> is_table_of seen recs h2 -> h1 = h2.
Proof.
  intros seen recs [r1 c1 n1] [r2 c2 n2] (A1 & A2 & A3 & A4 & A5 & A6 & A7 & _) (B1 & B2 & B3 & B4 & B5 & B6 & B7 & _).
  cbn [h_rows h_cols h_cnt] in *.
  assert (r1 = r2) by (apply ssorted_ext; try assumption; intros a; rewrite A1, B1; tauto). subst r2.
  assert (c1 = c2) by (apply ssorted_ext; try assumption; intros a; rewrite A2, B2; tauto). subst c2.
  f_equal. apply nth_ext with (d := []) (d' := []); [congruence|]. intros i Hi. rewrite A5 in Hi.
  assert (H1 : In (nth i n1 []) n1) by (apply nth_In; rewrite A5; exact Hi).
  assert (H2 : In (nth i n2 []) n2) by (apply nth_In; rewrite B5; exact Hi).
  apply nth_ext with (d := 0%nat) (d' := 0%nat); [rewrite (A6 _ H1), (B6 _ H2); reflexivity|].
  intros j Hj. rewrite (A6 _ H1) in Hj. specialize (A7 i j Hi Hj). specialize (B7 i j Hi Hj). unfold entry in A7, B7. cbn [h_cnt] in *. congruence.
Qed.

Lemma is_table_perm : forall seen recs recs' h, Permutation recs recs' -> is_table_of seen recs h -> is_table_of seen recs' h.
Proof.
  intros seen recs recs' h HP (A1 & A2 & A3 & A4 & A5 & A6 & A7 & A8 & A9 & A10).
  assert (HI : forall r, In r recs <-> In r recs') by (intros r; split; apply Permutation_in; [exact HP|apply Permutation_sym; exact HP]).
  repeat split; try assumption.
  - intros H. apply A1 in H. destruct H as (r & b9 & H & H1). exists r, b9. rewrite <- HI. auto.
  - intros (r & b9 & H & H1). apply A1. exists r, b9. rewrite HI. auto.
  - intros H. apply A2 in H. destruct H as (r & b9 & H & H1). exists r, b9. rewrite <- HI. auto.
  - intros (r & b9 & H & H1). apply A2. exists r, b9. rewrite HI. auto.
  - intros i j Hi Hj. rewrite A7 by assumption. apply count_if_perm. exact HP.
  - rewrite A10. apply count_if_perm. exact HP.
Qed.

(** C10 *)
Lemma crosstab_perm : forall recs recs', Permutation recs recs' -> crosstab recs = crosstab recs'.
Proof.
  intros recs recs' H. apply (is_table_unique seen0 recs'); [|apply crosstab_table].
  eapply is_table_perm; [exact H|apply crosstab_table].
Qed.

Lemma crosstab_swap : forall recs, is_transpose (crosstab recs) (crosstab (map (fun r => (snd r, fst r)) recs)).
Proof.
  intros recs. set (sw := fun r : cell * cell => (snd r, fst r)).
  assert (R : h_rows (crosstab (map sw recs)) = h_cols (crosstab recs)).
  { apply ssorted_ext; try apply dsort_sorted. intros a. rewrite in_rows, in_cols. split.
    - intros (r & H & C & E). apply in_map_iff in H. destruct H as (r' & <- & H). exists r'. rewrite complete_iff in *. unfold sw in *. cbn in *. tauto.
    - intros (r & H & C & E). exists (sw r). rewrite complete_iff in *. unfold sw. cbn. split; [apply in_map_iff; exists r; auto|tauto]. }
  assert (C : h_cols (crosstab (map sw recs)) = h_rows (crosstab recs)).
  { apply ssorted_ext; try apply dsort_sorted. intros a. rewrite in_rows, in_cols. split.
    - intros (r & H & C & E). apply in_map_iff in H. destruct H as (r' & <- & H). exists r'. rewrite complete_iff in *. unfold sw in *. cbn in *. tauto.
    - intros (r & H & C & E). exists (sw r). rewrite complete_iff in *. unfold sw. cbn. split; [apply in_map_iff; exists r; auto|tauto]. }
  split; [exact R|]. split; [exact C|]. intros i j Hi Hj.
  rewrite crosstab_entry by (rewrite ?R, ?C; assumption). rewrite crosstab_entry by assumption. rewrite R, C.
  rewrite count_if_map. apply count_if_ext. intros r _. unfold sw, complete, paireqb. cbn [fst snd].
  rewrite (andb_comm (negb (isna (snd r)))). f_equal. apply andb_comm.
Qed.

Lemma clean_combine : forall d u o x y, combine (map (clean1 d u o) x) (map (clean1 d u o) y) = map (fun r => (clean1 d u o (fst r), clean1 d u o (snd r))) (combine x y).
Proof. intros. apply combine_map2. Qed.

Lemma hist2d_perm : forall c0 c1 x y x' y' d u o,
  Permutation (combine (c_cells x) (c_cells y)) (combine (c_cells x') (c_cells y')) ->
  fst (hist2d_from_rebinned_df [(c0, x); (c1, y)] d u o) = fst (hist2d_from_rebinned_df [(c0, x'); (c1, y')] d u o).
Proof.
  intros c0 c1 x y x' y' d u o H. cbn [hist2d_from_rebinned_df clean map fst snd c_cells].
  f_equal. apply crosstab_perm. rewrite !clean_combine. apply Permutation_map. exact H.
Qed.

Lemma combine_swap : forall A B (l1 : list A) (l2 : list B), combine l2 l1 = map (fun r => (snd r, fst r)) (combine l1 l2).
Proof. induction l1 as [|a l1 IH]; intros [|b l2]; simpl; try reflexivity. rewrite IH. reflexivity. Qed.

Lemma hist2d_swap : forall c0 c1 x y d u o, exists h h',
  fst (hist2d_from_rebinned_df [(c0, x); (c1, y)] d u o) = Ok h /\
  fst (hist2d_from_rebinned_df [(c1, y); (c0, x)] d u o) = Ok h' /\ is_transpose h h'.
Proof.
  intros. eexists. eexists. split; [reflexivity|]. split; [reflexivity|].
  cbn [fst snd c_cells]. rewrite (combine_swap _ _ (map _ (c_cells x))). apply crosstab_swap.
Qed.

(** C13 *)
Lemma hist2d_two_columns : forall npq df ic bins q d u o,
  (length df <> 2%nat -> hist2d npq df ic bins q d u o = Raise ValueError) /\
  (length df = 2%nat ->
     match bin_data npq df (match ic with Some l => l | None => guess_interval_cols df end) bins q with
     | Ok _ => exists r, hist2d npq df ic bins q d u o = Ok r
     | Raise e => hist2d npq df ic bins q d u o = Raise e
     end).
Proof.
  intros npq df ic bins q d u o. unfold hist2d. split; intros H.
  - destruct (Nat.eqb_spec (length df) 2); [contradiction|reflexivity].
  - rewrite H. cbn [Nat.eqb negb]. destruct (bin_data npq df _ bins q) as [[out dict]|e] eqn:E; [|reflexivity].
    cbn [rbind fst snd]. apply bin_data_spec in E. destruct E as [K _].
    assert (L : length out = 2%nat) by (rewrite <- H; rewrite <- (map_length fst out), <- (map_length fst df); unfold keys in K; rewrite K; reflexivity).
    destruct out as [|[a x] [|[b y] [|]]]; try discriminate. eexists. reflexivity.
Qed.

(** C38 *)
Lemma nunique_spec : forall c, distinct_values c (nunique c).
Proof.
  intros c. exists (dsort (filter (fun x => negb (isna x)) (c_cells c))). split; [apply ssorted_NoDup, dsort_sorted|]. split; [reflexivity|].
  intros x. rewrite dsort_In, filter_In, negb_true_iff, isna_false. tauto.
Qed.
Lemma distinct_values_fun : forall c n m, distinct_values c n -> distinct_values c m -> n = m.
Proof.
  intros c n m (l & N & L & H) (l' & N' & L' & H'). subst.
  apply Nat.le_antisymm; apply NoDup_incl_length; try assumption; intros x Hx; [apply H', H, Hx|apply H, H', Hx].
Qed.

Lemma filter_all : forall A (p : A -> bool) l, (forall a, In a l -> p a = true) -> filter p l = l.
Proof. induction l as [|a l IH]; simpl; intros H; [reflexivity|]. rewrite H by auto. f_equal. apply IH. auto. Qed.

Lemma dq_nunique_spec : forall df ic dropna, NoDup (keys df) ->
  let survives (p : string * col) := Nat.leb 2 (nunique (snd p)) || (Nat.eqb (nunique (snd p)) 1 && negb dropna && negb (mem (fst p) ic)) in
  fst (dq_check_nunique_values df ic dropna) = filter survives df /\
  snd (dq_check_nunique_values df ic dropna) = filter (fun c => mem c (keys (filter survives df))) ic.
Proof.
  intros df ic dropna HN survives.
  set (ic1 := filter (fun c => mem c (keys df)) ic).
  set (nu := fun c => match assoc c df with Some x => nunique x | None => 0%nat end).
  set (drop := filter (fun c => Nat.ltb (nu c) 2) ic1 ++
               filter (fun c => Nat.eqb (nu c) 0 || (Nat.eqb (nu c) 1 && dropna)) (filter (fun c => negb (mem c ic1)) (keys df))).
  assert (HD : forall p, In p df -> mem (fst p) drop = negb (survives p)).
  { intros [c x] Hp. cbn [fst]. assert (Hk : In c (keys df)) by (apply in_map_iff; exists (c, x); auto).
    assert (Hnu : nu c = nunique x) by (unfold nu; rewrite (assoc_NoDup _ _ _ _ HN Hp); reflexivity).
    assert (Hic : mem c ic1 = mem c ic).
    { destruct (mem c ic) eqn:E; [apply mem_In; apply mem_In in E; apply filter_In; split; [exact E|apply mem_In; exact Hk]|].
      apply mem_false. apply mem_false in E. intros H. apply filter_In in H. tauto. }
    assert (HM : mem c drop = true <-> (mem c ic = true /\ (nunique x < 2)%nat) \/ (mem c ic = false /\ (nunique x = 0%nat \/ (nunique x = 1%nat /\ dropna = true)))).
    { rewrite mem_In. unfold drop. rewrite in_app_iff, !filter_In, !Hnu, Nat.ltb_lt, negb_true_iff, orb_true_iff, andb_true_iff, !Nat.eqb_eq.
      rewrite <- mem_In, Hic. tauto. }
    unfold survives. cbn [fst snd]. destruct (mem c drop) eqn:E.
    - destruct (proj1 HM eq_refl) as [[A B]|[A B]]; rewrite A.
      + destruct (Nat.leb_spec 2 (nunique x)); [lia|]. rewrite andb_false_r. reflexivity.
      + destruct (Nat.leb_spec 2 (nunique x)); [lia|]. destruct B as [->|[-> ->]]; reflexivity.
    - assert (HM' : ~ ((mem c ic = true /\ (nunique x < 2)%nat) \/ (mem c ic = false /\ (nunique x = 0%nat \/ (nunique x = 1%nat /\ dropna = true)))))
        by (rewrite <- HM; discriminate).
      destruct (Nat.leb_spec 2 (nunique x)) as [L|L]; [reflexivity|]. destruct (mem c ic); [exfalso; apply HM'; tauto|].
      destruct (Nat.eqb_spec (nunique x) 1) as [E1|E1].
      + destruct dropna; [exfalso; apply HM'; tauto|reflexivity].
      + exfalso. apply HM'. right. split; [reflexivity|]. left. lia. }
  assert (HF : filter (fun p => negb (mem (fst p) drop)) df = filter survives df).
  { assert (HG : forall l, (forall p, In p l -> mem (fst p) drop = negb (survives p)) ->
       filter (fun p => negb (mem (fst p) drop)) l = filter survives l).
    { induction l as [|p l IH]; intros HL; [reflexivity|]. simpl. rewrite (HL p) by (left; reflexivity). rewrite negb_involutive.
      rewrite IH by (intros; apply HL; right; assumption). reflexivity. }
    apply HG, HD. }
  assert (HI : filter (fun c => negb (mem c drop)) ic1 = filter (fun c => mem c (keys (filter survives df))) ic).
  { assert (HX : forall c, (mem c (keys df) && negb (mem c drop)) = mem c (keys (filter survives df))).
    { intros c. destruct (mem c (keys (filter survives df))) eqn:E.
      - apply mem_In in E. apply in_map_iff in E. destruct E as (p & <- & Hp). apply filter_In in Hp. destruct Hp as [Hp Hs].
        rewrite (HD p Hp), Hs. rewrite (proj2 (mem_In (fst p) (keys df))); [reflexivity|]. apply in_map_iff. exists p. auto.
      - destruct (mem c (keys df)) eqn:E2; [|reflexivity]. apply mem_In, in_map_iff in E2. destruct E2 as (p & <- & Hp).
        rewrite (HD p Hp). destruct (survives p) eqn:S; [|reflexivity]. exfalso. apply mem_false in E. apply E. apply in_map_iff. exists p.
        split; [reflexivity|]. apply filter_In. auto. }
    unfold ic1. assert (HG : forall l, filter (fun c => negb (mem c drop)) (filter (fun c => mem c (keys df)) l) =
        filter (fun c => mem c (keys (filter survives df))) l).
    { induction l as [|c l IH]; [reflexivity|]. cbn [filter]. rewrite <- HX. destruct (mem c (keys df)); cbn [filter andb]; [|apply IH].
      destruct (negb (mem c drop)); [f_equal|]; apply IH. }
    apply HG. }
  assert (HQ : dq_check_nunique_values df ic dropna = match drop with [] => (df, ic1) | _ =>
     (filter (fun p => negb (mem (fst p) drop)) df, filter (fun c => negb (mem c drop)) ic1) end) by reflexivity.
  rewrite HQ. clear HQ. clearbody drop.
  destruct drop as [|z zs].
  - cbn [fst snd]. split.
    + rewrite <- HF. symmetry. apply filter_all. intros. reflexivity.
    + rewrite <- HI. symmetry. apply filter_all. intros. reflexivity.
  - cbn [fst snd]. split; [exact HF|exact HI].
Qed.

(** C39 *)
Lemma dq_hist_accepts : forall nr nc, fst (dq_check_hist2d nr nc) = true <-> (2 <= nr)%nat /\ (2 <= nc)%nat.
Proof.
  intros nr nc. unfold dq_check_hist2d.
  destruct (Nat.eqb_spec nr 0), (Nat.eqb_spec nc 0), (Nat.eqb_spec nr 1), (Nat.eqb_spec nc 1); cbn; split; intros; try discriminate; try lia; auto.
Qed.
Lemma dq_hist_y_warning : forall nr nc n, In (WLargeY n) (snd (dq_check_hist2d nr nc)) <-> (2 <= nr)%nat /\ (1000 < nc)%nat /\ n = nr.
Proof.
  intros nr nc n. unfold dq_check_hist2d.
  destruct (Nat.eqb_spec nr 0), (Nat.eqb_spec nc 0), (Nat.eqb_spec nr 1), (Nat.eqb_spec nc 1);
    try (cbn [orb fst snd In]; split; [intros [H|[]]; discriminate|lia]).
  cbn [orb fst snd]. destruct (Nat.ltb_spec 1000 nr), (Nat.ltb_spec 1000 nc); cbn; split; intros H'; try lia;
    repeat (destruct H' as [H'|H']; try discriminate); try contradiction; try (inversion H'; lia); try lia.
  - right. left. f_equal. lia.
  - left. f_equal. lia.
Qed.
