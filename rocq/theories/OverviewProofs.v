From Coq Require Import String ZArith List Reals Lra Lia Bool Sorting.Permutation Sorting.Sorted.
From Verif Require Import Base Cells Num PhikModel SpecPhik.
Import ListNotations.
Open Scope list_scope.

(** * sort_s *)
Definition sorted_s := StronglySorted label_lt.
Lemma label_lt_trans : forall a b c, label_lt a b -> label_lt b c -> label_lt a c. Proof. exact scmp_trans. Qed.
Lemma label_lt_irrefl : forall a, ~ label_lt a a.
Proof. intros a H. unfold label_lt in H. assert (E : scmp a a = Eq) by (apply scmp_eq; reflexivity). congruence. Qed.
Lemma insert_s_In : forall x l y, In y (insert_s x l) <-> y = x \/ In y l.
Proof.
  induction l as [|a l IH]; simpl; intros y; [intuition congruence|].
  destruct (scmp x a) eqn:E; simpl.
  - apply scmp_eq in E. subst. intuition congruence.
  - intuition congruence.
  - rewrite IH. intuition congruence.
Qed.
Lemma insert_s_sorted : forall x l, sorted_s l -> sorted_s (insert_s x l).
Proof.
  unfold sorted_s. induction l as [|a l IH]; simpl; intros H; [repeat constructor|].
  inversion H as [|a' l' Hs Hf]; subst.
  destruct (scmp x a) eqn:E.
  - exact H.
  - constructor; [exact H|]. constructor; [exact E|].
    eapply Forall_impl; [|exact Hf]. intros b Hb. eapply label_lt_trans; eassumption.
  - constructor; [apply IH; exact Hs|]. apply Forall_forall. intros b Hb. apply insert_s_In in Hb.
    destruct Hb as [->|Hb]; [unfold label_lt; rewrite scmp_antisym, E; reflexivity|].
    rewrite Forall_forall in Hf. apply Hf. exact Hb.
Qed.
Lemma sort_s_In : forall l y, In y (sort_s l) <-> In y l.
Proof. induction l as [|a l IH]; simpl; intros y; [tauto|]. rewrite insert_s_In, IH. intuition congruence. Qed.
Lemma sort_s_sorted : forall l, sorted_s (sort_s l).
Proof. induction l as [|a l IH]; simpl; [constructor|]. apply insert_s_sorted. exact IH. Qed.
Lemma sorted_s_ext : forall l1 l2, sorted_s l1 -> sorted_s l2 -> (forall x, In x l1 <-> In x l2) -> l1 = l2.
Proof.
  induction l1 as [|a l1 IH]; intros l2 H1 H2 HE.
  - destruct l2 as [|b l2]; [reflexivity|]. exfalso. apply (HE b). left. reflexivity.
  - destruct l2 as [|b l2]; [exfalso; apply (HE a); left; reflexivity|].
    inversion H1 as [|? ? S1 F1]; subst. inversion H2 as [|? ? S2 F2]; subst.
    rewrite Forall_forall in F1, F2.
    assert (a = b).
    { destruct (proj1 (HE a) (or_introl eq_refl)) as [E|Hin]; [congruence|].
      destruct (proj2 (HE b) (or_introl eq_refl)) as [E|Hin2]; [congruence|].
      exfalso. apply (label_lt_irrefl a). eapply label_lt_trans; [apply F1; exact Hin2|apply F2; exact Hin]. }
    subst b. f_equal. apply IH; auto. intros x. split; intros Hx.
    + destruct (proj1 (HE x) (or_intror Hx)) as [E|]; auto. subst x. exfalso. apply (label_lt_irrefl a), F1, Hx.
    + destruct (proj2 (HE x) (or_intror Hx)) as [E|]; auto. subst x. exfalso. apply (label_lt_irrefl a), F2, Hx.
Qed.
Lemma sort_s_ext : forall l1 l2, (forall x, In x l1 <-> In x l2) -> sort_s l1 = sort_s l2.
Proof. intros l1 l2 H. apply sorted_s_ext; [apply sort_s_sorted|apply sort_s_sorted|]. intros x. rewrite !sort_s_In. apply H. Qed.

(** * nmean *)
Lemma nadd_0_l : forall x, nadd (Fin 0) x = x. Proof. intros [|a| |]; cbn; try reflexivity. rewrite Rplus_0_l. reflexivity. Qed.
Lemma nmean_form : forall l, nmean l = match l with [] => NaN | _ => ndivp (fold_left nadd l (Fin 0)) (INR (length l)) end.
Proof. intros [|x l]; [reflexivity|]. cbn [nmean fold_left]. rewrite nadd_0_l. reflexivity. Qed.
Lemma fold_nadd_perm : forall l l', Permutation l l' -> forall x, fold_left nadd l x = fold_left nadd l' x.
Proof.
  induction 1; intros z; cbn [fold_left]; auto.
  - f_equal. rewrite <- !nadd_assoc. f_equal. apply nadd_comm.
  - rewrite IHPermutation1. apply IHPermutation2.
Qed.
Lemma nmean_perm : forall l l', Permutation l l' -> nmean l = nmean l'.
Proof.
  intros l l' H. rewrite !nmean_form. destruct l as [|a l]; destruct l' as [|b l']; [reflexivity|apply Permutation_nil in H; discriminate|symmetry in H; apply Permutation_nil in H; discriminate|].
  rewrite (fold_nadd_perm _ _ H), (Permutation_length H). reflexivity.
Qed.
Lemma fold_nadd_const : forall x l, isnan x = false -> (forall y, In y l -> y = x) -> forall z, (match x with Fin a => exists c, z = Fin c | _ => z = x end) ->
  fold_left nadd l z = match x with Fin a => nadd z (Fin (INR (length l) * a)) | _ => x end.
Proof.
  intros x l HX. induction l as [|y l IH]; intros H z Hz.
  - destruct x; cbn in *; try assumption; try discriminate. destruct Hz as [c ->]. cbn. f_equal. ring.
  - cbn [fold_left]. rewrite (H y) by (left; reflexivity). rewrite IH.
    + destruct x; try reflexivity; try discriminate. destruct Hz as [c ->]. cbn [nadd]. f_equal. cbn [length]. rewrite S_INR. ring.
    + intros; apply H; right; assumption.
    + destruct x; try discriminate; try (subst z; reflexivity). destruct Hz as [c ->]. cbn. eexists. reflexivity.
Qed.
Lemma nmean_const : forall x l, l <> [] -> isnan x = false -> (forall y, In y l -> y = x) -> nmean l = x.
Proof.
  intros x [|y l] NE HX H; [congruence|]. cbn [nmean]. rewrite (H y) by (left; reflexivity). rewrite (fold_nadd_const x l HX); [|intros; apply H; right; assumption|destruct x; try reflexivity; eexists; reflexivity].
  destruct x as [|a| |]; cbn [ndivp nadd]; try reflexivity; try discriminate. f_equal. cbn [length]. rewrite S_INR. field. pose proof (pos_INR (length l)). lra.
Qed.

(** * long rows and groups *)
Lemma in_long : forall vals a b x, In (a, b, x) (long_rows vals) <-> given vals a b x.
Proof.
  intros vals a b x. unfold long_rows, given. rewrite in_flat_map. split.
  - intros ([[c d] y] & Hin & H). simpl in H. destruct H as [E|[E|[]]]; injection E as -> -> ->; tauto.
  - intros [H|H]; [exists (a, b, x)|exists (b, a, x)]; (split; [exact H|]); simpl; tauto.
Qed.
Lemma in_group : forall rows a b x, In x (group rows a b) <-> In (a, b, x) rows /\ x <> NaN.
Proof.
  intros rows a b x. unfold group. rewrite in_map_iff. split.
  - intros ([[c d] y] & E & H). cbn [snd] in E. subst y. apply filter_In in H. destruct H as [H1 H2]. cbn [fst snd] in H2. rewrite !andb_true_iff, !String.eqb_eq, negb_true_iff in H2. destruct H2 as [[-> ->] H2]. split; [exact H1|]. intros ->. discriminate.
  - intros [H N]. exists (a, b, x). split; [reflexivity|]. apply filter_In. split; [exact H|]. cbn [fst snd]. rewrite !String.eqb_refl. cbn. destruct x; try reflexivity. congruence.
Qed.
Lemma perm_filter : forall A (p : A -> bool) l l', Permutation l l' -> Permutation (filter p l) (filter p l').
Proof.
  induction 1; cbn [filter]; auto.
  - destruct (p x); auto.
  - destruct (p x); destruct (p y); auto. apply perm_swap.
  - eapply perm_trans; eassumption.
Qed.
Lemma group_perm : forall rows rows' a b, Permutation rows rows' -> Permutation (group rows a b) (group rows' a b).
Proof. intros. unfold group. apply Permutation_map, perm_filter. assumption. Qed.
Lemma long_perm : forall vals vals', Permutation vals vals' -> Permutation (long_rows vals) (long_rows vals').
Proof. intros. unfold long_rows. apply Permutation_flat_map. assumption. Qed.
Lemma group_sym : forall vals a b, Permutation (group (long_rows vals) a b) (group (long_rows vals) b a).
Proof.
  intros vals a b. induction vals as [|[[c d] x] vals IH]; [apply Permutation_refl|].
  unfold group in *. cbn [long_rows flat_map app filter]. cbn [fst snd]. fold (long_rows vals).
  rewrite (andb_comm (String.eqb c b)), (andb_comm (String.eqb d b)).
  destruct (String.eqb d a && String.eqb c b && negb (isnan x)); destruct (String.eqb c a && String.eqb d b && negb (isnan x)); cbn [map snd]; auto.
Qed.

(** * the table *)
Lemma pos_In : forall s l, In s l -> exists i, pos s l = Some i /\ (i < length l)%nat /\ nth i l ""%string = s.
Proof.
  intros s l. induction l as [|a l IH]; intros H; [destruct H|]. cbn [pos]. destruct (String.eqb_spec s a) as [->|N]; [exists 0%nat; repeat split; simpl; lia|].
  destruct H as [H|H]; [congruence|]. destruct (IH H) as (i & E & L & Q). exists (S i). rewrite E. simpl. repeat split; [lia|exact Q].
Qed.
Lemma pos_None : forall s l, ~ In s l -> pos s l = None.
Proof. intros s l. induction l as [|a l IH]; intros H; [reflexivity|]. cbn [pos]. destruct (String.eqb_spec s a) as [->|N]; [exfalso; apply H; left; reflexivity|]. rewrite IH; [reflexivity|]. intros C. apply H. right. exact C. Qed.
Lemma tval_grid : forall (f : string -> string -> num) li lc a b,
  tval (mkT li lc (map (fun a => map (fun b => f a b) lc) li)) a b = if in_dec string_dec a li then if in_dec string_dec b lc then f a b else NaN else NaN.
Proof.
  intros f li lc a b. unfold tval. cbn [t_index t_columns t_cells]. destruct (in_dec string_dec a li) as [Ha|Ha].
  - destruct (pos_In a li Ha) as (i & E & L & Q). rewrite E. destruct (in_dec string_dec b lc) as [Hb|Hb].
    + destruct (pos_In b lc Hb) as (j & E' & L' & Q'). rewrite E'.
      rewrite (nth_indep _ [] (map (fun b => f ""%string b) lc)) by (rewrite map_length; exact L). rewrite (map_nth (fun a => map (fun b => f a b) lc)), Q.
      rewrite (nth_indep _ NaN (f a ""%string)) by (rewrite map_length; exact L'). rewrite (map_nth (fun b => f a b)), Q'. reflexivity.
    + rewrite (pos_None b lc Hb). reflexivity.
  - rewrite (pos_None a li Ha). reflexivity.
Qed.

Definition labelled (rows : list (string * string * num)) (a b : string) : Prop := (exists x, In (a, b, x) rows) /\ nmean (group rows a b) <> NaN.
Lemma isnan_false : forall x, negb (isnan x) = true <-> x <> NaN. Proof. intros [| | |]; cbn; split; congruence. Qed.
Lemma nmean_nil_group : forall rows a b, nmean (group rows a b) <> NaN -> exists x, In (a, b, x) rows.
Proof. intros rows a b H. destruct (group rows a b) as [|x l] eqn:E; [exfalso; apply H; reflexivity|]. exists x. assert (In x (group rows a b)) by (rewrite E; left; reflexivity). apply in_group in H0. tauto. Qed.
Lemma in_index : forall vals a, In a (t_index (overview vals)) <-> exists b, nmean (group (long_rows vals) a b) <> NaN.
Proof.
  intros vals a. unfold overview. cbn [t_index]. rewrite sort_s_In, in_map_iff. split.
  - intros ([[c d] x] & E & H). cbn [fst] in E. subst c. apply filter_In in H. cbn [fst snd] in H. exists d. apply isnan_false. tauto.
  - intros (b & H). destruct (nmean_nil_group _ _ _ H) as [x Hx]. exists (a, b, x). split; [reflexivity|]. apply filter_In. split; [exact Hx|]. cbn [fst snd]. apply isnan_false. exact H.
Qed.
Lemma in_columns : forall vals a, In a (t_columns (overview vals)) <-> exists b, nmean (group (long_rows vals) b a) <> NaN.
Proof.
  intros vals a. unfold overview. cbn [t_columns]. rewrite sort_s_In, in_map_iff. split.
  - intros ([[c d] x] & E & H). cbn [fst snd] in E. subst d. apply filter_In in H. cbn [fst snd] in H. exists c. apply isnan_false. tauto.
  - intros (b & H). destruct (nmean_nil_group _ _ _ H) as [x Hx]. exists (b, a, x). split; [reflexivity|]. apply filter_In. split; [exact Hx|]. cbn [fst snd]. apply isnan_false. exact H.
Qed.
Lemma index_columns : forall vals, t_index (overview vals) = t_columns (overview vals).
Proof.
  intros vals. apply sorted_s_ext; [apply sort_s_sorted|apply sort_s_sorted|]. intros x. rewrite in_index, in_columns.
  split; intros (b & H); exists b; intros C; apply H; rewrite <- C; apply nmean_perm, group_sym.
Qed.
Lemma tval_overview : forall vals a b, tval (overview vals) a b = nmean (group (long_rows vals) a b).
Proof.
  intros vals a b. transitivity (if in_dec string_dec a (t_index (overview vals)) then if in_dec string_dec b (t_columns (overview vals)) then nmean (group (long_rows vals) a b) else NaN else NaN).
  - unfold overview at 1. apply tval_grid.
  - destruct (in_dec string_dec a _) as [Ha|Ha]; [destruct (in_dec string_dec b _) as [Hb|Hb]; [reflexivity|]|].
    + destruct (nmean (group (long_rows vals) a b)) eqn:E; try reflexivity; exfalso; apply Hb, in_columns; exists a; rewrite E; discriminate.
    + destruct (nmean (group (long_rows vals) a b)) eqn:E; try reflexivity; exfalso; apply Ha, in_index; exists b; rewrite E; discriminate.
Qed.
Lemma tval_sym : forall vals a b, tval (overview vals) a b = tval (overview vals) b a.
Proof. intros. rewrite !tval_overview. apply nmean_perm, group_sym. Qed.

Theorem overview_perm : forall vals vals', Permutation vals vals' -> overview vals = overview vals'.
Proof.
  intros vals vals' H. pose proof (long_perm _ _ H) as HL.
  assert (G : forall a b, nmean (group (long_rows vals) a b) = nmean (group (long_rows vals') a b)) by (intros; apply nmean_perm, group_perm, HL).
  assert (EI : t_index (overview vals) = t_index (overview vals')).
  { apply sorted_s_ext; [apply sort_s_sorted|apply sort_s_sorted|]. intros x. rewrite !in_index. split; intros (b & Q); exists b; congruence. }
  assert (EC : t_columns (overview vals) = t_columns (overview vals')) by (rewrite <- !index_columns; exact EI).
  unfold overview in *. cbn [t_index t_columns] in EI, EC. rewrite EI, EC. f_equal. apply map_ext. intros a. apply map_ext. intros b. apply G.
Qed.

(** values *)
Lemma overview_given : forall vals a b x, one_value_per_pair vals -> given vals a b x -> tval (overview vals) a b = x.
Proof.
  intros vals a b x OV H. rewrite tval_overview. destruct x as [|r| |].
  - destruct (group (long_rows vals) a b) as [|y l] eqn:E; [reflexivity|]. exfalso. assert (Hy : In y (group (long_rows vals) a b)) by (rewrite E; left; reflexivity). apply in_group in Hy. destruct Hy as [Hy N]. apply in_long in Hy. apply N. symmetry. eapply OV; eassumption.
  - apply nmean_const; [|reflexivity|].
    + intros C. assert (In (Fin r) (group (long_rows vals) a b)) by (apply in_group; split; [apply in_long; exact H|discriminate]). rewrite C in H0. destruct H0.
    + intros y Hy. apply in_group in Hy. destruct Hy as [Hy _]. apply in_long in Hy. eapply OV; eassumption.
  - apply nmean_const; [|reflexivity|].
    + intros C. assert (In PInf (group (long_rows vals) a b)) by (apply in_group; split; [apply in_long; exact H|discriminate]). rewrite C in H0. destruct H0.
    + intros y Hy. apply in_group in Hy. destruct Hy as [Hy _]. apply in_long in Hy. eapply OV; eassumption.
  - apply nmean_const; [|reflexivity|].
    + intros C. assert (In MInf (group (long_rows vals) a b)) by (apply in_group; split; [apply in_long; exact H|discriminate]). rewrite C in H0. destruct H0.
    + intros y Hy. apply in_group in Hy. destruct Hy as [Hy _]. apply in_long in Hy. eapply OV; eassumption.
Qed.
Lemma overview_absent : forall vals a b, (forall x, ~ given vals a b x) -> tval (overview vals) a b = NaN.
Proof.
  intros vals a b H. rewrite tval_overview. destruct (group (long_rows vals) a b) as [|y l] eqn:E; [reflexivity|]. exfalso. assert (Hy : In y (group (long_rows vals) a b)) by (rewrite E; left; reflexivity). apply in_group in Hy. apply (H y). apply in_long. tauto.
Qed.
Lemma overview_labels : forall vals a, one_value_per_pair vals -> (In a (t_index (overview vals)) <-> exists b x, given vals a b x /\ x <> NaN).
Proof.
  intros vals a OV. rewrite in_index. split.
  - intros (b & H). destruct (group (long_rows vals) a b) as [|y l] eqn:E; [exfalso; apply H; reflexivity|]. exists b, y. assert (Hy : In y (group (long_rows vals) a b)) by (rewrite E; left; reflexivity). apply in_group in Hy. rewrite <- in_long. tauto.
  - intros (b & x & H & N). exists b. rewrite <- tval_overview, (overview_given vals a b x OV H). exact N.
Qed.
Lemma overview_wf : forall vals, well_formed (overview vals).
Proof. intros vals. unfold overview. split; cbn [t_cells t_index t_columns]; [apply map_length|]. intros row H. apply in_map_iff in H. destruct H as (a & <- & _). apply map_length. Qed.
Lemma overview_sorted : forall vals, StronglySorted label_lt (t_index (overview vals)).
Proof. intros. apply sort_s_sorted. Qed.

Lemma reindex_val : forall t order a b, In a order -> In b order -> tval (reindex t order) a b = tval t a b.
Proof. intros t order a b Ha Hb. unfold reindex. rewrite tval_grid. destruct (in_dec string_dec a order); [|contradiction]. destruct (in_dec string_dec b order); [reflexivity|contradiction]. Qed.
Lemma reindex_wf : forall t order, well_formed (reindex t order).
Proof. intros. unfold reindex. split; cbn [t_cells t_index t_columns]; [apply map_length|]. intros row H. apply in_map_iff in H. destruct H as (a & <- & _). apply map_length. Qed.
