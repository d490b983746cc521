(** C109: column labels that are numbers, and repeated labels, in the significance functions. *)
From Coq Require Import String ZArith List Bool Reals Lia.
From Verif Require Import F64 Base Cells BinModel HistModel RSum StatsModel BivModel Num PhikModel SimModel SigModel LabelModel LabelSigModel LabelProofs SpecLabel SpecHist SpecPhik SpecLabelSig HistProofs OverviewProofs BinDataProofs PhikInvProofs PhikMatProofs PropsHist PropsLabel.
Import ListNotations.
Open Scope list_scope.

(** the check of the columns under renaming *)
Lemma check_rename : forall (s : string -> label) df ic d, (forall a b, s a = s b -> a = b) -> NoDup (keys df) ->
  match dq_check_l (relabel s df) (map s ic) d with
  | Ok (g, ic', w) => ~ mixed (map s ic) (relabel s df) /\ ~ numbered_trouble (map s ic) d (relabel s df) /\
      g = relabel s (fst (dq_check_nunique_values df ic d)) /\ ic' = map s (snd (dq_check_nunique_values df ic d))
  | Raise TypeError => mixed (map s ic) (relabel s df)
  | Raise ValueError => ~ mixed (map s ic) (relabel s df) /\ numbered_trouble (map s ic) d (relabel s df)
  | Raise _ => False
  end.
Proof.
  intros s df ic d inj ND. assert (ND' : NoDup (labels (relabel s df))) by (rewrite r_labels; apply r_nodup; assumption).
  pose proof (C98_check (relabel s df) (map s ic) d) as C.
  destruct (dq_check_l (relabel s df) (map s ic) d) as [[[g ic'] w]|e]; [|destruct e; try exact C; destruct C as [C1 [C2|C2]]; [contradiction|split; assumption]].
  destruct C as (M & _ & T & S1 & S2 & _). split; [exact M|]. split; [exact T|].
  destruct (C38_surviving_columns df ic d ND) as [Q1 Q2]. destruct (dq_check_nunique_values df ic d) as [cl icc]. cbn [fst snd] in *.
  set (sv := fun p : string * col => Nat.leb 2 (nunique (snd p)) || (Nat.eqb (nunique (snd p)) 1 && negb d && negb (mem (fst p) ic))) in *.
  assert (KS : forall p, sv p = true <-> kept (map s ic) d (s (fst p), snd p)).
  { intros [a c]. unfold sv, kept. cbn [fst snd]. rewrite orb_true_iff, !andb_true_iff, Nat.leb_le, Nat.eqb_eq, !negb_true_iff, (r_in s inj).
    assert (X : mem a ic = false <-> ~ In a ic) by (rewrite <- (r_mem s inj), lmem_false, (r_in s inj); reflexivity). rewrite X. tauto. }
  assert (G : g = relabel s cl).
  { apply (selects_unique _ (kept (map s ic) d) (kept (map s ic) d) (relabel s df)); [tauto|exact S1|]. rewrite Q1. unfold relabel.
    apply (selects_map _ _ _ (fun p => kept (map s ic) d (s (fst p), snd p))); [tauto|]. apply selects_filter. intros p _. apply KS. }
  split; [exact G|].
  apply (selects_unique _ (fun a => In a (labels g)) (fun a => In a (labels g)) (map s ic)); [tauto|exact S2|]. rewrite Q2, G, r_labels.
  apply (selects_map _ _ _ (fun a => In a (keys cl))); [intros a _; rewrite (r_in s inj); reflexivity|]. rewrite Q1. apply selects_filter.
  intros a _. rewrite <- (r_mem s inj), lmem_In, (r_in s inj). reflexivity.
Qed.
Lemma dq_keys : forall df ic d, NoDup (keys df) -> NoDup (keys (fst (dq_check_nunique_values df ic d))).
Proof. intros df ic d ND. destruct (C38_surviving_columns df ic d ND) as [Q1 _]. destruct (dq_check_nunique_values df ic d). cbn [fst] in *. rewrite Q1. apply nodup_keys_filter. exact ND. Qed.
Lemma guess_rename : forall s df interval_cols, (match option_map (map s) interval_cols with Some l => l | None => guess_l (relabel s df) end) =
  map s (match interval_cols with Some l => l | None => guess_interval_cols df end).
Proof.
  intros s df [l|]; [reflexivity|]. cbn [option_map]. unfold guess_l, guess_interval_cols, labels, relabel. induction df as [|[a c] f IH]; [reflexivity|].
  cbn [map filter snd fst]. destruct (c_num c); cbn [map]; rewrite IH; reflexivity.
Qed.

(** pairs in the order of the columns *)
Lemma combos_in_order : forall (A : Type) (f : list A) p q, In (p, q) (combos f) <-> in_order f p q.
Proof.
  intros A f p q. induction f as [|a f IH].
  - split; [intros []|]. intros (b & c & E & _). destruct b; discriminate.
  - cbn [combos]. rewrite in_app_iff, in_map_iff, IH. split.
    + intros [(r & E & H)|(b & c & -> & H)]; [|exists (a :: b), c; split; [reflexivity|exact H]]. injection E as -> ->. exists [], f. split; [reflexivity|exact H].
    + intros ([|b0 b] & c & E & H); cbn [app] in E; injection E as <- ->; [left; exists q; split; [reflexivity|exact H]|right; exists b, c; split; [reflexivity|exact H]].
Qed.
Definition degen (x y : list cell) : bool := is01 (length (h_rows (crosstab (combine x y)))) || is01 (length (h_cols (crosstab (combine x y)))).
Lemma degen_too_few : forall d u o x y, degen (map (clean1 d u o) (c_cells x)) (map (clean1 d u o) (c_cells y)) = true <-> too_few d u o x y.
Proof.
  intros d u o x y. pose proof (clean_table d u o (c_cells x) (c_cells y)) as T. unfold degen. rewrite is01_proper. split.
  - intros H. eexists. split; [exact T|exact H].
  - intros (h & H1 & H2). rewrite (is_table_unique _ _ _ _ T H1). exact H2.
Qed.
Lemma is_number_dec : forall a, is_number a \/ exists t, a = LStr t.
Proof. intros [z|t]; [left; exists z; reflexivity|right; exists t; reflexivity]. Qed.

Section Sig.
Variable SL : slib.
Variable St : Type.
Variable multinomial : Z -> list R -> St -> res (list Z) * St.
Variable randint : Z -> Z -> St -> Z * St.
Variables (libm_exp libm_log : f64 -> f64) (uninit : nat -> list Z) (ib0 : Z) (fuel : nat) (cpp : bool).
Variable clamp : bool.
Variable npq : list f64 -> Z -> list f64.
Notation calc := (calc_signif SL St multinomial randint libm_exp libm_log uninit ib0 fuel cpp clamp).
Notation calc_l := (calc_signif_l SL St multinomial randint libm_exp libm_log uninit ib0 fuel cpp clamp).
Notation rebinned := (significance_from_rebinned_df SL St multinomial randint libm_exp libm_log uninit ib0 fuel cpp clamp).
Notation rebinned_l := (signif_rebinned_l SL St multinomial randint libm_exp libm_log uninit ib0 fuel cpp clamp).
Notation matrix := (significance_matrix SL St multinomial randint libm_exp libm_log uninit ib0 fuel cpp clamp npq).
Notation matrix_l := (significance_matrix_l SL St multinomial randint libm_exp libm_log uninit ib0 fuel cpp clamp npq).

(** the outcome of a computation with the value changed *)
Definition omap {A B} (g : A -> B) (r : res A * St) : res B * St := (rmap g (fst r), snd r).
Lemma mmap_rename : forall (A B C D : Type) (g : A -> B) (F : B -> M St C) (G : A -> M St D) (h : D -> C) l, (forall a, In a l -> forall st, F (g a) st = omap h (G a st)) ->
  forall st, mmap St F (map g l) st = omap (map h) (mmap St G l st).
Proof.
  intros A B C D g F G h l. induction l as [|a l IH]; intros H st; [reflexivity|]. cbn [map mmap]. unfold mbind. rewrite (H a (or_introl eq_refl)).
  destruct (G a st) as [[x|e] s1]; [|reflexivity]. cbn [omap rmap rbind fst snd]. rewrite IH by (intros b I; apply H; right; exact I).
  destruct (mmap St G l s1) as [[y|e] s2]; reflexivity.
Qed.
Lemma mmap_refuse : forall (A B C D : Type) (g : A -> B) (F : B -> M St C) (G : A -> M St D) (h : D -> C) (bad : A -> Prop) l,
  (forall a, In a l -> (bad a /\ forall st, F (g a) st = (Raise ValueError, st)) \/ (~ bad a /\ forall st, F (g a) st = omap h (G a st))) ->
  (exists a, In a l /\ bad a) ->
  forall st, fst (mmap St F (map g l) st) = Raise ValueError \/ exists e, fst (mmap St G l st) = Raise e /\ fst (mmap St F (map g l) st) = Raise e.
Proof.
  intros A B C D g F G h bad l. induction l as [|a l IH]; intros H (b & Hb & B0) st; [destruct Hb|]. cbn [map mmap]. unfold mbind.
  destruct (H a (or_introl eq_refl)) as [(_ & X)|(N & X)]; [left; rewrite X; reflexivity|]. rewrite X. destruct (G a st) as [[x|e] s1].
  2:{ right. exists e. split; reflexivity. }
  cbn [omap rmap rbind fst snd].
  assert (EX : exists a, In a l /\ bad a) by (destruct Hb as [<- |Hb]; [contradiction|exists b; split; assumption]).
  destruct (IH (fun y I => H y (or_intror I)) EX s1) as [E|(e & E1 & E2)].
  - left. destruct (mmap St F (map g l) s1) as [r s2]. cbn [fst] in E. rewrite E. reflexivity.
  - right. exists e. destruct (mmap St G l s1) as [r s2], (mmap St F (map g l) s1) as [r' s2']. cbn [fst] in E1, E2. rewrite E1, E2. split; reflexivity.
Qed.

Section Rename.
Variable s : string -> label.
Hypothesis inj : forall a b, s a = s b -> a = b.
Variables (workers : string -> string -> option (nat -> St)) (workers' : label -> label -> option (nat -> St)).
Hypothesis same_workers : forall a b, workers' (s a) (s b) = workers a b.

Lemma calc_rename : forall nsim l simm sigm f p q, NoDup (keys f) -> In p f -> In q f ->
  let bad := degen (c_cells (snd p)) (c_cells (snd q)) = true /\ (is_number (s (fst p)) \/ is_number (s (fst q))) in
  (bad /\ forall st, calc_l nsim l simm sigm workers' (relabel s f) (s (fst p)) (s (fst q)) st = (Raise ValueError, st)) \/
  (~ bad /\ forall st, calc_l nsim l simm sigm workers' (relabel s f) (s (fst p)) (s (fst q)) st = omap (rv s) (calc nsim l simm sigm workers p q st)).
Proof.
  intros nsim l simm sigm f [a x] [b y] ND Hp Hq bad. cbn [fst snd] in *. unfold calc_signif_l, calc_signif.
  assert (ND' : NoDup (labels (relabel s f))) by (rewrite r_labels; apply r_nodup; assumption).
  rewrite (filter_unique _ _ (s a) x ND'), (filter_unique _ _ (s b) y ND'); [|apply in_map_iff; exists (b, y); split; [reflexivity|exact Hq]|apply in_map_iff; exists (a, x); split; [reflexivity|exact Hp]].
  fold (degen (c_cells x) (c_cells y)). destruct (degen (c_cells x) (c_cells y)).
  - destruct (is_number_dec (s a)) as [(z & E)|(t & E)].
    { left. split; [split; [reflexivity|left; exists z; exact E]|]. intros st. rewrite E. reflexivity. }
    destruct (is_number_dec (s b)) as [(z & E')|(t' & E')].
    { left. split; [split; [reflexivity|right; exists z; exact E']|]. intros st. rewrite E, E'. reflexivity. }
    right. split; [intros (_ & [(z & X)|(z & X)]); congruence|]. intros st. rewrite E, E'. unfold mbind, lift, fmt_s, ret, omap, rv. cbn [rmap rbind fst snd]. rewrite E, E'. reflexivity.
  - right. split; [intros (X & _); discriminate|]. intros st. rewrite same_workers. unfold mbind. destruct (significance_from_hist2d _ _ _ _ _ _ _ _ _ _ _ _ _ _ _ _ _ _) as [[v|e] s1]; reflexivity.
Qed.
Lemma rebinned_unfold : forall f l simm nsim sigm d u o st, fst (rebinned f l simm nsim sigm d u o workers) st =
  omap (fun vals => reindex (overview vals) (keys f)) (mmap St (fun pq => calc nsim l simm sigm workers (fst pq) (snd pq)) (combos (clean d u o f)) st).
Proof.
  intros. unfold significance_from_rebinned_df. cbn [fst]. unfold mbind. assert (K : keys (clean d u o f) = keys f) by (unfold clean, keys; rewrite map_map; reflexivity).
  destruct (mmap _ _ _ st) as [[vals|e] s1] eqn:E; [|reflexivity]. unfold ret, omap. cbn [rmap rbind fst snd]. rewrite K. destruct vals as [|v vals]; [|reflexivity].
  destruct f as [|p f]; [reflexivity|]. exfalso. cbn [clean map combos app mmap] in E. unfold mbind in E. destruct (calc nsim l simm sigm workers _ _ st) as [[v|] s2]; [|discriminate]. destruct (mmap St _ _ s2) as [[w|] s3]; discriminate.
Qed.
Lemma bad_unwarnable : forall d u o f, unwarnable d u o (relabel s f) <->
  exists pq, In pq (combos (clean d u o f)) /\ degen (c_cells (snd (fst pq))) (c_cells (snd (snd pq))) = true /\ (is_number (s (fst (fst pq))) \/ is_number (s (fst (snd pq)))).
Proof.
  intros d u o f. set (cl := fun p : string * col => (fst p, mkCol (c_num (snd p)) (map (clean1 d u o) (c_cells (snd p))))). change (clean d u o f) with (map cl f).
  unfold unwarnable. split.
  - intros (p & q & HO & TF & NU). apply combos_in_order in HO. unfold relabel in HO. rewrite r_combos in HO. apply in_map_iff in HO. destruct HO as ([p0 q0] & E & HO). cbn [fst snd] in E. injection E as <- <-.
    exists (cl p0, cl q0). split; [rewrite r_combos; apply in_map_iff; exists (p0, q0); split; [reflexivity|exact HO]|]. cbn [fst snd cl c_cells] in *. split; [apply degen_too_few; exact TF|exact NU].
  - intros (pq & HO & TF & NU). rewrite r_combos in HO. apply in_map_iff in HO. destruct HO as ([p0 q0] & <- & HO). cbn [fst snd cl c_cells] in *.
    exists (s (fst p0), snd p0), (s (fst q0), snd q0). split; [|split; [apply degen_too_few; exact TF|exact NU]].
    apply combos_in_order. unfold relabel. rewrite r_combos. apply in_map_iff. exists (p0, q0). split; [reflexivity|exact HO].
Qed.
Lemma mbind_fst : forall (A B : Type) (m : M St A) (k : A -> M St B) st e, fst (m st) = Raise e -> fst (mbind St m k st) = Raise e.
Proof. intros A B m k st e H. unfold mbind. destruct (m st) as [[x|e'] s1]; cbn [fst] in *; [discriminate|congruence]. Qed.

(** significance_from_rebinned_df: renaming the columns renames the result and leaves the random state the same, unless a pair of columns without
    a proper table has a number as a name; then there is no result: ValueError, or an exception that the run with string names raises as well *)
Theorem C109_rebinned : forall f l simm nsim sigm d u o st, NoDup (keys f) ->
  let new := rebinned_l (relabel s f) l simm nsim sigm d u o workers' st in
  let old := fst (rebinned f l simm nsim sigm d u o workers) st in
  (~ unwarnable d u o (relabel s f) -> new = omap (relabel_table s) old) /\
  (unwarnable d u o (relabel s f) -> fst new = Raise ValueError \/ exists e, fst old = Raise e /\ fst new = Raise e).
Proof.
  intros f l simm nsim sigm d u o st ND new old. rewrite bad_unwarnable. unfold new, old. rewrite rebinned_unfold. unfold signif_rebinned_l. rewrite (r_clean s). set (g := clean d u o f).
  assert (NG : NoDup (keys g)) by (unfold g, clean, keys; rewrite map_map; exact ND). rewrite r_labels.
  assert (KG : keys g = keys f) by (unfold g, clean, keys; rewrite map_map; reflexivity).
  set (F := fun pq => calc_l nsim l simm sigm workers' (relabel s g) (fst pq) (snd pq)). set (G := fun pq => calc nsim l simm sigm workers (fst pq) (snd pq)).
  assert (CB : combos (map s (keys g)) = map (fun p => (s (fst (fst p)), s (fst (snd p)))) (combos g)) by (unfold keys; rewrite map_map, r_combos; reflexivity).
  pose (bad := fun pq : (string * col) * (string * col) => degen (c_cells (snd (fst pq))) (c_cells (snd (snd pq))) = true /\ (is_number (s (fst (fst pq))) \/ is_number (s (fst (snd pq))))).
  assert (H : forall pq, In pq (combos g) -> (bad pq /\ forall st, F (s (fst (fst pq)), s (fst (snd pq))) st = (Raise ValueError, st)) \/ (~ bad pq /\ forall st, F (s (fst (fst pq)), s (fst (snd pq))) st = omap (rv s) (G pq st))).
  { intros [p q] I. apply in_combos in I. apply (calc_rename nsim l simm sigm g p q NG (proj1 I) (proj2 I)). }
  rewrite CB. split.
  - intros NB. unfold mbind. rewrite (mmap_rename _ _ _ _ (fun p => (s (fst (fst p)), s (fst (snd p)))) F G (rv s)).
    2:{ intros pq I. destruct (H pq I) as [(X & _)|(_ & X)]; [|exact X]. exfalso. apply NB. exists pq. split; [exact I|exact X]. }
    destruct (mmap St G (combos g) st) as [[vals|e] s1]; [|reflexivity]. unfold omap, ret. cbn [rmap rbind fst snd]. rewrite KG. unfold relabel_table, reindex. cbn [t_index t_columns t_cells]. do 3 f_equal.
    rewrite map_map. apply map_ext. intros a. rewrite map_map. apply map_ext. intros b. apply (r_entry s inj).
  - intros (pq & I & B). destruct (mmap_refuse _ _ _ _ (fun p => (s (fst (fst p)), s (fst (snd p)))) F G (rv s) bad (combos g) H (ex_intro _ pq (conj I B)) st) as [E|(e & E1 & E2)].
    + left. apply mbind_fst. exact E.
    + right. exists e. split; [unfold omap; cbn [fst]; rewrite E1; reflexivity|]. apply mbind_fst. exact E2.
Qed.

(** significance_matrix: as for phik_matrix (C98) the labels are checked first; then as above, on the binned columns *)
Theorem C109_matrix : forall df interval_cols l simm nsim sigm bins d u o st, NoDup (keys df) ->
  let ic := match interval_cols with Some c => c | None => guess_interval_cols df end in
  let new := matrix_l (relabel s df) (option_map (map s) interval_cols) l simm nsim sigm (relabel_bins s bins) d u o workers' st in
  let old := matrix df interval_cols l simm nsim sigm bins d u o workers st in
  (mixed (map s ic) (relabel s df) -> new = (Raise TypeError, st)) /\
  (~ mixed (map s ic) (relabel s df) -> numbered_trouble (map s ic) d (relabel s df) -> new = (Raise ValueError, st)) /\
  (~ mixed (map s ic) (relabel s df) -> ~ numbered_trouble (map s ic) d (relabel s df) ->
     match bin_data npq (fst (dq_check_nunique_values df ic d)) (snd (dq_check_nunique_values df ic d)) bins false with
     | Raise e => new = (Raise e, st)
     | Ok (binned, _) =>
         (~ unwarnable d u o (relabel s binned) -> exists w, new = omap (fun t => (relabel_table s t, w)) old) /\
         (unwarnable d u o (relabel s binned) -> fst new = Raise ValueError \/ exists e, fst old = Raise e /\ fst new = Raise e)
     end).
Proof.
  intros df interval_cols l simm nsim sigm bins d u o st ND ic new old. unfold new, significance_matrix_l. rewrite guess_rename. fold ic. pose proof (check_rename s df ic d inj ND) as C.
  unfold mbind, lift, ret. destruct (dq_check_l (relabel s df) (map s ic) d) as [[[g ic'] w]|e].
  2:{ destruct e; try contradiction; (split; [intros M; try reflexivity; tauto|split; intros M T; try reflexivity; tauto]). }
  destruct C as (M & T & -> & ->). split; [contradiction|]. split; [contradiction|]. intros _ _. cbn [fst snd]. rewrite (r_bin_data s inj). unfold old, significance_matrix. fold ic.
  pose proof (dq_keys df ic d ND) as NK. destruct (dq_check_nunique_values df ic d) as [cl icc]. cbn [fst snd] in *. destruct (bin_data npq cl icc bins false) as [[bf bdict]|e] eqn:EB; [|reflexivity].
  cbn [rmap rbind fst]. unfold mbind, lift. cbn [fst]. assert (NB : NoDup (keys bf)) by (pose proof (bin_data_spec _ _ _ _ _ _ _ EB) as (K & _); rewrite K; exact NK).
  destruct (C109_rebinned bf l simm nsim sigm d u o st NB) as [A B]. split; intros U.
  - exists w. rewrite (A U). destruct (fst (rebinned bf l simm nsim sigm d u o workers) st) as [[t|e] s1]; reflexivity.
  - specialize (B U). destruct (rebinned_l (relabel s bf) l simm nsim sigm d u o workers' st) as [[t|e] s1]; cbn [fst] in B.
    + destruct B as [B|(e & _ & B)]; discriminate.
    + destruct B as [B|(e' & B1 & B2)]; [left; cbn [fst]; congruence|right; exists e'; split; [exact B1|cbn [fst]; congruence]].
Qed.
End Rename.

(** With string names nothing is refused. *)
Theorem C109_strings : forall df interval_cols l simm nsim sigm bins d u o workers st, NoDup (keys df) ->
  exists w, matrix_l (relabel LStr df) (option_map (map LStr) interval_cols) l simm nsim sigm (relabel_bins LStr bins) d u o
      (fun a b => match a, b with LStr x, LStr y => workers x y | _, _ => None end) st =
    omap (fun t => (relabel_table LStr t, w)) (matrix df interval_cols l simm nsim sigm bins d u o workers st).
Proof.
  intros df interval_cols l simm nsim sigm bins d u o workers st ND.
  assert (NI : forall g : frame, forall z, ~ In (LInt z) (labels (relabel LStr g))) by (intros g z I; rewrite r_labels in I; apply in_map_iff in I; destruct I as (x & E & _); discriminate).
  set (w' := fun a b => match a, b with LStr x, LStr y => workers x y | _, _ => None end).
  destruct (C109_matrix LStr ltac:(congruence) workers w' ltac:(reflexivity) df interval_cols l simm nsim sigm bins d u o st ND) as (_ & _ & H).
  specialize (H ltac:(intros [(z & I & _) _]; exact (NI df z I)) ltac:(intros (z & c & I & _); apply (NI df z), in_labels; exists c; exact I)).
  set (ic := match interval_cols with Some c => c | None => guess_interval_cols df end) in *.
  destruct (bin_data npq (fst (dq_check_nunique_values df ic d)) (snd (dq_check_nunique_values df ic d)) bins false) as [[bf bd]|e] eqn:EB.
  - apply (proj1 H). intros (p & q & HO & _ & NU). apply combos_in_order, in_combos in HO. destruct HO as [I1 I2]. cbn [fst snd] in I1, I2. destruct NU as [(z & E)|(z & E)]; apply (NI bf z), in_labels; rewrite <- E; [exists (snd p)|exists (snd q)]; rewrite <- surjective_pairing; assumption.
  - exists []. rewrite H. unfold significance_matrix. fold ic. destruct (dq_check_nunique_values df ic d) as [cl icc]. cbn [fst snd] in EB. unfold mbind, lift. rewrite EB. reflexivity.
Qed.

(** A repeated label: no result. Unlike phik_from_rebinned_df (C98_same_label) significance_from_rebinned_df refuses equal labels in every case. *)
Theorem C109_repeated : forall f l simm nsim sigm d u o workers st, ~ NoDup (labels f) -> exists e, fst (rebinned_l f l simm nsim sigm d u o workers st) = Raise e.
Proof.
  intros f l simm nsim sigm d u o workers st ND. unfold signif_rebinned_l. set (f' := lclean d u o f).
  assert (EL : labels f' = labels f) by (unfold f', lclean, labels; rewrite map_map; reflexivity). rewrite EL.
  assert (RP : exists c, In c (labels f) /\ forall k, filter (fun p => label_eqb c (fst p)) f' <> [k]).
  { assert (DEC : forall l, (forall c, In c l -> col_nunique f' c <> Raise ValueError) \/ exists c, In c l /\ col_nunique f' c = Raise ValueError).
    { induction l0 as [|c l0 IH]; [left; intros c []|]. destruct (col_nunique_cases f' c) as [(k & K & _)|K].
      - destruct IH as [IH|(c' & H1 & H2)]; [left; intros c' [<- |H]; [congruence|apply IH; exact H]|right; exists c'; split; [right; exact H1|exact H2]].
      - right. exists c. split; [left; reflexivity|exact K]. }
    destruct (DEC (labels f')) as [D|(c & Hc & Y)]; [exfalso; apply ND; rewrite <- EL; apply nodup_of_nunique; exact D|].
    exists c. split; [rewrite <- EL; exact Hc|]. intros [k kc] K. unfold col_nunique in Y. rewrite K in Y. discriminate. }
  destruct RP as (c & Hc & RP).
  assert (RA : forall st, calc_l nsim l simm sigm workers f' c c st = (Raise ValueError, st)).
  { intros st'. unfold calc_signif_l. destruct (filter (fun p => label_eqb c (fst p)) f') as [|[k kc] [|p fl]] eqn:E; [reflexivity|exfalso; exact (RP _ eq_refl)|reflexivity]. }
  assert (IN : In (c, c) (combos (labels f))).
  { clear - Hc. induction (labels f) as [|y l IH]; [destruct Hc|]. cbn [combos]. rewrite in_app_iff. destruct Hc as [-> |Hc]; [left; apply in_map_iff; exists c; split; [reflexivity|left; reflexivity]|right; exact (IH Hc)]. }
  assert (X : exists e, fst (mmap St (fun pq => calc_l nsim l simm sigm workers f' (fst pq) (snd pq)) (combos (labels f)) st) = Raise e).
  { revert st IN. induction (combos (labels f)) as [|p cs IH]; intros st IN; [destruct IN|]. cbn [mmap]. unfold mbind. destruct IN as [-> |IN]; [cbn [fst snd]; rewrite RA; exists ValueError; reflexivity|].
    destruct (calc_l nsim l simm sigm workers f' (fst p) (snd p) st) as [[v|e] s1]; [|exists e; reflexivity]. destruct (IH s1 IN) as (e & E). exists e. destruct (mmap St _ cs s1) as [[v'|e'] s2]; cbn [fst] in *; congruence. }
  destruct X as (e & X). exists e. apply mbind_fst. exact X.
Qed.
Theorem C109_repeated_matrix : forall f interval_cols l simm nsim sigm bins d u o workers st, ~ NoDup (labels f) ->
  matrix_l f interval_cols l simm nsim sigm bins d u o workers st = (Raise ValueError, st) \/ matrix_l f interval_cols l simm nsim sigm bins d u o workers st = (Raise TypeError, st).
Proof.
  intros f interval_cols l simm nsim sigm bins d u o workers st ND. unfold significance_matrix_l. set (ic := match interval_cols with Some c => c | None => guess_l f end).
  pose proof (C98_check f ic d) as C. unfold mbind, lift. destruct (dq_check_l f ic d) as [[[g ic'] w]|e]; [destruct C as (_ & C & _); contradiction|].
  destruct e; try contradiction; [left|right]; reflexivity || (right; reflexivity).
Qed.

(** So numbers as names are not harmless: one interval column whose values all fall into one bin has an undefined significance (NaN) if its
    name is a string, and is an error if its name is a number. *)
Theorem C109_numbers_not_harmless : exists df bins,
  (forall l simm nsim sigm o workers st, matrix df None l simm nsim sigm bins true true o workers st = (Ok (mkT ["a"%string] ["a"%string] [[NaN]]), st)) /\
  (forall l simm nsim sigm o workers st, matrix_l (relabel (fun _ => LInt 0) df) None l simm nsim sigm (relabel_bins (fun _ => LInt 0) bins) true true o workers st = (Raise ValueError, st)).
Proof.
  exists [("a"%string, mkCol true [CInt 1; CInt 2])], (BOne (BEdges [ofZ 0; ofZ 10])). split; intros.
  - assert (D : dq_check_nunique_values [("a"%string, mkCol true [CInt 1; CInt 2])] (guess_interval_cols [("a"%string, mkCol true [CInt 1; CInt 2])]) true = ([("a"%string, mkCol true [CInt 1; CInt 2])], ["a"%string])) by (vm_compute; reflexivity).
    unfold significance_matrix. rewrite D. unfold mbind at 1, lift at 1.
    assert (E : exists dict, bin_data npq [("a"%string, mkCol true [CInt 1; CInt 2])] ["a"%string] (BOne (BEdges [ofZ 0; ofZ 10])) false = Ok ([("a"%string, mkCol false [CInt 1; CInt 1])], dict)) .
    { cbn [bin_data bin_cols assoc String.eqb Ascii.eqb Bool.eqb c_cells mapM to_float rbind set_assoc]. assert (Q : fst (bin_array [ofZ 1; ofZ 2] [ofZ 0; ofZ 10]) = [CInt 1; CInt 1]) by (vm_compute; reflexivity).
      destruct (bin_array [ofZ 1; ofZ 2] [ofZ 0; ofZ 10]) as [b ls]. cbn [fst] in Q. rewrite Q. eexists. reflexivity. }
    destruct E as (dict & ->). cbn [fst]. destruct o; reflexivity.
  - change (relabel (fun _ => LInt 0) [("a"%string, mkCol true [CInt 1; CInt 2])]) with [(LInt 0, mkCol true [CInt 1; CInt 2])]. change (relabel_bins (fun _ => LInt 0) (BOne (BEdges [ofZ 0; ofZ 10]))) with (LOne (BEdges [ofZ 0; ofZ 10])).
    assert (D : dq_check_l [(LInt 0, mkCol true [CInt 1; CInt 2])] (guess_l [(LInt 0, mkCol true [CInt 1; CInt 2])]) true = Ok ([(LInt 0, mkCol true [CInt 1; CInt 2])], [LInt 0], [])) by (vm_compute; reflexivity).
    unfold significance_matrix_l. rewrite D. unfold mbind at 1 2, lift. cbn [fst snd].
    assert (E : bin_data_l npq [(LInt 0, mkCol true [CInt 1; CInt 2])] [LInt 0] (LOne (BEdges [ofZ 0; ofZ 10])) false = Ok [(LInt 0, mkCol false [CInt 1; CInt 1])]) by (vm_compute; reflexivity).
    rewrite E. destruct o; reflexivity.
Qed.
End Sig.
Print Assumptions C109_matrix.
