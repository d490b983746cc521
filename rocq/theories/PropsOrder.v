(** C84: no result depends on the order of the records. *)
From Coq Require Import String ZArith List Bool Reals Lia Sorting.Permutation.
Import ListNotations.
From Verif Require Import F64 Base Cells BinModel SpecBin BinProofs BinDataProofs HistModel SpecHist HistProofs RSum StatsModel BivModel Num PhikModel SpecPhik PairMatProofs PhikMatProofs FrameProofs PhikInvProofs ArrayModel SparkModel RcontModel SimModel SigModel BetaModel OutModel HeapModel SpecHeap HeapProofs PropsHeap ReportModel PropsReport.
Open Scope list_scope.

(** f' holds the records of f in another order *)
Definition same_records (f f' : frame) : Prop := exists n l, rectangular n f /\ Permutation l (seq 0 n) /\ f' = reorder l f.

Section Order.
  Variables (n : nat) (l : list nat).
  Hypothesis P : Permutation l (seq 0 n).

  Lemma clean_reorder : forall d u o f, rectangular n f -> clean d u o (reorder l f) = reorder l (clean d u o f).
  Proof.
    intros d u o f R. unfold clean. rewrite !reorder_map, !map_map. apply map_ext_in. intros p Hp. cbn [fst snd]. unfold rcol. cbn [c_num c_cells]. f_equal. f_equal. symmetry.
    apply pick_map_in. intros i Hi. apply (in_l n l P) in Hi. rewrite (R _ Hp). exact Hi.
  Qed.
  Lemma rect_clean : forall d u o f, rectangular n f -> rectangular n (clean d u o f).
  Proof. intros d u o f R p Hp. unfold clean in Hp. apply in_map_iff in Hp. destruct Hp as (q & <- & Hq). cbn [snd c_cells]. rewrite map_length. exact (R _ Hq). Qed.
  Lemma crosstab_rcol : forall x y, length (c_cells x) = n -> length (c_cells y) = n -> crosstab (combine (c_cells (rcol l x)) (c_cells (rcol l y))) = crosstab (combine (c_cells x) (c_cells y)).
  Proof.
    intros x y X Y. apply crosstab_perm. cbn [rcol c_cells]. rewrite pick_combine by lia. apply pick_perm. rewrite combine_length, X, Y, Nat.min_id. exact P.
  Qed.
  Lemma combos_reorder : forall f, combos (reorder l f) = map (fun pq => ((fst (fst pq), rcol l (snd (fst pq))), (fst (snd pq), rcol l (snd (snd pq))))) (combos f).
  Proof. intros f. rewrite reorder_map, combos_map. apply map_ext. intros [p q]. reflexivity. Qed.
  Lemma hist_reorder : forall d u o f, rectangular n f -> fst (hist2d_from_rebinned_df (reorder l f) d u o) = fst (hist2d_from_rebinned_df f d u o).
  Proof.
    intros d u o f R. destruct f as [|[c0 x] [|[c1 y] [|z f]]]; try reflexivity. unfold hist2d_from_rebinned_df. rewrite clean_reorder by exact R. pose proof (rect_clean d u o _ R) as RC.
    cbn [clean map fst snd reorder c_num c_cells] in *. f_equal. exact (crosstab_rcol (mkCol (c_num x) (map (clean1 d u o) (c_cells x))) (mkCol (c_num y) (map (clean1 d u o) (c_cells y))) (RC _ (or_introl eq_refl)) (RC _ (or_intror (or_introl eq_refl)))).
  Qed.
  Lemma axis_reorder : forall fmt nd dict c cells axis, length cells = n -> relabel fmt nd dict c (pick CNaN l cells) axis = relabel fmt nd dict c cells axis.
  Proof.
    intros fmt nd dict c cells axis L. unfold relabel. destruct (assoc c dict) as [edges|]; [|reflexivity].
    assert (A : axis_labels fmt nd edges (pick CNaN l cells) axis = axis_labels fmt nd edges cells axis); [|rewrite A; reflexivity]. unfold axis_labels.
    assert (Q : Permutation (pick CNaN l cells) cells) by (apply pick_perm; rewrite L; exact P).
    assert (D : forall p : cell -> bool, forall q : cell -> bool, dsort (filter p (filter q (pick CNaN l cells))) = dsort (filter p (filter q cells))); [|rewrite D; reflexivity].
    intros p q. apply ssorted_ext; try apply dsort_sorted. intros v. rewrite !dsort_In, !filter_In. split; intros [[A B] C]; (split; [split; [|exact B]|exact C]); eapply Permutation_in; try eassumption; apply Permutation_sym; exact Q.
  Qed.
  Lemma outlier_reorder : forall OL fmt f dict CI nd d u o, rectangular n f ->
    fst (outlier_significance_matrix_from_rebinned_df OL fmt (reorder l f) dict CI nd d u o) = fst (outlier_significance_matrix_from_rebinned_df OL fmt f dict CI nd d u o).
  Proof.
    intros OL fmt f dict CI nd d u o R. destruct f as [|[c0 x] [|[c1 y] [|z f]]]; try reflexivity. pose proof (hist_reorder d u o _ R) as H. pose proof (clean_reorder d u o _ R) as C. pose proof (rect_clean d u o _ R) as RC.
    cbn [reorder map fst snd] in *. unfold outlier_significance_matrix_from_rebinned_df, hist2d_from_rebinned_df in *. rewrite C in *. cbn [clean reorder map fst snd c_num c_cells] in *. rewrite H. cbn [rbind]. destruct (is01 _ || is01 _); [reflexivity|].
    pose proof (RC _ (or_introl eq_refl)) as LX. pose proof (RC _ (or_intror (or_introl eq_refl))) as LY. cbn [snd c_cells] in LX, LY.
    change (map (fun i => nth i (map (clean1 d u o) (c_cells x)) CNaN) l) with (pick CNaN l (map (clean1 d u o) (c_cells x))). change (map (fun i => nth i (map (clean1 d u o) (c_cells y)) CNaN) l) with (pick CNaN l (map (clean1 d u o) (c_cells y))).
    rewrite !axis_reorder by assumption. reflexivity.
  Qed.
  Lemma two_reorder : forall f c, two_columns (reorder l f) c = rmap (reorder l) (two_columns f c).
  Proof.
    intros f c. unfold two_columns. rewrite !assoc_reorder. destruct (String.eqb _ _); [destruct (assoc (fst c) f); reflexivity|]. destruct (assoc (fst c) f), (assoc (snd c) f); reflexivity.
  Qed.
  Lemma rect_two : forall f c f2, rectangular n f -> two_columns f c = Ok f2 -> rectangular n f2.
  Proof.
    intros f c f2 R H. unfold two_columns in H. destruct (String.eqb _ _); [destruct (assoc (fst c) f); discriminate|]. destruct (assoc (fst c) f) as [x|] eqn:X; [|discriminate]. destruct (assoc (snd c) f) as [y|] eqn:Y; [|discriminate].
    injection H as <-. intros p [<-|[<-|[]]]; cbn [snd]; eapply rect_assoc; eassumption.
  Qed.
  Lemma outliers_reorder : forall OL fmt f dict CI nd cs d u o, rectangular n f ->
    outlier_significance_matrices_from_rebinned_df OL fmt (reorder l f) dict CI nd cs d u o = outlier_significance_matrices_from_rebinned_df OL fmt f dict CI nd cs d u o.
  Proof.
    intros OL fmt f dict CI nd cs d u o R. unfold outlier_significance_matrices_from_rebinned_df. rewrite keys_reorder. apply mapM_ext. intros c _. rewrite two_reorder. destruct (two_columns f c) as [f2|] eqn:E; [|reflexivity]. cbn [rmap rbind].
    rewrite outlier_reorder by (eapply rect_two; eassumption). reflexivity.
  Qed.
  Variable St : Type.
  Variable E : env St.
  Lemma mmap_ext : forall A B (f g : A -> SimModel.M St B) xs, (forall a s, In a xs -> f a s = g a s) -> forall s, mmap St f xs s = mmap St g xs s.
  Proof.
    intros A B f g xs H. induction xs as [|a xs IH]; intros s; [reflexivity|]. cbn [mmap]. unfold mbind. rewrite (H a s (or_introl eq_refl)). destruct (g a s) as [[b|e] s']; [|reflexivity]. rewrite IH; [reflexivity|]. intros a' s0 Ha. apply H. right. exact Ha.
  Qed.
  Lemma mmap_map : forall A B C (f : B -> SimModel.M St C) (g : A -> B) xs s, mmap St f (map g xs) s = mmap St (fun a => f (g a)) xs s.
  Proof. intros A B C f g xs. induction xs as [|a xs IH]; intros s; [reflexivity|]. cbn [map mmap]. unfold mbind. destruct (f (g a) s) as [[b|e] s']; [|reflexivity]. rewrite IH. reflexivity. Qed.
  Lemma signif_reorder : forall f lam simm nsim sigm d u o s, rectangular n f ->
    fst (significance_from_rebinned_df (e_sig E) St (e_multinomial E) (e_randint E) (e_exp E) (e_log E) (e_uninit E) (e_ib0 E) (e_fuel E) (e_cpp E) (e_clamp E) (reorder l f) lam simm nsim sigm d u o (e_workers E)) s =
    fst (significance_from_rebinned_df (e_sig E) St (e_multinomial E) (e_randint E) (e_exp E) (e_log E) (e_uninit E) (e_ib0 E) (e_fuel E) (e_cpp E) (e_clamp E) f lam simm nsim sigm d u o (e_workers E)) s.
  Proof.
    intros f lam simm nsim sigm d u o s R. unfold significance_from_rebinned_df. cbn [fst]. rewrite clean_reorder by exact R. rewrite keys_reorder. pose proof (rect_clean d u o _ R) as RC. unfold mbind. rewrite combos_reorder, mmap_map.
    match goal with |- (match ?a with _ => _ end) = (match ?b with _ => _ end) => assert (EQ : a = b); [|rewrite EQ; reflexivity] end.
    apply mmap_ext. intros [[c0 x] [c1 y]] s0 H. apply combos_In in H. cbn [fst snd]. unfold calc_signif. rewrite crosstab_rcol; [reflexivity|exact (RC (c0, x) (proj1 H))|exact (RC (c1, y) (proj2 H))].
  Qed.

  Theorem meaning_reorder : forall c f s, order_free (e_npq E) -> rectangular n f -> meaning St E c (reorder l f) s = meaning St E c f s.
  Proof.
    intros c f s OF R.
    assert (PREP : forall ic bins q d, let F g := (let dq := dq_check_nunique_values g (match ic with Some x => x | None => guess_interval_cols g end) d in bin_data (e_npq E) (fst dq) (snd dq) bins q) in
      F (reorder l f) = rmap (fun r => (reorder l (fst r), snd r)) (F f) /\ forall b dict, F f = Ok (b, dict) -> rectangular n b).
    { intros ic bins q d F. unfold F. rewrite guess_reorder. cbv zeta. set (ic0 := match ic with Some x => x | None => guess_interval_cols f end). rewrite (dq_reorder n l P) by exact R. cbn [fst snd].
      pose proof (rect_dq n f ic0 d R) as R'. split; [apply (bin_data_reorder (e_npq E) OF n l P); exact R'|]. intros b dict H. eapply bin_data_rect; eassumption. }
    destruct c as [c|c d u o|dict CI nd cs d u o]; cbn [meaning].
    - destruct c; cbn [meaning_user].
      + unfold rres, hist2d. rewrite guess_reorder. replace (length (reorder l f)) with (length f) by (symmetry; apply map_length). destruct (negb _); [reflexivity|].
        set (ic0 := match ic with Some x => x | None => guess_interval_cols f end). rewrite (bin_data_reorder (e_npq E) OF n l P) by exact R. destruct (bin_data (e_npq E) f ic0 bins q) as [[b dict]|] eqn:B; [|reflexivity]. cbn [rmap rbind fst snd].
        rewrite hist_reorder by (eapply bin_data_rect; eassumption). reflexivity.
      + unfold rres. rewrite (phik_matrix_reorder (e_npq E) (e_lib E) f ic bins q noise d u o n l OF R P). reflexivity.
      + unfold rres, global_phik_array. destruct (PREP ic bins q d) as [P1 P2]. cbv zeta in P1, P2.
        destruct (dq_check_nunique_values (reorder l f) _ d) as [a1 b1]. destruct (dq_check_nunique_values f _ d) as [a2 b2]. cbn [fst snd] in *. rewrite P1. destruct (bin_data (e_npq E) a2 b2 bins q) as [[b dict]|]; [|reflexivity]. cbn [rmap rbind fst snd].
        unfold global_phik_from_rebinned_df. rewrite (rebinned_reorder (e_lib E) noise d u o b n l (P2 b dict eq_refl) P). reflexivity.
      + unfold rmon. destruct (PREP ic bins false d) as [P1 P2]. cbv zeta in P1, P2.
        match goal with |- (rmap _ (fst (?a s)), _) = (rmap _ (fst (?b s)), _) => assert (EQ : a s = b s); [|rewrite EQ; reflexivity] end.
        unfold significance_matrix.
        destruct (dq_check_nunique_values (reorder l f) _ d) as [a1 b1]. destruct (dq_check_nunique_values f _ d) as [a2 b2]. cbn [fst snd] in *. unfold mbind at 1 2, lift. rewrite P1. destruct (bin_data (e_npq E) a2 b2 bins false) as [[b dict]|]; [|reflexivity]. cbn [rmap rbind fst snd].
        apply signif_reorder. exact (P2 b dict eq_refl).
      + unfold rres, outlier_significance_matrix. destruct (PREP ic bins q d) as [P1 P2]. cbv zeta in P1, P2. replace (length (reorder l f)) with (length f) by (symmetry; apply map_length). destruct (negb _); [reflexivity|].
        destruct (dq_check_nunique_values (reorder l f) _ d) as [a1 b1]. destruct (dq_check_nunique_values f _ d) as [a2 b2]. cbn [fst snd] in *. rewrite P1. destruct (bin_data (e_npq E) a2 b2 bins q) as [[b dict]|]; [|reflexivity]. cbn [rmap rbind fst snd].
        rewrite outlier_reorder by exact (P2 b dict eq_refl). reflexivity.
      + unfold rres, outlier_significance_matrices. destruct (PREP ic bins q d) as [P1 P2]. cbv zeta in P1, P2.
        destruct (dq_check_nunique_values (reorder l f) _ d) as [a1 b1]. destruct (dq_check_nunique_values f _ d) as [a2 b2]. cbn [fst snd] in *. rewrite P1. destruct (bin_data (e_npq E) a2 b2 bins q) as [[b dict]|]; [|reflexivity]. cbn [rmap rbind fst snd].
        rewrite outliers_reorder by exact (P2 b dict eq_refl). reflexivity.
    - destruct c; cbn [meaning_binned].
      + unfold rres. rewrite hist_reorder by exact R. reflexivity.
      + unfold rres. rewrite (rebinned_reorder (e_lib E) noise d u o f n l R P). reflexivity.
      + unfold rres, global_phik_from_rebinned_df. rewrite (rebinned_reorder (e_lib E) noise d u o f n l R P). reflexivity.
      + unfold rmon. rewrite signif_reorder by exact R. reflexivity.
      + unfold rres. rewrite outlier_reorder by exact R. reflexivity.
    - unfold rres. rewrite outliers_reorder by exact R. reflexivity.
  Qed.
End Order.

Lemma left_same : forall c f f', same_records f f' -> same_records (left_behind c f) (left_behind c f').
Proof.
  intros c f f' (n & l & R & P & ->). destruct c as [c|c d u o|]; cbn [left_behind]; try (exists n, l; auto; fail). replace (length (reorder l f)) with (length f) by (symmetry; apply map_length).
  destruct (_ && _); [exists n, l; auto|]. rewrite <- !clean_replaced. exists n, l. split; [apply rect_clean; exact R|]. split; [exact P|]. apply (clean_reorder n l P). exact R.
Qed.
Lemma upd_same : forall c l h h', Forall2 same_records h h' -> Forall2 same_records (upd l (left_behind c) h) (upd l (left_behind c) h').
Proof. intros c l h h' H. revert l. induction H as [|f f' h h' F H IH]; intros l; [destruct l; constructor|]. destruct l; cbn [upd]; constructor; auto. apply left_same. exact F. Qed.
Lemma forall2_nth : forall A (Q : A -> A -> Prop) h h' d i, Forall2 Q h h' -> (i < length h)%nat -> Q (nth i h d) (nth i h' d).
Proof. intros A Q h h' d i H. revert i. induction H as [|a a' h h' F H IH]; intros i Hi; [inversion Hi|]. destruct i; [exact F|]. cbn [nth]. apply IH. simpl in Hi. lia. Qed.

Section Programs.
  Variable St : Type.
  Variable E : env St.
  (** the first frames of the heap hold the same records; the new objects created since then do not matter *)
  Definition same_heaps (k : nat) (h h' : heap) : Prop := (k <= length h)%nat /\ (k <= length h')%nat /\ Forall2 same_records (firstn k h) (firstn k h').
  Lemma same_call : forall c l k h h' s, order_free (e_npq E) -> same_heaps k h h' -> (l < k)%nat ->
    exists r s' h1 h1', run_call St E c l h s = (r, h1, s') /\ run_call St E c l h' s = (r, h1', s') /\ same_heaps k h1 h1'.
  Proof.
    intros c l k h h' s OF (K & K' & F) Hl. destruct (call_spec St E c l h s ltac:(lia)) as (t & H1). destruct (call_spec St E c l h' s ltac:(lia)) as (t' & H2).
    assert (Q : same_records (nth l h []) (nth l h' [])).
    { pose proof (forall2_nth _ _ _ _ [] l F ltac:(rewrite firstn_length_le by exact K; exact Hl)) as Q. rewrite <- (firstn_skipn k h), <- (firstn_skipn k h'), !app_nth1 by (rewrite firstn_length_le by assumption; exact Hl). exact Q. }
    destruct Q as (n & p & R & P & EQ). rewrite EQ in H2. rewrite (meaning_reorder n p P St E c _ s OF R) in H2.
    eexists _, _, _, _. split; [exact H1|]. split; [exact H2|].
    split; [rewrite app_length, upd_length; lia|]. split; [rewrite app_length, upd_length; lia|].
    assert (FU : forall (g : list frame) (tt : list frame), (k <= length g)%nat -> firstn k (upd l (left_behind c) g ++ tt) = upd l (left_behind c) (firstn k g)).
    { intros g tt Kg. rewrite firstn_app, upd_length. replace (k - length g)%nat with 0%nat by lia. rewrite firstn_O, app_nil_r. rewrite <- (firstn_skipn k g) at 1. rewrite upd_app by (rewrite firstn_length_le by exact Kg; exact Hl).
      rewrite firstn_app, upd_length, firstn_length_le by exact Kg. rewrite Nat.sub_diag, firstn_O, app_nil_r. apply firstn_all2. rewrite upd_length, firstn_length_le by exact Kg. lia. }
    rewrite !FU by assumption. apply upd_same. exact F.
  Qed.
  Lemma same_run : forall prog k h h' s, order_free (e_npq E) -> same_heaps k h h' -> (forall c l, In (c, l) prog -> (l < k)%nat) ->
    exists rs s' h1 h1', run St E prog h s = (rs, h1, s') /\ run St E prog h' s = (rs, h1', s') /\ same_heaps k h1 h1'.
  Proof.
    induction prog as [|[c l] prog IH]; intros k h h' s OF S IR; [exists [], s, h, h'; auto|]. cbn [run].
    destruct (same_call c l k h h' s OF S (IR c l (or_introl eq_refl))) as (r & s1 & h1 & h1' & -> & -> & S1). destruct (IH k h1 h1' s1 OF S1) as (rs & s2 & h2 & h2' & -> & -> & S2); [intros c' l' H; apply (IR c'); right; exact H|].
    exists (r :: rs), s2, h2, h2'. auto.
  Qed.
  (** any sequence of analyses of any frames, with the records of each frame in any order: the same results and exceptions, the same
      random state at the end *)
  Theorem C84_record_order : forall prog h h' s, order_free (e_npq E) -> Forall2 same_records h h' -> in_range prog h ->
    let '(rs, _, s1) := run St E prog h s in let '(rs', _, s1') := run St E prog h' s in rs = rs' /\ s1 = s1'.
  Proof.
    intros prog h h' s OF F IR. assert (F' : length h = length h') by (clear - F; induction F; cbn [length]; congruence). destruct (same_run prog (length h) h h' s OF) as (rs & s' & h1 & h1' & -> & -> & _); [|exact IR|auto].
    split; [apply Nat.le_refl|]. split; [lia|]. rewrite firstn_all. rewrite F'. rewrite firstn_all. exact F.
  Qed.
  Lemma loop_reorder : forall n l f dict CI sthr cthr pm sm cs acc, Permutation l (seq 0 n) -> rectangular n f ->
    out_loop St E (reorder l f) dict CI sthr cthr pm sm cs acc = out_loop St E f dict CI sthr cthr pm sm cs acc.
  Proof.
    intros n l f dict CI sthr cthr pm sm cs acc P R. revert acc. induction cs as [|c cs IH]; intros acc; [reflexivity|]. cbn [out_loop]. destruct (_ || _); [apply IH|].
    rewrite two_reorder. destruct (two_columns f c) as [f2|] eqn:T; [|reflexivity]. cbn [rmap rbind]. rewrite (outlier_reorder n l P) by (eapply rect_two; eassumption).
    match goal with |- (let* m := ?a in _) = _ => destruct a as [m|]; [|reflexivity] end. cbn [rbind]. destruct m; [reflexivity|apply IH].
  Qed.
  (** likewise correlation_report *)
  Theorem C84_report : forall l ic bins q do_out sthr cthr noise lam simm nsim sigm CI (h h' : heap) s, order_free (e_npq E) -> Forall2 same_records h h' -> (l < length h)%nat ->
    let '(r, _, s1) := correlation_report St E l ic bins q do_out sthr cthr noise lam simm nsim sigm CI h s in
    let '(r', _, s1') := correlation_report St E l ic bins q do_out sthr cthr noise lam simm nsim sigm CI h' s in r = r' /\ s1 = s1'.
  Proof.
    intros l ic bins q do_out sthr cthr noise lam simm nsim sigm CI h h' s OF F Hl. assert (F' : length h = length h') by (clear - F; induction F; cbn [length]; congruence).
    destruct (C66_report_is St E l ic bins q do_out sthr cthr noise lam simm nsim sigm CI h s Hl) as (t & ->). destruct (C66_report_is St E l ic bins q do_out sthr cthr noise lam simm nsim sigm CI h' s ltac:(lia)) as (t' & ->).
    pose proof (forall2_nth frame same_records h h' [] l F Hl) as (n & p & R & P & EQ). change (@nth frame l h' [] = reorder p (@nth frame l h [])) in EQ. rewrite EQ. set (f := @nth frame l h []) in *.
    assert (G : report_of St E (reorder p f) ic bins q do_out sthr cthr noise lam simm nsim sigm CI s = report_of St E f ic bins q do_out sthr cthr noise lam simm nsim sigm CI s); [|rewrite G; auto].
    unfold report_of. rewrite guess_reorder. set (ic0 := match ic with Some x => x | None => guess_interval_cols f end). rewrite (dq_reorder n p P) by exact R. cbv zeta. cbn [fst snd].
    pose proof (rect_dq n f ic0 true R) as R'. rewrite (bin_data_reorder (e_npq E) OF n p P) by exact R'. unfold mbind, lift. match goal with |- context [bin_data (e_npq E) ?a ?b bins q] => destruct (bin_data (e_npq E) a b bins q) as [[b0 dict]|] eqn:B; [|reflexivity] end. rename b0 into b. cbn [rmap rbind fst snd].
    pose proof (bin_data_rect _ _ _ _ _ _ _ _ R' B) as RB. unfold global_phik_from_rebinned_df. rewrite !(rebinned_reorder (e_lib E) noise true true true b n p RB P). rewrite keys_reorder.
    destruct (fst (phik_from_rebinned_df _ _ _ _ _ _)) as [pm|]; [|reflexivity]. cbn [rbind]. destruct (rbind _ _) as [g|]; [|reflexivity]. rewrite (signif_reorder n p P St E) by exact RB.
    destruct (fst (significance_from_rebinned_df _ _ _ _ _ _ _ _ _ _ _ b _ _ _ _ _ _ _ _) s) as [[sm|] s1]; [|reflexivity]. destruct do_out; [|reflexivity]. rewrite (loop_reorder n p) by assumption. reflexivity.
  Qed.
End Programs.
(** the hypotheses are met: a quantile routine that ignores the order (the equidistant points between the smallest and the largest
    value), and a frame with two columns and three records *)
Example C84_order_free_case : order_free (fun vals n => match linspace (fminl vals) (fmaxl vals) (n + 1) with Ok l => l | Raise _ => [] end).
Proof. intros vals vals' n P H. destruct (fminl_perm vals vals' P H) as [-> ->]. reflexivity. Qed.
Example C84_records_case : same_records [("a", mkCol true [CInt 1; CInt 2; CNaN]); ("b", mkCol false [CStr "x"; CStr "y"; CStr "x"])]%string%Z [("a", mkCol true [CNaN; CInt 1; CInt 2]); ("b", mkCol false [CStr "x"; CStr "x"; CStr "y"])]%string%Z.
Proof.
  exists 3%nat, [2;0;1]%nat. split; [|split; [|reflexivity]].
  - intros p [<-|[<-|[]]]; reflexivity.
  - apply (Permutation_app_comm [2%nat] [0;1]%nat).
Qed.
Print Assumptions C84_record_order. Print Assumptions C84_report.
