(** The heap programs compute what the functional models say and write only where they should. *)
From Coq Require Import String ZArith List Bool Reals Lia.
Import ListNotations.
From Verif Require Import F64 Base Cells BinModel HistModel RSum StatsModel BivModel Num PhikModel ArrayModel SparkModel RcontModel SimModel SigModel BetaModel OutModel HeapModel SpecHeap.
Open Scope list_scope.

Lemma upd_length : forall A l (g : A -> A) h, length (upd l g h) = length h.
Proof. intros A l g h. revert l. induction h as [|a h IH]; intros [|l]; cbn [upd length]; [reflexivity..|]. rewrite IH. reflexivity. Qed.
Lemma upd_nth : forall A l (g : A -> A) h i d, (i < length h)%nat -> nth i (upd l g h) d = if Nat.eqb l i then g (nth i h d) else nth i h d.
Proof.
  intros A l g h. revert l. induction h as [|a h IH]; intros l i d Hi; [simpl in Hi; lia|]. destruct l as [|l], i as [|i]; cbn [upd nth Nat.eqb]; try reflexivity.
  apply IH. simpl in Hi. lia.
Qed.
Lemma upd_upd : forall A l (g k : A -> A) h, upd l k (upd l g h) = upd l (fun x => k (g x)) h.
Proof. intros A l g k h. revert l. induction h as [|a h IH]; intros [|l]; cbn [upd]; try reflexivity. rewrite IH. reflexivity. Qed.
Lemma upd_app : forall A l (g : A -> A) h t, (l < length h)%nat -> upd l g (h ++ t) = upd l g h ++ t.
Proof. intros A l g h t. revert l. induction h as [|a h IH]; intros [|l] Hl; simpl in Hl; [lia|lia|reflexivity|]. cbn [app upd]. rewrite IH by lia. reflexivity. Qed.
Lemma upd_fresh : forall A (g : A -> A) h a t, upd (length h) g (h ++ a :: t) = h ++ g a :: t.
Proof. intros A g h a t. induction h as [|b h IH]; [reflexivity|]. cbn [length app upd]. rewrite IH. reflexivity. Qed.
Lemma upd_ext : forall A l (g k : A -> A) h d, g (nth l h d) = k (nth l h d) -> upd l g h = upd l k h.
Proof. intros A l g k h d. revert l. induction h as [|a h IH]; intros [|l] H; cbn [upd nth] in *; try reflexivity; [rewrite H; reflexivity|]. rewrite (IH l H). reflexivity. Qed.
Lemma upd_id : forall A l (g : A -> A) h d, g (nth l h d) = nth l h d -> upd l g h = h.
Proof. intros A l g h d. revert l. induction h as [|a h IH]; intros [|l] H; cbn [upd nth] in *; try reflexivity; [rewrite H; reflexivity|]. rewrite (IH l H). reflexivity. Qed.
Lemma nth_fresh : forall A (h : list A) a t d, nth (length h) (h ++ a :: t) d = a.
Proof. intros A h a t d. rewrite app_nth2 by lia. rewrite Nat.sub_diag. reflexivity. Qed.

(** one cell *)
Lemma clean1_replaced : forall d u o c, clean1 d u o c = replaced d u o c.
Proof.
  intros d u o c. unfold clean1, repl. destruct c as [|z|k|s].
  - destruct d, u, o; reflexivity.
  - destruct d, u, o; reflexivity.
  - destruct d, u, o; reflexivity.
  - cbn [replaced]. assert (A : forall t, ceqb (CStr s) (CStr t) = String.eqb s t).
    { intros t. destruct (String.eqb_spec s t) as [->|N]; [apply ceqb_refl|]. destruct (ceqb (CStr s) (CStr t)) eqn:E; [|reflexivity]. apply ceqb_eq in E. congruence. }
    assert (B : ceqb (CStr s) CNaN = false). { destruct (ceqb (CStr s) CNaN) eqn:E; [|reflexivity]. apply ceqb_eq in E. congruence. }
    destruct (String.eqb_spec s "UF") as [->|NU]; [destruct d, u, o; reflexivity|]. destruct (String.eqb_spec s "OF") as [->|NO]; [destruct d, u, o; reflexivity|]. cbn [andb orb].
    apply String.eqb_neq in NU. apply String.eqb_neq in NO. rewrite B. destruct d, u, o; rewrite ?A; unfold UFs, OFs; rewrite ?NU, ?A, ?NO; reflexivity.
Qed.
Lemma clean_replaced : forall d u o f, clean d u o f = replaced_frame d u o f.
Proof. intros d u o f. unfold clean, replaced_frame. apply map_ext. intros p. f_equal. f_equal. apply map_ext. intros c. apply clean1_replaced. Qed.
Lemma replace_all_comp : forall a b a' b' f, replace_all a b (replace_all a' b' f) = map (fun p => (fst p, mkCol (c_num (snd p)) (map (fun c => repl a b (repl a' b' c)) (c_cells (snd p))))) f.
Proof. intros. unfold replace_all. rewrite map_map. apply map_ext. intros p. cbn [fst snd c_num c_cells]. rewrite map_map. reflexivity. Qed.

Section Heap.
Variable St : Type.
Variable E : env St.
Notation hbind := (hbind St). Notation hget := (hget St).

Lemma clean_h_spec : forall l d u o (h : heap) (s : St), (l < length h)%nat -> clean_h St l d u o h s = (Ok tt, upd l (clean d u o) h, s).
Proof.
  intros l d u o h s Hl. unfold clean_h, HeapModel.hbind, hret, hwrite.
  assert (R : forall g, (forall f, g f = clean d u o f) -> upd l g h = upd l (clean d u o) h) by (intros g H; apply (upd_ext _ _ _ _ _ []), H).
  destruct d, u, o; cbv beta iota; rewrite ?upd_upd; f_equal; f_equal; try (apply R; intros f; unfold clean, replace_all; rewrite ?map_map; apply map_ext; intros p; cbn [fst snd c_num c_cells]; rewrite ?map_map; reflexivity).
  symmetry. apply (upd_id _ _ _ _ []). unfold clean. cbn [clean1]. rewrite <- (map_id (nth l h [])) at 2. apply map_ext. intros [c [n x]]. cbn [fst snd c_num c_cells]. unfold clean1. rewrite map_id. reflexivity.
Qed.

(** dq: the copy *)
Lemma dq_h_spec : forall l ic d (h : heap) (s : St), (l < length h)%nat ->
  dq_h St l ic d h s = (Ok (length h, snd (dq_check_nunique_values (nth l h []) ic d)), h ++ [fst (dq_check_nunique_values (nth l h []) ic d)], s).
Proof.
  intros l ic d h s Hl. unfold dq_h, hcopy, hnew, HeapModel.hbind, HeapModel.hget, hret, hwrite. unfold dq_check_nunique_values. fold (to_drop (nth l h []) (filter (fun c => mem c (keys (nth l h []))) ic) d).
  destruct (to_drop (nth l h []) _ d) as [|x drop]; [reflexivity|]. rewrite upd_fresh. reflexivity.
Qed.

Lemma bin_cols_h_spec : forall cols l bins q xb dict (h : heap) acc (s : St), (l < length h)%nat ->
  exists acc', bin_cols_h St E l (length h) cols bins q xb dict (h ++ [acc]) s = (rmap snd (bin_cols (e_npq E) (nth l h []) cols bins q xb acc dict), h ++ [acc'], s) /\
    forall f d, bin_cols (e_npq E) (nth l h []) cols bins q xb acc dict = Ok (f, d) -> acc' = f.
Proof.
  induction cols as [|c cols IH]; intros l bins q xb dict h acc s Hl.
  - exists acc. split; [reflexivity|]. cbn [bin_cols]. intros f d H. congruence.
  - cbn [bin_cols_h bin_cols]. unfold HeapModel.hbind, HeapModel.hget, hlift, hraise, hwrite. rewrite (app_nth1 h) by exact Hl.
    destruct (assoc c (nth l h [])) as [column|]; [|exists acc; split; [reflexivity|discriminate]].
    destruct (mapM to_float (c_cells column)) as [arr|e]; [|exists acc; split; [reflexivity|discriminate]]. cbn [rbind].
    destruct (match bins with BOne (BNum n) => _ | BOne _ => _ | BDict d => _ end) as [[edges|]|e]; cbn [rbind]; try (exists acc; split; [reflexivity|discriminate]).
    destruct (bin_array arr edges) as [b labels]. rewrite upd_fresh. apply IH. exact Hl.
Qed.
Lemma bin_data_h_spec : forall l cols bins q (h : heap) (s : St), (l < length h)%nat ->
  exists t, bin_data_h St E l cols bins q h s = (rmap (fun r => (length h, snd r)) (bin_data (e_npq E) (nth l h []) cols bins q), h ++ t, s) /\
    forall f d, bin_data (e_npq E) (nth l h []) cols bins q = Ok (f, d) -> t = [f].
Proof.
  intros l cols bins q h s Hl.
  assert (G : forall xb, exists t, HeapModel.hbind St (hcopy St l) (fun l' => HeapModel.hbind St (bin_cols_h St E l l' cols bins q xb []) (fun d => hret St (l', d))) h s =
     (rmap (fun r => (length h, snd r)) (bin_cols (e_npq E) (nth l h []) cols bins q xb (nth l h []) []), h ++ t, s) /\
     forall f d, bin_cols (e_npq E) (nth l h []) cols bins q xb (nth l h []) [] = Ok (f, d) -> t = [f]).
  { intros xb. destruct (bin_cols_h_spec cols l bins q xb [] h (nth l h []) s Hl) as (acc' & H1 & H2). exists [acc'].
    unfold hcopy, hnew, HeapModel.hbind at 1 2, HeapModel.hget. unfold HeapModel.hbind, hret. rewrite H1. split; [destruct (bin_cols _ _ _ _ _ _ _ _) as [[? ?]|]; reflexivity|].
    intros f d H. rewrite (H2 f d H). reflexivity. }
  unfold bin_data_h, bin_data. destruct bins as [[n|b|]|dd]; try apply G. destruct (forallb _ cols); [apply G|]. exists []. rewrite app_nil_r. split; [reflexivity|discriminate].
Qed.

Lemma hist2d_reb_h_spec : forall l d u o (h : heap) (s : St), (l < length h)%nat ->
  hist2d_reb_h St l d u o h s = (fst (hist2d_from_rebinned_df (nth l h []) d u o), upd l (left_behind (Binned Hist2dB d u o)) h, s).
Proof.
  intros l d u o h s Hl. unfold hist2d_reb_h. unfold HeapModel.hbind at 1, HeapModel.hget at 1. cbn [left_behind needs_two andb].
  destruct (Nat.eq_dec (length (nth l h [])) 2) as [L2|L2].
  - rewrite L2. cbn [Nat.eqb negb]. unfold HeapModel.hbind. rewrite clean_h_spec by exact Hl. unfold HeapModel.hget. rewrite upd_nth, Nat.eqb_refl by exact Hl.
    assert (U : upd l (left_behind (Binned Hist2dB d u o)) h = upd l (clean d u o) h).
    { apply (upd_ext _ _ _ _ _ []). cbn [left_behind needs_two andb]. match goal with |- context [Nat.eqb ?a 2] => destruct (Nat.eqb_spec a 2) as [_|N]; [|exfalso; exact (N L2)] end. symmetry. apply clean_replaced. }
    rewrite U. destruct (nth l h []) as [|[c0 x] [|[c1 y] [|]]]; try discriminate L2. reflexivity.
  - rewrite (proj2 (Nat.eqb_neq _ _) L2). cbn [negb]. unfold hraise.
    assert (U : upd l (left_behind (Binned Hist2dB d u o)) h = h).
    { apply (upd_id _ _ _ _ []). cbn [left_behind needs_two andb]. match goal with |- context [Nat.eqb ?a 2] => destruct (Nat.eqb_spec a 2) as [N|_]; [exfalso; exact (L2 N)|] end. reflexivity. }
    rewrite U. destruct (nth l h []) as [|[c0 x] [|[c1 y] [|]]]; try reflexivity. contradiction L2. reflexivity.
Qed.
Lemma upd_clean : forall l d u o (h : heap), upd l (clean d u o) h = upd l (replaced_frame d u o) h.
Proof. intros. apply (upd_ext _ _ _ _ _ []). apply clean_replaced. Qed.
Lemma phik_reb_h_spec : forall l noise d u o (h : heap) (s : St), (l < length h)%nat ->
  phik_reb_h St E l noise d u o h s = (fst (phik_from_rebinned_df (e_lib E) (nth l h []) noise d u o), upd l (replaced_frame d u o) h, s).
Proof.
  intros l noise d u o h s Hl. unfold phik_reb_h, HeapModel.hbind, HeapModel.hget, hlift, hret. rewrite clean_h_spec by exact Hl. rewrite upd_nth, Nat.eqb_refl by exact Hl. rewrite upd_clean.
  cbn [phik_from_rebinned_df fst]. destruct (mapM _ _); reflexivity.
Qed.
Lemma global_reb_h_spec : forall l noise d u o (h : heap) (s : St), (l < length h)%nat ->
  global_reb_h St E l noise d u o h s = (global_phik_from_rebinned_df (e_lib E) (e_inv E) (nth l h []) noise d u o, upd l (replaced_frame d u o) h, s).
Proof.
  intros l noise d u o h s Hl. unfold global_reb_h, global_phik_from_rebinned_df. unfold HeapModel.hbind at 1. rewrite phik_reb_h_spec by exact Hl.
  destruct (fst (phik_from_rebinned_df (e_lib E) (nth l h []) noise d u o)) as [t|]; [|reflexivity]. cbn [rbind]. unfold HeapModel.hbind, hlift, hret. destruct (e_inv E (t_cells t)); reflexivity.
Qed.
Notation sig_reb := (significance_from_rebinned_df (e_sig E) St (e_multinomial E) (e_randint E) (e_exp E) (e_log E) (e_uninit E) (e_ib0 E) (e_fuel E) (e_cpp E) (e_clamp E)).
Lemma signif_reb_h_spec : forall l lam simm nsim sigm d u o (h : heap) (s : St), (l < length h)%nat ->
  signif_reb_h St E l lam simm nsim sigm d u o h s =
  (let r := fst (sig_reb (nth l h []) lam simm nsim sigm d u o (e_workers E)) s in (fst r, upd l (replaced_frame d u o) h, snd r)).
Proof.
  intros l lam simm nsim sigm d u o h s Hl. unfold signif_reb_h, HeapModel.hbind, HeapModel.hget, hrand, hret. rewrite clean_h_spec by exact Hl. rewrite upd_nth, Nat.eqb_refl by exact Hl. rewrite upd_clean.
  cbn [significance_from_rebinned_df fst]. unfold mbind, ret, calc_sig. destruct (mmap St _ _ s) as [[vals|e] s']; reflexivity.
Qed.
Lemma outlier_reb_h_spec : forall l dict CI nd d u o (h : heap) (s : St), (l < length h)%nat ->
  outlier_reb_h St E l dict CI nd d u o h s = (fst (outlier_significance_matrix_from_rebinned_df (e_out E) (e_fmt E) (nth l h []) dict CI nd d u o), upd l (left_behind (Binned (OutlierB dict CI nd) d u o)) h, s).
Proof.
  intros l dict CI nd d u o h s Hl. unfold outlier_reb_h. unfold HeapModel.hbind at 1, HeapModel.hget at 1. cbn [left_behind needs_two andb].
  assert (U : length (nth l h []) <> 2%nat -> upd l (left_behind (Binned (OutlierB dict CI nd) d u o)) h = h).
  { intros L2. apply (upd_id _ _ _ _ []). cbn [left_behind needs_two andb]. match goal with |- context [Nat.eqb ?a 2] => destruct (Nat.eqb_spec a 2) as [N|_]; [exfalso; exact (L2 N)|] end. reflexivity. }
  destruct (nth l h []) as [|[c0 x] [|[c1 y] [|]]] eqn:N; try (rewrite U by (simpl; lia); reflexivity). clear U.
  unfold HeapModel.hbind at 1. rewrite hist2d_reb_h_spec by exact Hl. rewrite N. cbn [left_behind needs_two andb].
  cbn [outlier_significance_matrix_from_rebinned_df hist2d_from_rebinned_df clean map fst snd c_num c_cells rbind].
  match goal with |- context [is01 ?a || is01 ?b] => destruct (is01 a || is01 b) end; [reflexivity|].
  unfold HeapModel.hbind at 1, HeapModel.hget at 1. rewrite upd_nth, Nat.eqb_refl, N by exact Hl. cbn [left_behind needs_two andb length Nat.eqb negb]. rewrite <- clean_replaced. cbn [clean map fst snd c_num c_cells].
  unfold HeapModel.hbind, hlift, hret.
  destruct (relabel (e_fmt E) nd dict c0 _ _) as [rows|]; [|reflexivity]. cbn [rbind]. destruct (relabel (e_fmt E) nd dict c1 _ _) as [cols|]; [|reflexivity]. cbn [rbind].
  destruct (outlier_significance_matrix_from_hist2d _ _ _); reflexivity.
Qed.
Lemma hmap_spec : forall A B (F : A -> HM St B) (G : A -> res B) (P : heap -> Prop) cs,
  (forall c h s, P h -> exists t, F c h s = (G c, h ++ t, s)) -> (forall h t, P h -> P (h ++ t)) ->
  forall h s, P h -> exists t, hmap St F cs h s = (mapM G cs, h ++ t, s).
Proof.
  intros A B F G P cs HF HP. induction cs as [|c cs IH]; intros h s Ph; [exists []; rewrite app_nil_r; reflexivity|].
  cbn [hmap mapM]. unfold HeapModel.hbind at 1. destruct (HF c h s Ph) as (t & ->). destruct (G c) as [b|e]; [|exists t; reflexivity]. cbn [rbind].
  unfold HeapModel.hbind. destruct (IH (h ++ t) s (HP h t Ph)) as (t2 & ->). exists (t ++ t2). rewrite app_assoc. destruct (mapM G cs); reflexivity.
Qed.
Lemma outliers_reb_h_spec : forall l dict CI nd combos d u o (h : heap) (s : St), (l < length h)%nat ->
  exists t, outliers_reb_h St E l dict CI nd combos d u o h s = (outlier_significance_matrices_from_rebinned_df (e_out E) (e_fmt E) (nth l h []) dict CI nd combos d u o, h ++ t, s).
Proof.
  intros l dict CI nd combos d u o h s Hl. unfold outliers_reb_h, outlier_significance_matrices_from_rebinned_df. unfold HeapModel.hbind at 1, HeapModel.hget at 1.
  set (cs := match combos with [] => _ | _ => _ end). apply hmap_spec with (P := fun h' => (l < length h')%nat /\ @nth frame l h' [] = nth l h []); [| |split; [exact Hl|reflexivity]].
  - intros c h' s' (Hl' & HN). unfold HeapModel.hbind at 1 2 3, HeapModel.hget, hlift, hnew. rewrite HN. destruct (two_columns (nth l h []) c) as [f2|e]; [|exists []; rewrite app_nil_r; reflexivity]. cbn [rbind].
    unfold HeapModel.hbind. rewrite outlier_reb_h_spec by (rewrite app_length; simpl; lia). rewrite nth_fresh, upd_fresh.
    exists [left_behind (Binned (OutlierB dict CI nd) d u o) f2]. destruct (fst (outlier_significance_matrix_from_rebinned_df (e_out E) (e_fmt E) f2 dict CI nd d u o)) as [m|e]; reflexivity.
  - intros h' t (Hl' & HN). split; [rewrite app_length; lia|]. rewrite app_nth1 by exact Hl'. exact HN.
Qed.

Lemma prepare_h_spec : forall l ic bins q d (h : heap) (s : St), (l < length h)%nat ->
  let f := nth l h [] in let dq := dq_check_nunique_values f (match ic with Some c => c | None => guess_interval_cols f end) d in
  exists t, prepare_h St E l ic bins q d h s = (rmap (fun r => (S (length h), snd r)) (bin_data (e_npq E) (fst dq) (snd dq) bins q), h ++ fst dq :: t, s) /\
    forall b dict, bin_data (e_npq E) (fst dq) (snd dq) bins q = Ok (b, dict) -> t = [b].
Proof.
  intros l ic bins q d h s Hl f dq. unfold prepare_h. unfold HeapModel.hbind at 1, HeapModel.hget at 1. fold f. unfold HeapModel.hbind at 1. rewrite dq_h_spec by exact Hl. fold f. fold dq. cbn [fst snd].
  destruct (bin_data_h_spec (length h) (snd dq) bins q (h ++ [fst dq]) s ltac:(rewrite app_length; simpl; lia)) as (t & H1 & H2). rewrite nth_fresh in H1, H2. exists t. split.
  - etransitivity; [exact H1|]. rewrite app_length, <- app_assoc. cbn [length app]. rewrite Nat.add_1_r. reflexivity.
  - exact H2.
Qed.

Lemma fresh2 : forall (h : heap) a b, nth (S (length h)) (h ++ [a; b]) [] = b.
Proof. intros h a b. rewrite app_nth2 by lia. replace (S (length h) - length h)%nat with 1%nat by lia. reflexivity. Qed.
Lemma upd2 : forall (h : heap) a b g, upd (S (length h)) g (h ++ [a; b]) = h ++ [a; g b].
Proof. intros h a b g. replace (h ++ [a; b]) with ((h ++ [a]) ++ [b]) by (rewrite <- app_assoc; reflexivity). replace (S (length h)) with (length (h ++ [a])) by (rewrite app_length; simpl; lia). rewrite upd_fresh, <- app_assoc. reflexivity. Qed.
Lemma len2 : forall (h : heap) a b, (S (length h) < length (h ++ [a; b]))%nat.
Proof. intros. rewrite app_length. simpl. lia. Qed.

(** every call on a user frame: the functional result; the heap only grows *)
Lemma user_spec : forall c l (h : heap) (s : St), (l < length h)%nat ->
  exists t, run_user St E c l h s = (fst (meaning_user St E c (nth l h []) s), h ++ t, snd (meaning_user St E c (nth l h []) s)).
Proof.
  intros c l h s Hl. destruct c; cbn [run_user meaning_user]; unfold hmapr, rres, rmon; cbn [fst snd].
  - unfold hist2d_h, hist2d. unfold HeapModel.hbind at 1 2, HeapModel.hget at 1. destruct (negb _); [exists []; rewrite app_nil_r; reflexivity|].
    unfold HeapModel.hbind at 1. destruct (bin_data_h_spec l (match ic with Some c => c | None => guess_interval_cols (nth l h []) end) bins q h s Hl) as (t & H1 & H2). rewrite H1.
    destruct (bin_data (e_npq E) (nth l h []) _ bins q) as [[b dict]|e]; [|exists t; reflexivity]. cbn [rmap rbind fst snd]. rewrite (H2 b dict eq_refl).
    unfold HeapModel.hbind. rewrite hist2d_reb_h_spec by (rewrite app_length; simpl; lia). rewrite nth_fresh, upd_fresh. eexists. destruct (fst (hist2d_from_rebinned_df b d u o)); reflexivity.
  - unfold phik_matrix_h, phik_matrix. unfold HeapModel.hbind at 1 2. destruct (prepare_h_spec l ic bins q d h s Hl) as (t & H1 & H2). rewrite H1. cbv zeta.
    destruct (dq_check_nunique_values (nth l h []) _ d) as [df' ic']. cbn [fst snd] in *. destruct (bin_data (e_npq E) df' ic' bins q) as [[b dict]|e]; [|exists (df' :: t); reflexivity]. cbn [rmap rbind fst snd].
    rewrite (H2 b dict eq_refl). rewrite phik_reb_h_spec by apply len2. rewrite fresh2, upd2. eexists. destruct (fst (phik_from_rebinned_df _ _ _ _ _ _)); reflexivity.
  - unfold global_phik_h, global_phik_array. unfold HeapModel.hbind at 1 2. destruct (prepare_h_spec l ic bins q d h s Hl) as (t & H1 & H2). rewrite H1. cbv zeta.
    destruct (dq_check_nunique_values (nth l h []) _ d) as [df' ic']. cbn [fst snd] in *. destruct (bin_data (e_npq E) df' ic' bins q) as [[b dict]|e]; [|exists (df' :: t); reflexivity]. cbn [rmap rbind fst snd].
    rewrite (H2 b dict eq_refl). rewrite global_reb_h_spec by apply len2. rewrite fresh2, upd2. eexists. destruct (global_phik_from_rebinned_df _ _ _ _ _ _ _); reflexivity.
  - unfold signif_matrix_h, significance_matrix. unfold HeapModel.hbind at 1 2. destruct (prepare_h_spec l ic bins false d h s Hl) as (t & H1 & H2). rewrite H1. cbv zeta.
    destruct (dq_check_nunique_values (nth l h []) _ d) as [df' ic']. cbn [fst snd] in *. unfold mbind at 1 2, lift. destruct (bin_data (e_npq E) df' ic' bins false) as [[b dict]|e]; [|exists (df' :: t); reflexivity]. cbn [rmap rbind fst snd].
    rewrite (H2 b dict eq_refl). rewrite signif_reb_h_spec by apply len2. rewrite fresh2, upd2. cbv zeta. eexists. destruct (fst (sig_reb b lam simm nsim sigm d u o (e_workers E)) s) as [[v|e] s']; reflexivity.
  - unfold outlier_matrix_h, outlier_significance_matrix. unfold HeapModel.hbind at 1 2, HeapModel.hget at 1. destruct (negb _); [exists []; rewrite app_nil_r; reflexivity|].
    unfold HeapModel.hbind at 1. destruct (prepare_h_spec l ic bins q d h s Hl) as (t & H1 & H2). rewrite H1.
    destruct (dq_check_nunique_values (nth l h []) _ d) as [df' ic']. cbn [fst snd] in *. destruct (bin_data (e_npq E) df' ic' bins q) as [[b dict]|e]; [|exists (df' :: t); reflexivity]. cbn [rmap rbind fst snd].
    rewrite (H2 b dict eq_refl). unfold HeapModel.hbind at 1. rewrite outlier_reb_h_spec by apply len2. rewrite fresh2, upd2. eexists. destruct (fst (outlier_significance_matrix_from_rebinned_df _ _ _ _ _ _ _ _ _)); reflexivity.
  - unfold outlier_matrices_h, outlier_significance_matrices. unfold HeapModel.hbind at 1 2. destruct (prepare_h_spec l ic bins q d h s Hl) as (t & H1 & H2). rewrite H1. cbv zeta.
    destruct (dq_check_nunique_values (nth l h []) _ d) as [df' ic']. cbn [fst snd] in *. destruct (bin_data (e_npq E) df' ic' bins q) as [[b dict]|e]; [|exists (df' :: t); reflexivity]. cbn [rmap rbind fst snd].
    rewrite (H2 b dict eq_refl). unfold HeapModel.hbind at 1. destruct (outliers_reb_h_spec (S (length h)) dict CI nd combos d u o (h ++ [df'; b]) s (len2 _ _ _)) as (t2 & H3). rewrite H3, fresh2. rewrite <- app_assoc.
    eexists. cbn [fst snd]. destruct (outlier_significance_matrices_from_rebinned_df (e_out E) (e_fmt E) b dict CI nd combos d u o); reflexivity.
Qed.
Lemma binned_spec : forall c d u o l (h : heap) (s : St), (l < length h)%nat ->
  run_binned St E c d u o l h s = (fst (meaning_binned St E c d u o (nth l h []) s), upd l (left_behind (Binned c d u o)) h, snd (meaning_binned St E c d u o (nth l h []) s)).
Proof.
  intros c d u o l h s Hl. destruct c; cbn [run_binned meaning_binned]; unfold hmapr, HeapModel.hbind, rres, rmon; cbn [fst snd].
  - rewrite hist2d_reb_h_spec by exact Hl. destruct (fst (hist2d_from_rebinned_df _ _ _ _)); reflexivity.
  - rewrite phik_reb_h_spec by exact Hl. destruct (fst (phik_from_rebinned_df _ _ _ _ _ _)); reflexivity.
  - rewrite global_reb_h_spec by exact Hl. destruct (global_phik_from_rebinned_df _ _ _ _ _ _ _); reflexivity.
  - rewrite signif_reb_h_spec by exact Hl. cbv zeta. destruct (fst (sig_reb (nth l h []) lam simm nsim sigm d u o (e_workers E)) s) as [[v|e] s']; reflexivity.
  - rewrite outlier_reb_h_spec by exact Hl. destruct (fst (outlier_significance_matrix_from_rebinned_df _ _ _ _ _ _ _ _ _)); reflexivity.
Qed.
Lemma call_spec : forall c l (h : heap) (s : St), (l < length h)%nat ->
  exists t, run_call St E c l h s = (fst (meaning St E c (nth l h []) s), upd l (left_behind c) h ++ t, snd (meaning St E c (nth l h []) s)).
Proof.
  intros c l h s Hl. assert (I : upd l (fun f : frame => f) h = h) by (apply (upd_id _ _ _ _ []); reflexivity). destruct c; cbn [run_call meaning].
  - change (left_behind (User c)) with (fun f : frame => f). rewrite I. apply user_spec. exact Hl.
  - exists []. rewrite app_nil_r. apply binned_spec. exact Hl.
  - change (left_behind (OutliersB dict CI nd combos d u o)) with (fun f : frame => f). rewrite I. unfold hmapr, HeapModel.hbind, rres. cbn [fst snd].
    destruct (outliers_reb_h_spec l dict CI nd combos d u o h s Hl) as (t & ->). exists t. destruct (outlier_significance_matrices_from_rebinned_df _ _ _ _ _ _ _ _ _); reflexivity.
Qed.
End Heap.
