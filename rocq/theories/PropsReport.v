(** C66: correlation_report. *)
From Coq Require Import String Ascii ZArith List Bool Reals Lra Lia.
Import ListNotations.
From Verif Require Import F64 Base Cells BinModel SpecBin BinProofs BinDataProofs HistModel SpecHist HistProofs RSum StatsModel StatsProofs BivModel Num PhikModel SpecPhik PhikMatProofs PhikInvProofs PropsPhik
  ArrayModel SparkModel SpecSpark RcontModel SimModel SigModel PropsSig BetaModel PairMatProofs OutModel SpecOut OutProofs PropsOut PropsOut2 PropsOut3 PropsOut4 HeapModel SpecHeap HeapProofs PropsHeap ReportModel SpecReport.
Open Scope list_scope.
Open Scope R_scope.

Lemma nlt_below : forall x t, nlt x (Fin t) = true <-> below x t.
Proof.
  intros [|r| |] t; cbn; unfold below.
  - split; [discriminate|]. intros [E|(r & E & _)]; discriminate.
  - destruct (Rlt_dec r t); split; try discriminate; intros H; try reflexivity; [right; exists r; auto|]. destruct H as [E|(r' & E & H)]; [discriminate|]. injection E as <-. contradiction.
  - split; [discriminate|]. intros [E|(r & E & _)]; discriminate.
  - split; [intros _; left; reflexivity|reflexivity].
Qed.
Lemma nlt_weak : forall x t, nlt (nabs x) (Fin t) = true <-> weak x t.
Proof.
  intros [|r| |] t; cbn; unfold weak; try (split; [discriminate|intros (r & E & _); discriminate]).
  destruct (Rlt_dec (Rabs r) t); split; try discriminate; intros H; try reflexivity; [exists r; auto|]. destruct H as (r' & E & H). injection E as <-. contradiction.
Qed.
Lemma skip_selected : forall z v a b, nlt (nabs z) (Fin a) || nlt v (Fin b) = false <-> selected a b z v.
Proof.
  intros z v a b. unfold selected. rewrite orb_false_iff, <- nlt_weak, <- nlt_below. split; intros (A & B); split; try (apply not_true_is_false; assumption); congruence.
Qed.

Section Report.
Variable St : Type.
Variable E : env St.

(** the loop over the pairs as a function of the frame *)
Fixpoint out_loop (f : frame) (dict : list (string * list (f64 * f64))) (CI : string) (sthr cthr : R) (pm sm : ntable) (cs : list (string * string)) (acc : list (string * oresult)) : res (list (string * oresult)) :=
  match cs with
  | [] => Ok acc
  | c :: cs' =>
      if nlt (nabs (tval sm (fst c) (snd c))) (Fin sthr) || nlt (tval pm (fst c) (snd c)) (Fin cthr) then out_loop f dict CI sthr cthr pm sm cs' acc
      else let* f2 := two_columns f c in
           let* m := fst (outlier_significance_matrix_from_rebinned_df (e_out E) (e_fmt E) f2 dict CI 1 true true true) in
           match m with ONaN => Raise AttributeError | _ => out_loop f dict CI sthr cthr pm sm cs' (dict_set (report_key c) m acc) end
  end.
Lemma report_outliers_spec : forall l dict CI sthr cthr pm sm cs acc (h : heap) (s : St), (l < length h)%nat ->
  exists t, report_outliers St E l dict CI sthr cthr pm sm cs acc h s = (out_loop (@nth frame l h []) dict CI sthr cthr pm sm cs acc, h ++ t, s).
Proof.
  intros l dict CI sthr cthr pm sm cs. induction cs as [|c cs IH]; intros acc h s Hl; [exists []; rewrite app_nil_r; reflexivity|].
  cbn [report_outliers out_loop]. destruct (_ || _); [apply IH; exact Hl|].
  unfold HeapModel.hbind at 1 2 3, HeapModel.hget, hlift, hnew. destruct (two_columns (nth l h []) c) as [f2|e]; [|exists []; rewrite app_nil_r; reflexivity]. cbn [rbind].
  unfold HeapModel.hbind. rewrite outlier_reb_h_spec by (rewrite app_length; simpl; lia). rewrite nth_fresh, upd_fresh.
  destruct (fst (outlier_significance_matrix_from_rebinned_df (e_out E) (e_fmt E) f2 dict CI 1 true true true)) as [m|e]; [|eexists; reflexivity]. cbn [rbind].
  destruct m as [|rows cols z]; [eexists; reflexivity|].
  destruct (IH (dict_set (report_key c) (OMat rows cols z) acc) (h ++ [left_behind (Binned (OutlierB dict CI 1) true true true) f2]) s) as (t & Ht); [rewrite app_length; lia|].
  rewrite Ht, app_nth1 by exact Hl. rewrite <- app_assoc. eexists. reflexivity.
Qed.

Notation sig_reb := (significance_from_rebinned_df (e_sig E) St (e_multinomial E) (e_randint E) (e_exp E) (e_log E) (e_uninit E) (e_ib0 E) (e_fuel E) (e_cpp E) (e_clamp E)).
(** the report as a function of the frame *)
Definition report_of (f : frame) (ic : option (list string)) (bins : bins_arg) (q do_outliers : bool) (sthr cthr : R) (noise : bool)
    (lam : lambda) (simm : string) (nsim : Z) (sigm : string) (CI : string) : SimModel.M St (ntable * list num * ntable * list (string * oresult)) :=
  let dq := dq_check_nunique_values f (match ic with Some l => l | None => guess_interval_cols f end) true in
  mbind St (lift St (bin_data (e_npq E) (fst dq) (snd dq) bins q)) (fun bd =>
  mbind St (lift St (fst (phik_from_rebinned_df (e_lib E) (fst bd) noise true true true))) (fun pm =>
  mbind St (lift St (global_phik_from_rebinned_df (e_lib E) (e_inv E) (fst bd) noise true true true)) (fun g =>
  mbind St (fst (sig_reb (fst bd) lam simm nsim sigm true true true (e_workers E))) (fun sm =>
  mbind St (lift St (if do_outliers then out_loop (fst bd) (snd bd) CI sthr cthr pm sm (pairs (keys (fst bd))) [] else Ok [])) (fun outs =>
  ret St (pm, fst g, sm, outs)))))).

Lemma harmless_same : harmless true true true true true true.
Proof. unfold harmless. split; [discriminate|]. split; [reflexivity|]. split; intros X; exact X. Qed.
Lemma assoc_replaced : forall d u o f k, assoc k (replaced_frame d u o f) = match assoc k f with Some x => Some (mkCol (c_num x) (map (replaced d u o) (c_cells x))) | None => None end.
Proof. intros d u o f k. induction f as [|[k' x] f IH]; [reflexivity|]. cbn [replaced_frame map fst snd assoc]. destruct (String.eqb k k'); [reflexivity|exact IH]. Qed.
(** the clean-up of the binned frame does not matter to the loop *)
Lemma out_loop_clean : forall f dict CI sthr cthr pm sm cs acc, out_loop (replaced_frame true true true f) dict CI sthr cthr pm sm cs acc = out_loop f dict CI sthr cthr pm sm cs acc.
Proof.
  intros f dict CI sthr cthr pm sm cs. induction cs as [|c cs IH]; intros acc; [reflexivity|]. cbn [out_loop]. destruct (_ || _); [apply IH|].
  unfold two_columns. rewrite !assoc_replaced. destruct (String.eqb (fst c) (snd c)); [destruct (assoc (fst c) f); reflexivity|].
  destruct (assoc (fst c) f) as [x|]; [|reflexivity]. destruct (assoc (snd c) f) as [y|]; [|reflexivity]. cbn [rbind].
  pose proof (meaning_clean St E (OutlierB dict CI 1) true true true (replaced_frame true true true [(fst c, x); (snd c, y)]) [(fst c, x); (snd c, y)]) as H.
  rewrite replaced_frame_twice in H by apply harmless_same. specialize (H eq_refl). cbn [meaning_binned] in H. unfold rres in H.
  assert (EQ : fst (outlier_significance_matrix_from_rebinned_df (e_out E) (e_fmt E) (replaced_frame true true true [(fst c, x); (snd c, y)]) dict CI 1 true true true) = fst (outlier_significance_matrix_from_rebinned_df (e_out E) (e_fmt E) [(fst c, x); (snd c, y)] dict CI 1 true true true)).
  { cbn [replaced_frame map fst snd c_num c_cells outlier_significance_matrix_from_rebinned_df hist2d_from_rebinned_df clean]. 
    assert (T : forall l, map (clean1 true true true) (map (replaced true true true) l) = map (clean1 true true true) l).
    { intros l. rewrite map_map. apply map_ext. intros a. destruct a as [| | |s0]; try reflexivity. cbn [replaced]. unfold clean1, repl. rewrite !andb_true_r.
      destruct (String.eqb s0 "UF") eqn:U; [apply String.eqb_eq in U; subst s0; reflexivity|]. destruct (String.eqb s0 "OF") eqn:O; [apply String.eqb_eq in O; subst s0; reflexivity|]. reflexivity. }
    rewrite !T. reflexivity. }
  cbn [replaced_frame map fst snd] in EQ. rewrite EQ. destruct (fst (outlier_significance_matrix_from_rebinned_df (e_out E) (e_fmt E) [(fst c, x); (snd c, y)] dict CI 1 true true true)) as [m|e]; [|reflexivity]. cbn [rbind]. destruct m; [reflexivity|apply IH].
Qed.
Lemma keys_replaced : forall d u o f, keys (replaced_frame d u o f) = keys f.
Proof. intros. unfold keys, replaced_frame. rewrite map_map. reflexivity. Qed.

(** the report leaves every frame of the user as it was and returns what the functions say about the frame *)
Theorem C66_report_is : forall l ic bins q do_out sthr cthr noise lam simm nsim sigm CI (h : heap) (s : St), (l < length h)%nat ->
  exists t, correlation_report St E l ic bins q do_out sthr cthr noise lam simm nsim sigm CI h s =
    (fst (report_of (@nth frame l h []) ic bins q do_out sthr cthr noise lam simm nsim sigm CI s), h ++ t, snd (report_of (@nth frame l h []) ic bins q do_out sthr cthr noise lam simm nsim sigm CI s)).
Proof.
  intros l ic bins q do_out sthr cthr noise lam simm nsim sigm CI h s Hl. unfold correlation_report, report_of, mbind, lift, ret. set (f := @nth frame l h []).
  destruct (prepare_h_spec St E l ic bins q true h s Hl) as (t & H1 & H2). fold f in H1, H2. unfold HeapModel.hbind at 1. rewrite H1. cbv zeta.
  destruct (dq_check_nunique_values f _ true) as [df' ic']. cbn [fst snd] in *.
  destruct (bin_data (e_npq E) df' ic' bins q) as [[b dict]|e]; [|exists (df' :: t); reflexivity]. cbn [rmap rbind fst snd]. rewrite (H2 b dict eq_refl). clear H1 H2.
  unfold HeapModel.hbind at 1. rewrite phik_reb_h_spec by apply len2. rewrite fresh2, upd2.
  destruct (fst (phik_from_rebinned_df (e_lib E) b noise true true true)) as [pm|e]; [|eexists; reflexivity].
  unfold HeapModel.hbind at 1. rewrite global_reb_h_spec by apply len2. rewrite fresh2, upd2.
  assert (G : global_phik_from_rebinned_df (e_lib E) (e_inv E) (replaced_frame true true true b) noise true true true = global_phik_from_rebinned_df (e_lib E) (e_inv E) b noise true true true).
  { pose proof (meaning_clean St E (GlobalB noise) true true true (replaced_frame true true true b) b (replaced_frame_twice _ _ _ _ _ _ b harmless_same)) as M. cbn [meaning_binned] in M. unfold rres in M. apply (f_equal (fun F => fst (F s))) in M. cbn [fst] in M.
    destruct (global_phik_from_rebinned_df (e_lib E) (e_inv E) (replaced_frame true true true b) noise true true true), (global_phik_from_rebinned_df (e_lib E) (e_inv E) b noise true true true); cbn [rmap rbind] in M; congruence. }
  rewrite G. destruct (global_phik_from_rebinned_df (e_lib E) (e_inv E) b noise true true true) as [g|e]; [|eexists; reflexivity].
  rewrite replaced_frame_twice by apply harmless_same. unfold HeapModel.hbind at 1. rewrite signif_reb_h_spec by apply len2. rewrite fresh2, upd2. rewrite replaced_frame_twice by apply harmless_same.
  assert (SG : fst (sig_reb (replaced_frame true true true b) lam simm nsim sigm true true true (e_workers E)) = fst (sig_reb b lam simm nsim sigm true true true (e_workers E))).
  { unfold significance_from_rebinned_df. cbn [fst]. rewrite !clean_replaced, replaced_frame_twice by apply harmless_same. reflexivity. }
  cbv zeta. rewrite SG. destruct (fst (sig_reb b lam simm nsim sigm true true true (e_workers E)) s) as [[sm|e] s']; [|eexists; reflexivity]. cbn [fst snd].
  unfold HeapModel.hbind at 1, HeapModel.hget at 1. rewrite fresh2, keys_replaced. unfold HeapModel.hbind at 1. destruct do_out.
  - destruct (report_outliers_spec (S (length h)) dict CI sthr cthr pm sm (pairs (keys b)) [] (h ++ [df'; replaced_frame true true true b]) s' (len2 _ _ _)) as (t2 & Ht). rewrite Ht, fresh2, out_loop_clean.
    rewrite <- app_assoc. eexists. unfold hret. destruct (out_loop b dict CI sthr cthr pm sm (pairs (keys b)) []); reflexivity.
  - eexists. reflexivity.
Qed.

Notation pmat := (pair_matrix (e_out E) (e_fmt E)).
Definition sel (sthr cthr : R) (pm sm : ntable) (c : string * string) : bool := negb (nlt (nabs (tval sm (fst c) (snd c))) (Fin sthr) || nlt (tval pm (fst c) (snd c)) (Fin cthr)).
Lemma sel_selected : forall sthr cthr pm sm c, sel sthr cthr pm sm c = true <-> selected sthr cthr (tval sm (fst c) (snd c)) (tval pm (fst c) (snd c)).
Proof. intros. unfold sel. rewrite negb_true_iff. apply skip_selected. Qed.
Lemma out_loop_spec : forall f dict CI sthr cthr pm sm cs acc outs, out_loop f dict CI sthr cthr pm sm cs acc = Ok outs ->
  exists ms : list (string * string * oresult), map fst ms = filter (sel sthr cthr pm sm) cs /\ (forall e, In e ms -> pmat f dict CI 1 true true true (fst e) (snd e) /\ snd e <> ONaN) /\
    outs = fold_left (fun d m => dict_set (fst m) (snd m) d) (map (fun e => (report_key (fst e), snd e)) ms) acc.
Proof.
  intros f dict CI sthr cthr pm sm cs. induction cs as [|c cs IH]; intros acc outs H; cbn [out_loop] in H.
  - injection H as <-. exists []. split; [reflexivity|]. split; [intros e []|reflexivity].
  - cbn [filter]. unfold sel at 1. destruct (_ || _); cbn [negb]; [exact (IH acc outs H)|].
    destruct (two_columns f c) as [f2|] eqn:T; [|discriminate]. cbn [rbind] in H. destruct (fst (outlier_significance_matrix_from_rebinned_df (e_out E) (e_fmt E) f2 dict CI 1 true true true)) as [m|] eqn:M; [|discriminate]. cbn [rbind] in H.
    assert (NM : m <> ONaN) by (intros ->; discriminate). assert (H' : out_loop f dict CI sthr cthr pm sm cs (dict_set (report_key c) m acc) = Ok outs) by (destruct m; [contradiction|exact H]).
    destruct (IH _ _ H') as (ms & A & B & C). exists ((c, m) :: ms). split; [cbn [map fst]; rewrite A; reflexivity|]. split.
    + intros e [<-|He]; [|apply B; exact He]. split; [|exact NM]. destruct (two_columns_spec _ _ _ T) as (x & y & X & Y & N & ->). cbn [fst snd]. exists x, y. auto.
    + exact C.
Qed.

Lemma report_ok : forall l ic bins q do_out sthr cthr noise lam simm nsim sigm CI (h : heap) (s : St) pm g sm outs h' s', (l < length h)%nat ->
  correlation_report St E l ic bins q do_out sthr cthr noise lam simm nsim sigm CI h s = (Ok (pm, g, sm, outs), h', s') ->
  let f := @nth frame l h [] in
  let dq := dq_check_nunique_values f (match ic with Some l => l | None => guess_interval_cols f end) true in
  exists b dict labels, bin_data (e_npq E) (fst dq) (snd dq) bins q = Ok (b, dict) /\ fst (phik_from_rebinned_df (e_lib E) b noise true true true) = Ok pm /\
    global_phik_from_rebinned_df (e_lib E) (e_inv E) b noise true true true = Ok (g, labels) /\
    fst (sig_reb b lam simm nsim sigm true true true (e_workers E)) s = (Ok sm, s') /\
    (if do_out then out_loop b dict CI sthr cthr pm sm (pairs (keys b)) [] else Ok []) = Ok outs.
Proof.
  intros l ic bins q do_out sthr cthr noise lam simm nsim sigm CI h s pm g sm outs h' s' Hl H f dq.
  destruct (C66_report_is l ic bins q do_out sthr cthr noise lam simm nsim sigm CI h s Hl) as (t & HR). rewrite HR in H. fold f in H. unfold report_of in H. fold dq in H. unfold mbind, lift, ret in H. clear HR.
  destruct (bin_data (e_npq E) (fst dq) (snd dq) bins q) as [[b dict]|e]; [|discriminate]. cbn [fst snd] in H.
  destruct (fst (phik_from_rebinned_df (e_lib E) b noise true true true)) as [pm'|e] eqn:P; [|discriminate].
  destruct (global_phik_from_rebinned_df (e_lib E) (e_inv E) b noise true true true) as [[g' labels]|e] eqn:G; [|discriminate].
  destruct (fst (sig_reb b lam simm nsim sigm true true true (e_workers E)) s) as [[sm'|e] s2] eqn:S; [|discriminate].
  destruct (if do_out then out_loop b dict CI sthr cthr pm' sm' (pairs (keys b)) [] else Ok []) as [o|e] eqn:O; [|discriminate]. cbn [fst snd] in H.
  assert (pm' = pm /\ g' = g /\ sm' = sm /\ o = outs /\ s2 = s') as (-> & -> & -> & -> & ->) by (repeat split; congruence).
  exists b, dict, labels. repeat split; assumption.
Qed.

(** the key of a pair in the dictionary of outlier matrices: ' ' becomes '_' *)
(** a successful report: its matrices are those of the binned frame, and the outlier dictionary holds the matrices of the selected pairs *)
Theorem C66_selection : forall l ic bins q sthr cthr noise lam simm nsim sigm CI (h : heap) (s : St) pm g sm outs h' s', (l < length h)%nat ->
  correlation_report St E l ic bins q true sthr cthr noise lam simm nsim sigm CI h s = (Ok (pm, g, sm, outs), h', s') ->
  let f := @nth frame l h [] in
  let dq := dq_check_nunique_values f (match ic with Some l => l | None => guess_interval_cols f end) true in
  exists b dict labels, bin_data (e_npq E) (fst dq) (snd dq) bins q = Ok (b, dict) /\
    fst (phik_from_rebinned_df (e_lib E) b noise true true true) = Ok pm /\
    global_phik_from_rebinned_df (e_lib E) (e_inv E) b noise true true true = Ok (g, labels) /\
    fst (sig_reb b lam simm nsim sigm true true true (e_workers E)) s = (Ok sm, s') /\
    let chosen c := In c (pairs (keys b)) /\ selected sthr cthr (tval sm (fst c) (snd c)) (tval pm (fst c) (snd c)) in
    (forall k m, assoc k outs = Some m -> exists c, chosen c /\ report_key c = k /\ pmat b dict CI 1 true true true c m /\ m <> ONaN) /\
    (forall c, chosen c -> exists m, assoc (report_key c) outs = Some m /\ m <> ONaN /\
       ((forall c', chosen c' -> report_key c' = report_key c -> c' = c) -> pmat b dict CI 1 true true true c m)).
Proof.
  intros l ic bins q sthr cthr noise lam simm nsim sigm CI h s pm g sm outs h' s' Hl H f dq.
  destruct (report_ok _ _ _ _ _ _ _ _ _ _ _ _ _ _ _ _ _ _ _ _ _ Hl H) as (b & dict & labels & HB & HP & HG & HS & HO). fold f in HB. fold dq in HB.
  exists b, dict, labels. split; [exact HB|]. split; [exact HP|]. split; [exact HG|]. split; [exact HS|]. intros chosen.
  destruct (out_loop_spec _ _ _ _ _ _ _ _ _ _ HO) as (ms & A & B & ->).
  assert (CH : forall e, In e ms -> chosen (fst e)).
  { intros e He. assert (HF : In (fst e) (filter (sel sthr cthr pm sm) (pairs (keys b)))) by (rewrite <- A; apply in_map; exact He). apply filter_In in HF. destruct HF as (H1 & H2). split; [exact H1|]. apply sel_selected. exact H2. }
  assert (ONE : forall k m, assoc k (fold_left (fun d m => dict_set (fst m) (snd m) d) (map (fun e : string * string * oresult => (report_key (fst e), snd e)) ms) []) = Some m -> exists e, In e ms /\ report_key (fst e) = k /\ snd e = m).
  { intros k m K. rewrite fold_dict in K. unfold last_value in K. destruct (assoc k (rev _)) as [m'|] eqn:AS; [|discriminate]. injection K as ->. apply assoc_In in AS. apply in_rev in AS. apply in_map_iff in AS. destruct AS as (e & EE & He). injection EE as <- <-. exists e. auto. }
  split.
  - intros k m K. destruct (ONE k m K) as (e & He & <- & <-). exists (fst e). split; [apply CH; exact He|]. split; [reflexivity|]. apply B. exact He.
  - intros c Hc. assert (Hin : In c (map fst ms)) by (rewrite A; apply filter_In; split; [apply Hc|apply sel_selected, Hc]). apply in_map_iff in Hin. destruct Hin as (e & <- & He).
    destruct (assoc (report_key (fst e)) (fold_left (fun d m => dict_set (fst m) (snd m) d) (map (fun e : string * string * oresult => (report_key (fst e), snd e)) ms) [])) as [m|] eqn:AS.
    + exists m. split; [reflexivity|]. destruct (ONE _ _ AS) as (e' & He' & K & <-). split; [apply B; exact He'|]. intros U. rewrite <- (U (fst e') (CH e' He') K). apply B. exact He'.
    + exfalso. rewrite fold_dict in AS. unfold last_value in AS. destruct (assoc _ (rev _)) eqn:AS2; [discriminate|]. apply assoc_None in AS2. apply AS2. unfold keys. rewrite map_rev. apply -> in_rev. rewrite map_map. apply in_map_iff. exists e. split; [reflexivity|exact He].
Qed.
(** two numbers: the pair is selected exactly when both reach their threshold *)
Theorem C66_both_thresholds : forall sthr cthr z v, selected sthr cthr (Fin z) (Fin v) <-> sthr <= Rabs z /\ cthr <= v.
Proof.
  intros sthr cthr z v. unfold selected, weak, below. split.
  - intros (A & B). split; apply Rnot_lt_le; intros L; [apply A; exists z; auto|apply B; right; exists v; auto].
  - intros (A & B). split; [intros (r & EE & L)|intros [EE|(r & EE & L)]]; [|discriminate|]; injection EE as <-; lra.
Qed.
(** an undefined correlation or significance is not skipped by its own threshold *)
Theorem C66_undefined_selected : forall sthr cthr, selected sthr cthr NaN NaN.
Proof. intros. split; [intros (r & EE & _)|intros [EE|(r & EE & _)]]; discriminate. Qed.

(** of pairs with the same key only the last one is kept *)
Theorem C66_last_pair_wins : forall l ic bins q sthr cthr noise lam simm nsim sigm CI (h : heap) (s : St) pm g sm outs h' s' b dict before c after, (l < length h)%nat ->
  correlation_report St E l ic bins q true sthr cthr noise lam simm nsim sigm CI h s = (Ok (pm, g, sm, outs), h', s') ->
  (let f := @nth frame l h [] in let dq := dq_check_nunique_values f (match ic with Some l => l | None => guess_interval_cols f end) true in bin_data (e_npq E) (fst dq) (snd dq) bins q) = Ok (b, dict) ->
  pairs (keys b) = before ++ c :: after -> selected sthr cthr (tval sm (fst c) (snd c)) (tval pm (fst c) (snd c)) ->
  (forall c', In c' after -> selected sthr cthr (tval sm (fst c') (snd c')) (tval pm (fst c') (snd c')) -> report_key c' <> report_key c) ->
  exists m, assoc (report_key c) outs = Some m /\ pmat b dict CI 1 true true true c m.
Proof.
  intros l ic bins q sthr cthr noise lam simm nsim sigm CI h s pm g sm outs h' s' b dict before c after Hl H HB HS SC HA.
  destruct (report_ok _ _ _ _ _ _ _ _ _ _ _ _ _ _ _ _ _ _ _ _ _ Hl H) as (b' & dict' & labels & HB' & _ & _ & _ & HO). cbv zeta in HB. rewrite HB in HB'. apply Ok_inj in HB'. injection HB' as <- <-.
  destruct (out_loop_spec _ _ _ _ _ _ _ _ _ _ HO) as (ms & A & B & ->). rewrite HS, filter_app in A. cbn [filter] in A. rewrite (proj2 (sel_selected sthr cthr pm sm c) SC) in A.
  assert (X : exists m1 m m2, ms = m1 ++ m :: m2 /\ fst m = c /\ map fst m2 = filter (sel sthr cthr pm sm) after).
  { clear - A. revert ms A. induction (filter (sel sthr cthr pm sm) before) as [|b0 bf IH]; intros [|m ms] A; try discriminate; cbn [app map] in A; injection A as EE A.
    - exists [], m, ms. repeat split; congruence.
    - destruct (IH ms A) as (m1 & m' & m2 & -> & F & G). exists (m :: m1), m', m2. repeat split; assumption. }
  destruct X as (m1 & m & m2 & -> & Fm & Fa). exists (snd m). split; [|rewrite <- Fm; apply B, in_or_app; right; left; reflexivity].
  rewrite fold_dict. unfold last_value. rewrite map_app, rev_app_distr. cbn [map rev]. rewrite <- app_assoc, assoc_app. cbn [app].
  assert (N : assoc (report_key c) (rev (map (fun e : string * string * oresult => (report_key (fst e), snd e)) m2)) = None).
  { apply assoc_None. unfold keys. rewrite map_rev, map_map. intros HI. apply in_rev in HI. apply in_map_iff in HI. destruct HI as (e & EE & He). cbn [fst] in EE.
    assert (HF : In (fst e) (filter (sel sthr cthr pm sm) after)) by (rewrite <- Fa; apply in_map; exact He). apply filter_In in HF. destruct HF as (H1 & H2). apply (HA (fst e) H1); [apply sel_selected; exact H2|exact EE]. }
  rewrite N. cbn [assoc]. rewrite Fm, String.eqb_refl. reflexivity.
Qed.
(** for instance the columns 'a b', 'a_b' and 'c' *)
Theorem C66_keys_collide : report_key ("a b", "c")%string = "a_b:c"%string /\ report_key ("a_b", "c")%string = "a_b:c"%string.
Proof. split; reflexivity. Qed.

(** undefined pairs *)
Lemma pairs_before : forall (f : frame) c0 c1, In (c0, c1) (pairs (keys f)) -> exists x y, before_or_same f (c0, x) (c1, y).
Proof.
  induction f as [|[k x] f IH]; intros c0 c1 H; [destruct H|]. change (keys ((k, x) :: f)) with (k :: keys f) in H. cbn [pairs] in H. apply in_app_or in H. destruct H as [H|H].
  - apply in_map_iff in H. destruct H as (k' & EE & Hk). injection EE as -> ->. unfold keys in Hk. apply in_map_iff in Hk. destruct Hk as ([k'' y] & <- & Hy). exists x, y. exists [], f. split; [reflexivity|right; exact Hy].
  - destruct (IH c0 c1 H) as (x0 & y0 & a & b & -> & Hq). exists x0, y0, ((k, x) :: a), b. split; [reflexivity|exact Hq].
Qed.
Lemma pairs_neq : forall (l : list string) a b, NoDup l -> In (a, b) (pairs l) -> a <> b.
Proof.
  induction l as [|x l IH]; intros a b ND H; [destruct H|]. inversion ND as [|? ? NI ND']; subst. cbn [pairs] in H. apply in_app_or in H. destruct H as [H|H]; [|exact (IH a b ND' H)].
  apply in_map_iff in H. destruct H as (y & EE & Hy). injection EE as -> ->. intros ->. contradiction.
Qed.
Lemma before_in : forall (f : frame) p q, before_or_same f p q -> In p f /\ In q f.
Proof. intros f p q (a & b & -> & H). split; apply in_or_app; right; [left; reflexivity|exact H]. Qed.
(** a pair of columns without a table of at least two rows and columns has neither a correlation nor a significance *)
Theorem C66_degenerate_is_undefined : forall b noise lam simm nsim sigm (s : St) pm sm s' c0 c1 x y h, lib_ok (e_lib E) -> NoDup (keys b) ->
  fst (phik_from_rebinned_df (e_lib E) b noise true true true) = Ok pm -> fst (sig_reb b lam simm nsim sigm true true true (e_workers E)) s = (Ok sm, s') ->
  In (c0, c1) (pairs (keys b)) -> assoc c0 b = Some x -> assoc c1 b = Some y ->
  is_table_of (counted_as true true true) (combine (c_cells x) (c_cells y)) h -> ~ proper_shape (hmat h) -> tval pm c0 c1 = NaN /\ tval sm c0 c1 = NaN.
Proof.
  intros b noise lam simm nsim sigm s pm sm s' c0 c1 x y h LO ND HP HS HC HX HY HT NP.
  pose proof (C31_phik_from_rebinned_df (e_lib E) b noise true true true LO ND) as M. rewrite HP in M. destruct M as (_ & _ & _ & _ & _ & M).
  destruct (C45_layout (e_sig E) St (e_multinomial E) (e_randint E) (e_exp E) (e_log E) (e_uninit E) (e_ib0 E) (e_fuel E) (e_cpp E) (e_clamp E) b lam simm nsim sigm true true true (e_workers E) s sm s' ND HS) as (_ & _ & _ & _ & S).
  destruct (pairs_before b c0 c1 HC) as (x' & y' & BS). destruct (before_in _ _ _ BS) as (I0 & I1). rewrite (assoc_NoDup _ _ x' b ND I0) in HX. rewrite (assoc_NoDup _ _ y' b ND I1) in HY. injection HX as ->. injection HY as ->.
  split.
  - destruct (M c0 x c1 y h I0 I1 (pairs_neq _ _ _ ND HC) HT) as [(_ & V)|(P & _)]; [exact V|contradiction].
  - destruct (S c0 x c1 y h BS HT) as [(_ & V)|(P & _)]; [exact V|contradiction].
Qed.
Lemma degenerate_matrix : forall dict CI nd c0 c1 x y h, is_table_of (counted_as true true true) (combine (c_cells x) (c_cells y)) h -> ~ proper_shape (hmat h) ->
  fst (outlier_significance_matrix_from_rebinned_df (e_out E) (e_fmt E) [(c0, x); (c1, y)] dict CI nd true true true) = Ok ONaN.
Proof.
  intros dict CI nd c0 c1 x y h HT NP. cbn [outlier_significance_matrix_from_rebinned_df hist2d_from_rebinned_df clean map fst snd c_num c_cells rbind].
  rewrite (is_table_unique _ _ _ _ (clean_table true true true (c_cells x) (c_cells y)) HT).
  assert (D : is01 (length (h_rows h)) || is01 (length (h_cols h)) = true).
  { destruct (is01 (length (h_rows h))) eqn:D1; [reflexivity|]. destruct (is01 (length (h_cols h))) eqn:D2; [reflexivity|]. exfalso. apply NP. unfold is01 in *. apply orb_false_iff in D1, D2. destruct D1 as (D1 & D1'), D2 as (D2 & D2').
    apply Nat.eqb_neq in D1, D1', D2, D2'. unfold proper_shape, hmat. cbn [nr nc]. lia. }
  cbn [rbind]. rewrite D. reflexivity.
Qed.
(** a report with outliers succeeds only if every pair of columns has a table with at least two rows and two columns *)
Theorem C66_undefined_pair_fails : forall l ic bins q sthr cthr noise lam simm nsim sigm CI (h : heap) (s : St) res h' s' b dict c0 c1 x y tab, lib_ok (e_lib E) -> (l < length h)%nat ->
  correlation_report St E l ic bins q true sthr cthr noise lam simm nsim sigm CI h s = (res, h', s') ->
  (let f := @nth frame l h [] in let dq := dq_check_nunique_values f (match ic with Some l => l | None => guess_interval_cols f end) true in bin_data (e_npq E) (fst dq) (snd dq) bins q) = Ok (b, dict) ->
  NoDup (keys b) -> In (c0, c1) (pairs (keys b)) -> assoc c0 b = Some x -> assoc c1 b = Some y ->
  is_table_of (counted_as true true true) (combine (c_cells x) (c_cells y)) tab -> ~ proper_shape (hmat tab) -> exists e, res = Raise e.
Proof.
  intros l ic bins q sthr cthr noise lam simm nsim sigm CI h s res h' s' b dict c0 c1 x y tab LO Hl H HB ND HC HX HY HT NP. destruct res as [[[[pm g] sm] outs]|e]; [|exists e; reflexivity]. exfalso.
  destruct (report_ok _ _ _ _ _ _ _ _ _ _ _ _ _ _ _ _ _ _ _ _ _ Hl H) as (b' & dict' & labels & HB' & HP & _ & HS & HO). cbv zeta in HB. rewrite HB in HB'. apply Ok_inj in HB'. injection HB' as <- <-.
  destruct (C66_degenerate_is_undefined b noise lam simm nsim sigm s pm sm s' c0 c1 x y tab LO ND HP HS HC HX HY HT NP) as (VP & VS).
  destruct (out_loop_spec _ _ _ _ _ _ _ _ _ _ HO) as (ms & A & B & _).
  assert (HF : In (c0, c1) (map fst ms)). { rewrite A. apply filter_In. split; [exact HC|]. apply sel_selected. cbn [fst snd]. rewrite VP, VS. apply C66_undefined_selected. }
  apply in_map_iff in HF. destruct HF as ([c m] & EE & He). cbn [fst] in EE. subst c. destruct (B _ He) as (PM & NM). cbn [fst snd] in *. destruct PM as (x' & y' & HX' & HY' & _ & HM). cbn [fst snd] in *.
  rewrite HX in HX'. rewrite HY in HY'. injection HX' as <-. injection HY' as <-. rewrite (degenerate_matrix dict CI 1 c0 c1 x y tab HT NP) in HM. apply Ok_inj in HM. congruence.
Qed.
(** the exception: AttributeError, when the matrices exist and the pairs before it cause no other error *)
Theorem C66_attribute_error : forall l ic bins q sthr cthr noise lam simm nsim sigm CI (h : heap) (s : St) res h' s' b dict pm g sm s1 c0 c1 before after x y tab, lib_ok (e_lib E) -> (l < length h)%nat ->
  correlation_report St E l ic bins q true sthr cthr noise lam simm nsim sigm CI h s = (res, h', s') ->
  (let f := @nth frame l h [] in let dq := dq_check_nunique_values f (match ic with Some l => l | None => guess_interval_cols f end) true in bin_data (e_npq E) (fst dq) (snd dq) bins q) = Ok (b, dict) ->
  fst (phik_from_rebinned_df (e_lib E) b noise true true true) = Ok pm -> global_phik_from_rebinned_df (e_lib E) (e_inv E) b noise true true true = Ok g ->
  fst (sig_reb b lam simm nsim sigm true true true (e_workers E)) s = (Ok sm, s1) ->
  NoDup (keys b) -> pairs (keys b) = before ++ (c0, c1) :: after -> (forall c, In c before -> exists m, pmat b dict CI 1 true true true c m) -> assoc c0 b = Some x -> assoc c1 b = Some y ->
  is_table_of (counted_as true true true) (combine (c_cells x) (c_cells y)) tab -> ~ proper_shape (hmat tab) -> res = Raise AttributeError.
Proof.
  intros l ic bins q sthr cthr noise lam simm nsim sigm CI h s res h' s' b dict pm g sm s1 c0 c1 before after x y tab LO Hl H HB HP HG HS ND PS BF HX HY HT NP.
  assert (HC : In (c0, c1) (pairs (keys b))) by (rewrite PS; apply in_or_app; right; left; reflexivity).
  destruct (C66_degenerate_is_undefined b noise lam simm nsim sigm s pm sm s1 c0 c1 x y tab LO ND HP HS HC HX HY HT NP) as (VP & VS).
  destruct (C66_report_is l ic bins q true sthr cthr noise lam simm nsim sigm CI h s Hl) as (t & HR). rewrite HR in H. clear HR. cbv zeta in HB. unfold report_of, mbind, lift, ret in H. rewrite HB in H. cbn [fst snd] in H. rewrite HP, HG, HS in H. cbn [fst snd] in H.
  pose proof (pairs_neq _ _ _ ND HC) as NE.
  assert (OL : forall acc, out_loop b dict CI sthr cthr pm sm (before ++ (c0, c1) :: after) acc = Raise AttributeError).
  { clear PS HC H. induction before as [|c bf IH]; intros acc.
    - cbn [app out_loop fst snd]. rewrite VP, VS. cbn [nabs nlt orb]. unfold two_columns. cbn [fst snd]. rewrite (proj2 (String.eqb_neq _ _) NE), HX, HY. cbn [rbind]. rewrite (degenerate_matrix dict CI 1 c0 c1 x y tab HT NP). reflexivity.
    - cbn [app out_loop]. destruct (_ || _); [apply IH; intros c' Hc'; apply BF; right; exact Hc'|].
      destruct (BF c (or_introl eq_refl)) as (m & x' & y' & X & Y & N & M). unfold two_columns. rewrite (proj2 (String.eqb_neq _ _) N), X, Y. cbn [rbind]. rewrite M. cbn [rbind]. destruct m; [reflexivity|]. apply IH. intros c' Hc'. apply BF. right. exact Hc'. }
  rewrite PS, OL in H. cbn [fst snd] in H. congruence.
Qed.
End Report.

(** two columns that are never known together: the report fails, whatever the thresholds *)
Definition apart : frame := [("x", mkCol false [CStr "a"; CStr "b"; CNaN; CNaN]); ("y", mkCol false [CNaN; CNaN; CStr "p"; CStr "q"])]%string.
Example C66_case : forall St (E : env St) q sthr cthr noise lam simm nsim sigm CI s, lib_ok (e_lib E) ->
  exists e h' s', correlation_report St E 0 (Some []) (BOne (BNum 10)) q true sthr cthr noise lam simm nsim sigm CI [apart] s = (Raise e, h', s').
Proof.
  intros St E q sthr cthr noise lam simm nsim sigm CI s LO. destruct (correlation_report St E 0 (Some []) (BOne (BNum 10)) q true sthr cthr noise lam simm nsim sigm CI [apart] s) as [[r h'] s'] eqn:H.
  destruct (C66_undefined_pair_fails St E 0 (Some []) (BOne (BNum 10)) q sthr cthr noise lam simm nsim sigm CI [apart] s r h' s' apart [] "x"%string "y"%string (snd (nth 0 apart (""%string, mkCol false []))) (snd (nth 1 apart (""%string, mkCol false []))) (crosstab (combine (map (clean1 true true true) [CStr "a"%string; CStr "b"%string; CNaN; CNaN]) (map (clean1 true true true) [CNaN; CNaN; CStr "p"%string; CStr "q"%string]))) LO ltac:(simpl; lia) H) as (e & ->).
  - vm_compute. reflexivity.
  - repeat constructor; simpl; intuition congruence.
  - left. reflexivity.
  - reflexivity.
  - reflexivity.
  - apply clean_table.
  - intros (A & _). vm_compute in A. lia.
  - exists e, h', s'. reflexivity.
Qed.
