(** Properties C26-C37: the phik coefficient, the correlation matrix, its assembly, arrays, spark, global correlations. *)
From Coq Require Import String ZArith List Bool Reals Lra Lia Sorting.Permutation Sorting.Sorted.
Import ListNotations.
From Verif Require Import F64 Base Cells BinModel SpecBin BinDataProofs HistModel SpecHist HistProofs RSum StatsModel SpecStats StatsProofs StatsProofs2 StatsProofs3 SpecSolver
  BrentModel BrentProofs BivModel SpecBiv BivProofs BivProofs2 PropsBiv Num PhikModel SpecPhik PhikProofs PhikProofs2 PhikProofs3 OverviewProofs PairMatProofs PhikMatProofs FrameProofs PhikInvProofs
  ArrayModel SpecArray ArrayProofs SparkModel SpecSpark SparkProofs.
Open Scope list_scope.
Open Scope R_scope.

(** the contracts assumed of the library can be met together (both variants of the continuity correction) *)
Theorem library_instance : forall clamp, lib_ok (mkLib clamp mixture bisection) /\ lib_converges (mkLib clamp mixture bisection) /\ lib_ok (mkLib clamp mixture scipy_brentq).
Proof. intros clamp. destruct bisection_ok as [A B]. split; [exact (conj mixture_ok A)|]. split; [exact B|exact (conj mixture_ok (brent_ok 100))]. Qed.

(** C26 *)
Theorem C26_unit_interval : forall L m noise, lib_ok L -> nonneg_table m -> has_records m -> proper_shape m ->
  (exists v, phik_from_hist2d L m noise = Ok v /\ 0 <= v <= 1) \/ (phik_from_hist2d L m noise = Raise RuntimeError /\ ~ lib_converges L).
Proof. intros. apply hist2d_unit; assumption. Qed.
Print Assumptions C26_unit_interval.
Corollary C26_never_fails : forall L m noise, lib_ok L -> lib_converges L -> nonneg_table m -> has_records m -> proper_shape m ->
  exists v, phik_from_hist2d L m noise = Ok v /\ 0 <= v <= 1.
Proof. intros L m noise LO LC HN HR PS. destruct (C26_unit_interval L m noise LO HN HR PS) as [H|[_ H]]; [exact H|contradiction]. Qed.

(** C27 *)
Theorem C27_transpose : forall L m noise, lib_ok L -> nonneg_table m -> has_records m -> proper_shape m ->
  phik_from_hist2d L (transp m) noise = phik_from_hist2d L m noise.
Proof. exact hist2d_transp. Qed.
Theorem C27_permutation : forall L m noise I J, lib_ok L -> nonneg_table m -> has_records m -> proper_shape m -> permutes m I J ->
  phik_from_hist2d L (submat m I J) noise = phik_from_hist2d L m noise.
Proof. exact hist2d_perm2. Qed.
Print Assumptions C27_transpose. Print Assumptions C27_permutation.

(** C28 *)
Theorem C28_perfect_association : forall L m k noise, lib_ok L -> nonneg_table m -> counts m -> perfect_association m k -> (3 <= k)%nat -> phik_from_hist2d L m noise = Ok 1.
Proof. intros. eapply hist2d_perfect; eassumption. Qed.
(** more generally, if one variable determines the other and the table is not 2x2 *)
Theorem C28_functional_dependence : forall L m g noise, lib_ok L -> nonneg_table m -> counts m -> column_determines_row m g -> (2 <= nr m)%nat -> (3 <= nc m)%nat ->
  phik_from_hist2d L m noise = Ok 1 /\ phik_from_hist2d L (transp m) noise = Ok 1.
Proof.
  intros L m g noise LO HN CT DT H1 H2. pose proof (hist2d_determined L m g noise LO HN CT DT H1 H2) as E. split; [exact E|]. rewrite hist2d_transp; [exact E|exact LO|exact HN| |split; [exact H1|lia]].
  apply (det_records m g DT). lia.
Qed.
(** two binary variables: the chi2 of a perfect association stays below its maximum N, whatever the counts *)
Theorem C28_binary_chi2_too_small : forall clamp m, nonneg_table m -> counts m -> perfect_association m 2 ->
  exists chi2, get_chi2 clamp m Pearson = Ok chi2 /\ 0 <= chi2 < matsum m.
Proof.
  intros k m HN CT PA. pose proof (perfect_records m 2 PA ltac:(lia)) as HR. rewrite get_chi2_closed by assumption. eexists. split; [reflexivity|].
  destruct (perfect2_chi2 k m HN PA CT) as (M & W0 & W1 & E). rewrite E. set (a := rowsum m 0) in *. set (b := rowsum m 1) in *. set (N := matsum m) in *.
  assert (P : 0 < N / (2 * a * b) <= 1).
  { split; [apply Rdiv_lt_0_compat; [lra|]; repeat apply Rmult_lt_0_compat; lra|]. apply (Rmult_le_reg_r (2 * a * b)); [repeat apply Rmult_lt_0_compat; lra|]. unfold Rdiv. rewrite Rmult_assoc, Rinv_l by (apply Rgt_not_eq; repeat apply Rmult_lt_0_compat; lra). rewrite M. clear - W0 W1. nra. }
  set (t := N / (2 * a * b)) in *. assert (0 < N) by lra. clear - P H. split; [apply Rmult_le_pos; [lra|apply pow2_ge_0]|]. assert ((1 - t) ^ 2 < 1) by nra. nra.
Qed.
Definition two_identical_records : mat := tab [[2;0];[0;2]]%Z 2.
Ltac small i := do 12 (destruct i as [|i]; [|]); try lia.
Lemma tir_facts : nonneg_table two_identical_records /\ counts two_identical_records /\ perfect_association two_identical_records 2.
Proof.
  unfold two_identical_records. split; [|split].
  - intros i j Hi Hj. cbn [nr nc tab length] in *. destruct i as [|[|i]]; [| |lia]; (destruct j as [|[|j]]; [| |lia]); simpl; lra.
  - intros i j Hi Hj. cbn [nr nc tab length] in *. destruct i as [|[|i]]; [| |lia]; (destruct j as [|[|j]]; [| |lia]); simpl; lra.
  - split; [reflexivity|]. split; [reflexivity|]. split; intros i Hi; exists i; (split; [exact Hi|]); (destruct i as [|[|i]]; [| |lia]); (split; [simpl; lra|]); intros j Hj; (destruct j as [|[|j]]; [| |lia]); simpl; try reflexivity; intros; lra.
Qed.
Theorem C28_binary_refuted : forall L, lib_ok L -> phik_from_hist2d L two_identical_records true = Ok 0.
Proof.
  intros L LO. destruct tir_facts as (HN & CT & PA). pose proof (perfect_records _ 2 PA ltac:(lia)) as HR. assert (PS : proper_shape two_identical_records) by (split; simpl; lia).
  rewrite hist2d_closed by assumption. cbn zeta. destruct (perfect2_chi2 (l_clamp L) _ HN PA CT) as (M & _ & _ & E). rewrite E.
  assert (A : rowsum two_identical_records 0 = 2) by (unfold rowsum, lsum; simpl; lra). assert (B : rowsum two_identical_records 1 = 2) by (unfold rowsum, lsum; simpl; lra).
  rewrite A, B in *. assert (X : chi2_max two_identical_records = 4) by (unfold chi2_max; rewrite M; cbn [nr nc tab two_identical_records length]; change (Z.min (Z.of_nat 2 - 1) (Z.of_nat 2 - 1)) with 1%Z; lra).
  rewrite X, M. replace ((2 + 2) * (1 - (2 + 2) / (2 * 2 * 2)) ^ 2) with 1 by lra. unfold clip. rewrite (proj2 (rltb_false 4 1)) by lra. rewrite andb_false_r || idtac.
  assert (P : pedestal_of two_identical_records true = 1).
  { unfold pedestal_of. rewrite simple_ndof_form by assumption. rewrite (perfect_nz_rows _ 2 PA), (perfect_nz_cols _ 2 PA), !idx_length. reflexivity. }
  rewrite P. cbn [andb]. rewrite (proj2 (rleb_true 1 1)) by lra. reflexivity.
Qed.
Print Assumptions C28_perfect_association. Print Assumptions C28_functional_dependence. Print Assumptions C28_binary_refuted.

(** C29 *)
Theorem C29_independence : forall L m noise, lib_ok L -> nonneg_table m -> has_records m -> proper_shape m -> independent_table m -> phik_from_hist2d L m noise = Ok 0.
Proof. exact hist2d_independent. Qed.
Print Assumptions C29_independence.

(** C30 *)
Theorem C30_sample_size : forall L m k, lib_ok L -> nonneg_table m -> has_records m -> proper_shape m -> ~ two_by_two m -> 0 < k ->
  phik_from_hist2d L (times k m) false = phik_from_hist2d L m false.
Proof. exact hist2d_scale. Qed.
Print Assumptions C30_sample_size.

(** C31: [matrix_of] says what a correlation matrix of the frame [f] looks like *)
Definition matrix_of (L : lib) (noise d u o : bool) (f : frame) (t : ntable) : Prop :=
  t_index t = keys f /\ t_columns t = keys f /\ well_formed t /\ (forall a b, tval t a b = tval t b a) /\
  (forall a, In a (keys f) -> tval t a a = Fin 1) /\
  (forall c0 x c1 y h, In (c0, x) f -> In (c1, y) f -> c0 <> c1 -> is_table_of (counted_as d u o) (combine (c_cells x) (c_cells y)) h ->
     (~ proper_shape (hmat h) /\ tval t c0 c1 = NaN) \/
     (proper_shape (hmat h) /\ exists v, phik_from_hist2d L (hmat h) noise = Ok v /\ tval t c0 c1 = Fin v /\ 0 <= v <= 1)).
Theorem C31_phik_from_rebinned_df : forall L f noise d u o, lib_ok L -> NoDup (keys f) ->
  match fst (phik_from_rebinned_df L f noise d u o) with
  | Ok t => matrix_of L noise d u o f t
  | Raise e => e = RuntimeError /\ ~ lib_converges L
  end.
Proof. intros L f noise d u o LO N. exact (phik_matrix_layout L f noise d u o LO N). Qed.
Theorem C31_phik_matrix : forall npq L df interval_cols bins q noise d u o, lib_ok L -> NoDup (keys df) ->
  let ic := match interval_cols with Some l => l | None => guess_interval_cols df end in
  let survives (p : string * col) := Nat.leb 2 (nunique (snd p)) || (Nat.eqb (nunique (snd p)) 1 && negb d && negb (mem (fst p) ic)) in
  let kept := filter survives df in
  let binned := bin_data npq kept (filter (fun c => mem c (keys kept)) ic) bins q in
  match phik_matrix npq L df interval_cols bins q noise d u o with
  | Ok t => exists f dict, binned = Ok (f, dict) /\ keys f = keys kept /\ t_index t = keys kept /\ t_columns t = keys kept /\ matrix_of L noise d u o f t
  | Raise e => binned = Raise e \/ (e = RuntimeError /\ ~ lib_converges L)
  end.
Proof.
  intros npq L df icol bins q noise d u o LO N ic survives kept binned. unfold phik_matrix. fold ic. destruct (dq_nunique_spec df ic d N) as [E1 E2]. fold survives in E1, E2. fold kept in E1, E2.
  destruct (dq_check_nunique_values df ic d) as [cdf ic'] eqn:E. cbn [fst snd] in E1, E2. subst cdf ic'. fold binned. destruct binned as [[f dict]|e] eqn:B; cbn [rbind fst]; [|left; reflexivity].
  unfold binned in B. pose proof (bin_data_spec _ _ _ _ _ _ _ B) as (K & _). assert (NF : NoDup (keys f)) by (rewrite K; apply nodup_keys_filter; exact N).
  pose proof (C31_phik_from_rebinned_df L f noise d u o LO NF) as H. destruct (fst (phik_from_rebinned_df L f noise d u o)) as [t|e]; [|right; exact H].
  exists f, dict. split; [reflexivity|]. split; [exact K|]. rewrite <- K. split; [apply H|]. split; [apply H|exact H].
Qed.
Print Assumptions C31_phik_matrix.

(** C32 *)
Theorem C32_order_of_results : forall vals vals', Permutation vals vals' -> overview vals = overview vals'.
Proof. exact overview_perm. Qed.
Print Assumptions C32_order_of_results.
Example C32_case : overview [("b","a",Fin (1/2)); ("a","a",Fin 1); ("b","b",Fin 1)]%string = overview [("a","a",Fin 1); ("b","b",Fin 1); ("b","a",Fin (1/2))]%string.
Proof. apply C32_order_of_results. apply (Permutation_app_comm [_] [_; _]). Qed.

(** C33 *)
Theorem C33_overview : forall vals, one_value_per_pair vals ->
  let t := overview vals in
  well_formed t /\ t_index t = t_columns t /\ StronglySorted label_lt (t_index t) /\
  (forall a b x, given vals a b x -> tval t a b = x /\ tval t b a = x) /\
  (forall a b, (forall x, ~ given vals a b x) -> tval t a b = NaN) /\
  (forall a, In a (t_index t) <-> exists b x, given vals a b x /\ x <> NaN).
Proof.
  intros vals OV t. split; [apply overview_wf|]. split; [apply index_columns|]. split; [apply overview_sorted|]. split; [|split; [apply overview_absent|intros; apply overview_labels; exact OV]].
  intros a b x H. split; [apply overview_given; assumption|]. unfold t. rewrite tval_sym. apply overview_given; assumption.
Qed.
Print Assumptions C33_overview.
Example C33_case : one_value_per_pair [("b","a",Fin (1/2)); ("a","a",Fin 1); ("c","b",NaN)]%string.
Proof. intros a b x y [H|H] [K|K]; simpl in *; intuition congruence. Qed.

(** C34 *)
Theorem C34_record_order : forall npq L df interval_cols bins q noise d u o n l, order_free npq -> rectangular n df -> Permutation l (seq 0 n) ->
  phik_matrix npq L (reorder l df) interval_cols bins q noise d u o = phik_matrix npq L df interval_cols bins q noise d u o.
Proof. exact phik_matrix_reorder. Qed.
Theorem C34_category_names : forall npq L df interval_cols bins q noise d u o c g, lib_ok L -> NoDup (keys df) ->
  ~ In c (match interval_cols with Some l => l | None => guess_interval_cols df end) -> (forall x, In (c, x) df -> good_renaming g (c_cells x)) ->
  phik_matrix npq L (rename c g df) interval_cols bins q noise d u o = phik_matrix npq L df interval_cols bins q noise d u o.
Proof. exact phik_matrix_rename. Qed.
Print Assumptions C34_record_order. Print Assumptions C34_category_names.
Example C34_renaming_case : good_renaming (fun v => match v with CStr "x" => CStr "y" | CStr "y" => CStr "x" | _ => v end) [CStr "x"; CNaN; CStr "y"; CStr "UF"]%string.
Proof.
  split; [|split].
  - intros v w Hv Hw. simpl in Hv, Hw. intuition subst; congruence.
  - intros v Hv M. simpl in Hv. destruct M as [M|[M|[M|M]]]; intuition subst; congruence.
  - intros v Hv NM M. simpl in Hv. destruct M as [M|[M|[M|M]]]; intuition subst; try congruence; apply NM; unfold is_marker; auto.
Qed.
Example C34_reorder_case : rectangular 3 [("a", mkCol false [CStr "x"; CStr "y"; CNaN])]%string /\ Permutation [2;0;1]%nat (seq 0 3) /\
  reorder [2;0;1]%nat [("a", mkCol false [CStr "x"; CStr "y"; CNaN])]%string = [("a", mkCol false [CNaN; CStr "x"; CStr "y"])]%string.
Proof. split; [intros p [<-|[]]; reflexivity|]. split; [apply (Permutation_app_comm [2%nat] [0;1]%nat)|reflexivity]. Qed.

(** C35 *)
Theorem C35_arrays_agree_with_matrix : forall str L c0 c1 x y noise d u o, lib_ok L -> python_str str -> c0 <> c1 ->
  no_missing (c_cells x) -> no_missing (c_cells y) -> str_distinct str (c_cells x) -> str_distinct str (c_cells y) ->
  phik_from_binned_array str L (c_cells x) (c_cells y) noise d u o = rmap (fun t => tval t c0 c1) (fst (phik_from_rebinned_df L [(c0, x); (c1, y)] noise d u o)).
Proof. exact array_matrix. Qed.
Definition x35 := [CStr "a"; CStr "a"; CNaN]%string.
Definition y35 := [CStr "p"; CStr "q"; CStr "p"]%string.
Theorem C35_missing_values_are_counted : forall str L c0 c1, lib_ok L -> lib_converges L -> python_str str -> c0 <> c1 ->
  (exists t, fst (phik_from_rebinned_df L [(c0, mkCol false x35); (c1, mkCol false y35)] true true true true) = Ok t /\ tval t c0 c1 = NaN) /\
  (exists v, phik_from_binned_array str L x35 y35 true true true true = Ok (Fin v)).
Proof.
  intros str L c0 c1 LO LC (S1 & S2 & S3) NE. split.
  - assert (ND : NoDup (keys [(c0, mkCol false x35); (c1, mkCol false y35)])) by (repeat constructor; simpl; intuition congruence).
    pose proof (C31_phik_from_rebinned_df L _ true true true true LO ND) as H. destruct (fst _) as [t|e]; [|destruct H; contradiction]. exists t. split; [reflexivity|].
    destruct H as (_ & _ & _ & _ & _ & H). destruct (H c0 (mkCol false x35) c1 (mkCol false y35) _ (or_introl eq_refl) (or_intror (or_introl eq_refl)) NE (clean_table true true true x35 y35)) as [[_ E]|[[P _] _]]; [exact E|].
    exfalso. vm_compute in P. lia.
  - unfold phik_from_binned_array.
    assert (E : combine (clean_array str true true true x35) (clean_array str true true true y35) = (combine [CStr "a"; CStr "a"; CStr "nan"] [CStr "p"; CStr "q"; CStr "p"])%string).
    { unfold clean_array, x35, y35, tostr. cbn [map orb]. rewrite !S2, S1. reflexivity. }
    rewrite E. set (h := crosstab _). assert (PS : (length (h_rows h) = 2 /\ length (h_cols h) = 2)%nat) by (split; vm_compute; reflexivity). destruct PS as [P1 P2]. rewrite P1, P2. cbn [dq_check_hist2d fst negb]. cbn -[phik_from_hist2d].
    destruct (C26_never_fails L (hmat h) true LO LC) as (v & Ev & _).
    + apply hmat_nonneg.
    + destruct (crosstab_is_table (combine [CStr "a"; CStr "a"; CStr "nan"] [CStr "p"; CStr "q"; CStr "p"])%string) as (s & r & IT). eapply hmat_records; [exact IT|]. unfold hmat. cbn [nr]. fold h. lia.
    + unfold proper_shape, hmat. cbn [nr nc]. lia.
    + exists v. rewrite Ev. reflexivity.
Qed.
Print Assumptions C35_arrays_agree_with_matrix. Print Assumptions C35_missing_values_are_counted.

(** C36 *)
Theorem C36_named_histograms : forall L (l : list (string * string * mat)), (forall e, In e l -> colon_free (fst (fst e)) /\ colon_free (snd (fst e))) -> one_per_pair l ->
  let dict := map (fun e => ((fst (fst e) ++ ":" ++ snd (fst e))%string, HArr (snd e))) l in
  ((forall a b m, In (a, b, m) l -> a <> b -> exists v, phik_from_hist2d L m true = Ok v) -> exists t, spark_phik_matrix L dict = Ok t) /\
  (forall t a b m v, spark_phik_matrix L dict = Ok t -> In (a, b, m) l -> a <> b -> phik_from_hist2d L m true = Ok v -> tval t a b = Fin v /\ tval t b a = Fin v) /\
  (forall t a m, spark_phik_matrix L dict = Ok t -> In (a, a, m) l -> tval t a a = Fin 1).
Proof.
  intros L l CF OP dict. change dict with (named l). rewrite spark_named by exact CF.
  set (F := fun e : string * string * mat => if String.eqb (fst (fst e)) (snd (fst e)) then Ok (fst (fst e), snd (fst e), Fin 1) else rmap (fun v => (fst (fst e), snd (fst e), v)) (row_num L (snd e))).
  assert (KEY : forall e r, F e = Ok r -> fst r = fst e).
  { intros [[a b] m] r H. unfold F in H. cbn [fst snd] in *. destruct (String.eqb a b); [injection H as <-; reflexivity|]. destruct (row_num L m); [injection H as <-; reflexivity|discriminate]. }
  assert (GIV : forall vals, mapM F l = Ok vals -> one_value_per_pair vals /\ forall e r, In e l -> F e = Ok r -> In r vals).
  { intros vals E. assert (A : forall r, In r vals <-> exists e, In e l /\ F e = Ok r).
    { intros r. apply Base.mapM_ok in E. induction E as [|e r' l0 v0 H E IH]; [split; [intros []|intros (e & [] & _)]|].
      assert (IH' := IH ltac:(intros; apply CF; right; assumption) ltac:(intros a b x c d y H1 H2; apply OP; right; assumption)). simpl. rewrite IH'. split.
      - intros [<-|(e' & H1 & H2)]; [exists e; auto|exists e'; auto].
      - intros (e' & [<-|H1] & H2); [left; congruence|right; exists e'; auto]. }
    split; [|intros e r H1 H2; apply A; exists e; auto].
    assert (U : forall a b x c d y, In (a, b, x) vals -> In (c, d, y) vals -> (a = c /\ b = d) \/ (a = d /\ b = c) -> x = y).
    { intros a b x c d y H1 H2 C. apply A in H1. apply A in H2. destruct H1 as ([[a' b'] m] & I1 & F1). destruct H2 as ([[c' d'] m'] & I2 & F2).
      pose proof (KEY _ _ F1) as K1. pose proof (KEY _ _ F2) as K2. cbn [fst] in K1, K2. injection K1 as -> ->. injection K2 as -> ->. pose proof (OP _ _ _ _ _ _ I1 I2 C) as Q. rewrite Q in F1. rewrite F1 in F2. injection F2 as _ _ ->. reflexivity. }
    intros a b x y [H1|H1] [H2|H2]; eapply U; eauto. }
  split; [|split].
  - intros H. destruct (mapM F l) as [vals|e] eqn:E; [eexists; reflexivity|]. exfalso. apply mapM_raise in E. destruct E as ([[a b] m] & I1 & F1). unfold F in F1. cbn [fst snd] in F1. destruct (String.eqb_spec a b) as [->|N]; [discriminate|].
    destruct (H a b m I1 N) as (v & Hv). unfold row_num in F1. rewrite Hv in F1. discriminate.
  - intros t a b m v H I1 N Hv. destruct (mapM F l) as [vals|e] eqn:E; [|discriminate]. injection H as <-. destruct (GIV vals eq_refl) as [OV G].
    assert (In (a, b, Fin v) vals). { apply (G (a, b, m)); [exact I1|]. unfold F. cbn [fst snd]. rewrite (proj2 (String.eqb_neq _ _) N). unfold row_num. rewrite Hv. reflexivity. }
    split; [apply overview_given|rewrite tval_sym; apply overview_given]; try exact OV; left; assumption.
  - intros t a m H I1. destruct (mapM F l) as [vals|e] eqn:E; [|discriminate]. injection H as <-. destruct (GIV vals eq_refl) as [OV G]. apply overview_given; [exact OV|]. left. apply (G (a, a, m)); [exact I1|]. unfold F. cbn [fst snd]. rewrite String.eqb_refl. reflexivity.
Qed.
Example C36_case : (forall e, In e [("a","b",1%nat);("b","c",2%nat);("a","a",3%nat)]%string -> colon_free (fst (fst e)) /\ colon_free (snd (fst e))) /\ one_per_pair [("a","b",1%nat);("b","c",2%nat);("a","a",3%nat)]%string.
Proof.
  split; [intros e H; simpl in H; intuition subst; cbn; unfold colon_free; simpl; intuition congruence|].
  intros a b x c d y H1 H2. simpl in H1, H2. intuition congruence.
Qed.
(** the histogram of the pair (x:y, z) is entered for the pair (x, y) *)
Theorem C36_misattributed : forall L m v, phik_from_hist2d L m true = Ok v ->
  exists t, spark_phik_matrix L [("x:y" ++ ":" ++ "z", HArr m)]%string = Ok t /\ t_index t = ["x"; "y"]%string /\ tval t "x" "y" = Fin v /\ tval t "x:y" "z" = NaN.
Proof.
  intros L m v H. unfold spark_phik_matrix. cbn [existsb snd flat_map fst app mapM orb].
  assert (E : phik_from_row L ("x:y" ++ ":" ++ "z", m)%string = Ok ("x"%string, "y"%string, Fin v)).
  { change ("x:y" ++ ":" ++ "z")%string with ("x" ++ ":" ++ "y" ++ ":" ++ "z")%string. rewrite row_three by (unfold colon_free; simpl; intuition congruence). unfold row_num. rewrite H. reflexivity. }
  rewrite E. cbn [rbind]. eexists. split; [reflexivity|].
  assert (OV : one_value_per_pair [("x", "y", Fin v)]%string) by (intros a b p q [X|X] [Y|Y]; simpl in *; intuition congruence).
  split; [|split; [apply overview_given; [exact OV|left; left; reflexivity]|apply overview_absent; intros p [X|X]; simpl in X; intuition congruence]].
  unfold overview, long_rows, group. cbn [flat_map app]. cbn. reflexivity.
Qed.
Theorem C36_key_without_colon : forall L m k dict, colon_free k -> In (k, HArr m) dict -> forall t, spark_phik_matrix L dict <> Ok t.
Proof.
  intros L m k dict CF Hin t H. unfold spark_phik_matrix in H. destruct (existsb _ dict); [discriminate|]. destruct (mapM _ _) as [vals|] eqn:E; [|discriminate].
  apply Base.mapM_ok in E. assert (I : In (k, m) (flat_map (fun kv => match snd kv with HArr m => [(fst kv, m)] | HOther => [] end) dict)) by (apply in_flat_map; exists (k, HArr m); split; [exact Hin|left; reflexivity]).
  destruct (row_no_colon L k m CF) as [NO _]. clear H Hin. induction E as [|e r l0 v0 H E IH]; [destruct I|]. destruct I as [->|I]; [rewrite H in NO; discriminate|auto].
Qed.
Theorem C36_other_values_rejected : forall L dict k, In (k, HOther) dict -> spark_phik_matrix L dict = Raise TypeError.
Proof. intros L dict k H. unfold spark_phik_matrix. rewrite (proj2 (existsb_exists _ _)); [reflexivity|]. exists (k, HOther). split; [exact H|reflexivity]. Qed.
Print Assumptions C36_named_histograms. Print Assumptions C36_misattributed. Print Assumptions C36_key_without_colon.

(** C37 *)
Theorem C37_positive_definite : forall L inv f noise d u o t n V, fst (phik_from_rebinned_df L f noise d u o) = Ok t -> t_cells t = rows_of n V ->
  symmetric n V -> positive_definite n V -> inverts inv n V ->
  exists g, global_phik_from_rebinned_df L inv f noise d u o = Ok (map Fin g, t_index t) /\ length g = n /\ forall x, In x g -> 0 <= x < 1.
Proof.
  intros L inv f noise d u o t n V E C SY PD IV. unfold global_phik_from_rebinned_df. rewrite E. cbn [rbind]. rewrite C.
  destruct IV as [(W & RI & ->)|[NI _]]; [|destruct (pd_inverse n V SY PD) as (W & HW); destruct (NI W HW)]. cbn [rbind].
  assert (LR : length (rows_of n V) = n) by (unfold rows_of; rewrite map_length; apply seq_length). rewrite LR.
  destruct (finite_choice R (fun i g => global_value (Fin (V i i)) (Fin (W i i)) = Fin g /\ 0 <= g < 1) 0 n) as (g & Hg).
  - intros i Hi. destruct (global_unit n V W SY PD RI i Hi) as (g & H1 & H2 & _). exists g. auto.
  - exists (map g (seq 0 n)). split; [|split; [rewrite map_length; apply seq_length|]].
    + f_equal. f_equal. rewrite map_map. apply map_ext_in. intros i Hi. apply in_seq in Hi. rewrite !rows_nth by lia. apply Hg. lia.
    + intros x Hx. apply in_map_iff in Hx. destruct Hx as (i & <- & Hi). apply in_seq in Hi. apply Hg. lia.
Qed.
Print Assumptions C37_positive_definite.

(** a and c independent, b = (a, c): the phik matrix is not positive definite and the global correlation of b is sqrt 2 *)
Definition col3 (l : list Z) := mkCol false (map CInt l).
Definition frame37 : frame := [("a", col3 [0;0;0;1;1;1;2;2;2]); ("b", col3 [0;1;2;3;4;5;6;7;8]); ("c", col3 [0;1;2;0;1;2;0;1;2])]%string%Z.
Definition V37 (i j : nat) : R := if (Nat.eqb i 0 && Nat.eqb j 2) || (Nat.eqb i 2 && Nat.eqb j 0) then 0 else 1.
Lemma inr_tab : forall (l : list (list Z)) (h : htable) i j, map (map Z.of_nat) (h_cnt h) = l -> INR (nth j (nth i (h_cnt h) []) 0%nat) = IZR (nth j (nth i l []) 0%Z).
Proof.
  intros l h i j <-. rewrite INR_IZR_INZ. f_equal. change 0%Z with (Z.of_nat 0). rewrite <- (map_nth Z.of_nat). f_equal. change (@nil Z) with (map Z.of_nat []). rewrite map_nth. reflexivity.
Qed.
Lemma entry37 : forall L, lib_ok L -> forall noise c0 x c1 y v t, c0 <> c1 -> In (c0, x) frame37 -> In (c1, y) frame37 -> matrix_of L noise true true true frame37 t ->
  let h := crosstab (combine (map (clean1 true true true) (c_cells x)) (map (clean1 true true true) (c_cells y))) in
  (2 <= length (h_rows h))%nat -> (2 <= length (h_cols h))%nat -> phik_from_hist2d L (hmat h) noise = Ok v -> tval t c0 c1 = Fin v.
Proof.
  intros L LO noise c0 x c1 y v t NE H0 H1 (_ & _ & _ & _ & _ & M) h P1 P2 E. destruct (M c0 x c1 y h H0 H1 NE (clean_table true true true (c_cells x) (c_cells y))) as [[NP _]|(_ & w & Ew & T & _)].
  - exfalso. apply NP. split; assumption.
  - rewrite E in Ew. injection Ew as ->. exact T.
Qed.
Lemma hmat_counts : forall h, counts (hmat h).
Proof. intros h i j _ _. cbn [el hmat]. set (k := nth j _ _). destruct k as [|k]; [left; reflexivity|right]. rewrite S_INR. pose proof (pos_INR k). lra. Qed.
Lemma det_check : forall h g, let r := length (h_rows h) in let c := length (h_cols h) in
  forallb (fun j => Nat.ltb (g j) r) (seq 0 c) = true -> forallb (fun i => existsb (fun j => Nat.eqb (g j) i) (seq 0 c)) (seq 0 r) = true ->
  forallb (fun i => forallb (fun j => Bool.eqb (negb (Nat.eqb (nth j (nth i (h_cnt h) []) 0%nat) 0)) (Nat.eqb (g j) i)) (seq 0 c)) (seq 0 r) = true ->
  column_determines_row (hmat h) g.
Proof.
  intros h g r c H1 H2 H3. rewrite forallb_forall in H1, H2, H3. split; [|split]; cbn [nr nc el hmat].
  - intros j Hj. apply Nat.ltb_lt, H1, in_seq. lia.
  - intros i Hi. assert (Q : In i (seq 0 r)) by (apply in_seq; unfold r; lia). apply H2, existsb_exists in Q. destruct Q as (j & Hj & E). apply in_seq in Hj. apply Nat.eqb_eq in E. exists j. split; [unfold c in Hj; lia|exact E].
  - intros i j Hi Hj. assert (Q : In i (seq 0 r)) by (apply in_seq; unfold r; lia). apply H3 in Q. rewrite forallb_forall in Q. assert (Q' : In j (seq 0 c)) by (apply in_seq; unfold c; lia). apply Q, eqb_prop in Q'.
    destruct (Nat.eqb_spec (g j) i) as [E|E]; apply (f_equal negb) in Q'; rewrite negb_involutive in Q'.
    + apply Nat.eqb_neq in Q'. split; [auto|]. intros _ Z. apply Q'. apply INR_eq. exact Z.
    + apply Nat.eqb_eq in Q'. rewrite Q'. split; [intros Z; exfalso; apply Z; reflexivity|contradiction].
Qed.
Theorem C37_not_a_fraction : forall L inv noise, lib_ok L -> lib_converges L -> inverts inv 3 V37 ->
  exists a c, global_phik_from_rebinned_df L inv frame37 noise true true true = Ok ([a; Fin (sqrt 2); c], ["a"; "b"; "c"]%string).
Proof.
  intros L inv noise LO LC IV.
  assert (ND : NoDup (keys frame37)) by (repeat constructor; simpl; intuition congruence).
  pose proof (C31_phik_from_rebinned_df L frame37 noise true true true LO ND) as H. unfold global_phik_from_rebinned_df. destruct (fst _) as [t|e]; [|destruct H; contradiction]. cbn [rbind].
  assert (AB : tval t "a" "b" = Fin 1).
  { eapply (entry37 L LO noise "a"%string _ "b"%string); [congruence|left; reflexivity|right; left; reflexivity|exact H|vm_compute; lia|vm_compute; lia|].
    eapply (hist2d_determined L _ (fun j => (j / 3)%nat)); [exact LO|apply hmat_nonneg|apply hmat_counts|apply det_check; vm_compute; reflexivity|vm_compute; lia|vm_compute; lia]. }
  assert (CB : tval t "c" "b" = Fin 1).
  { eapply (entry37 L LO noise "c"%string _ "b"%string); [congruence|right; right; left; reflexivity|right; left; reflexivity|exact H|vm_compute; lia|vm_compute; lia|].
    eapply (hist2d_determined L _ (fun j => (j mod 3)%nat)); [exact LO|apply hmat_nonneg|apply hmat_counts|apply det_check; vm_compute; reflexivity|vm_compute; lia|vm_compute; lia]. }
  assert (AC : tval t "a" "c" = Fin 0).
  { eapply (entry37 L LO noise "a"%string _ "c"%string); [congruence|left; reflexivity|right; right; left; reflexivity|exact H|vm_compute; lia|vm_compute; lia|].
    rewrite (hist2d_eq L _ (tab [[1;1;1];[1;1;1];[1;1;1]]%Z 3)).
    - apply hist2d_independent; [exact LO| | |split; simpl; lia|].
      + intros i j Hi Hj. cbn [nr nc tab length] in *. destruct i as [|[|[|i]]]; [| | |lia]; (destruct j as [|[|[|j]]]; [| | |lia]); simpl; lra.
      + exists 0%nat, 0%nat. simpl. repeat split; try lia. lra.
      + intros i j Hi Hj. cbn [nr nc tab length] in *. unfold tab, rowsum, colsum, matsum, rowsum, lsum. destruct i as [|[|[|i]]]; [| | |lia]; (destruct j as [|[|[|j]]]; [| | |lia]); simpl; lra.
    - split; [vm_compute; reflexivity|]. split; [vm_compute; reflexivity|]. intros i j _ _. cbn [el hmat tab]. apply inr_tab. vm_compute. reflexivity. }
  destruct H as (I1 & I2 & WF & SYM & DI & _).
  assert (KF : keys frame37 = ["a"; "b"; "c"]%string) by reflexivity. rewrite KF in *.
  assert (C : t_cells t = rows_of 3 V37).
  { destruct t as [ti tc cells]. cbn [t_index t_columns t_cells] in *. subst ti tc. destruct WF as [W1 W2]. cbn [t_index t_columns t_cells] in *.
    destruct cells as [|ra [|rb [|rc [|]]]]; try discriminate. pose proof (W2 ra (or_introl eq_refl)) as La. pose proof (W2 rb (or_intror (or_introl eq_refl))) as Lb. pose proof (W2 rc (or_intror (or_intror (or_introl eq_refl)))) as Lc.
    destruct ra as [|a1 [|a2 [|a3 [|]]]]; try discriminate. destruct rb as [|b1 [|b2 [|b3 [|]]]]; try discriminate. destruct rc as [|c1 [|c2 [|c3 [|]]]]; try discriminate.
    pose proof (DI "a"%string (or_introl eq_refl)) as D1. pose proof (DI "b"%string (or_intror (or_introl eq_refl))) as D2. pose proof (DI "c"%string (or_intror (or_intror (or_introl eq_refl)))) as D3.
    pose proof (SYM "a" "b")%string as S1. pose proof (SYM "a" "c")%string as S2. pose proof (SYM "c" "b")%string as S3. cbn in *. unfold rows_of, V37. cbn. congruence. }
  rewrite C. unfold inverts in IV. destruct IV as [(W & RI & ->)|[NI _]].
  - cbn [rbind]. rewrite I1. cbn [length rows_of map seq]. eexists _, _. f_equal. f_equal. f_equal. f_equal. cbn [nth map].
    assert (E : W 1%nat 1%nat = -1).
    { pose proof (RI 0%nat 1%nat ltac:(lia) ltac:(lia)) as E0. pose proof (RI 1%nat 1%nat ltac:(lia) ltac:(lia)) as E1. pose proof (RI 2%nat 1%nat ltac:(lia) ltac:(lia)) as E2. unfold lsum, V37 in E0, E1, E2. simpl in E0, E1, E2. lra. }
    rewrite E. unfold V37. cbn [Nat.eqb andb orb]. unfold global_value. destruct (Req_EM_T (1 * -1) 0); [lra|]. cbn zeta. replace (1 - 1 / (1 * -1)) with 2 by lra. destruct (Rlt_dec 2 0); [lra|]. reflexivity.
  - exfalso. apply (NI (fun i j => match i, j with 0%nat, 1%nat | 1%nat, 0%nat | 1%nat, 2%nat | 2%nat, 1%nat => 1 | 0%nat, 2%nat | 1%nat, 1%nat | 2%nat, 0%nat => -1 | _, _ => 0 end)).
    intros i j Hi Hj. unfold lsum, V37. destruct i as [|[|[|i]]]; [| | |lia]; (destruct j as [|[|[|j]]]; [| | |lia]); simpl; lra.
Qed.
Print Assumptions C37_not_a_fraction.
(** non-vacuity of C37: two independent columns give the identity matrix *)
Definition frame37b : frame := [("a", col3 [0;0;1;1]); ("b", col3 [0;1;0;1])]%string%Z.
Definition I2 (i j : nat) : R := if Nat.eqb i j then 1 else 0.
Example C37_hypotheses : forall L noise, lib_ok L -> lib_converges L -> exists t, fst (phik_from_rebinned_df L frame37b noise true true true) = Ok t /\ t_cells t = rows_of 2 I2 /\
  symmetric 2 I2 /\ positive_definite 2 I2 /\ inverts (fun V => Ok V) 2 I2.
Proof.
  intros L noise LO LC. assert (ND : NoDup (keys frame37b)) by (repeat constructor; simpl; intuition congruence).
  pose proof (C31_phik_from_rebinned_df L frame37b noise true true true LO ND) as H. destruct (fst _) as [t|e]; [|destruct H; contradiction]. exists t. split; [reflexivity|]. split; [|split; [|split]].
  - destruct H as (T1 & T2 & WF & SYM & DI & M).
    assert (AB : tval t "a" "b" = Fin 0).
    { destruct (M "a"%string (col3 [0;0;1;1]%Z) "b"%string (col3 [0;1;0;1]%Z) _ (or_introl eq_refl) (or_intror (or_introl eq_refl)) ltac:(congruence) (clean_table true true true _ _)) as [[NP _]|(PS & w & Ew & T & _)]; [exfalso; apply NP; split; vm_compute; lia|].
      rewrite (hist2d_eq L _ (tab [[1;1];[1;1]]%Z 2)) in Ew.
      - rewrite hist2d_independent in Ew; [injection Ew as <-; exact T|exact LO| | |split; simpl; lia|].
        + intros i j Hi Hj. cbn [nr nc tab length] in *. destruct i as [|[|i]]; [| |lia]; (destruct j as [|[|j]]; [| |lia]); simpl; lra.
        + exists 0%nat, 0%nat. simpl. repeat split; try lia. lra.
        + intros i j Hi Hj. cbn [nr nc tab length] in *. unfold tab, rowsum, colsum, matsum, rowsum, lsum. destruct i as [|[|i]]; [| |lia]; (destruct j as [|[|j]]; [| |lia]); simpl; lra.
      - split; [vm_compute; reflexivity|]. split; [vm_compute; reflexivity|]. intros i j _ _. cbn [el hmat tab]. apply inr_tab. vm_compute. reflexivity. }
    destruct t as [ti tc cells]. cbn [t_index t_columns t_cells] in *. change (keys frame37b) with ["a"; "b"]%string in *. subst ti tc. destruct WF as [W1 W2]. cbn [t_index t_columns t_cells] in *.
    destruct cells as [|ra [|rb [|]]]; try discriminate. pose proof (W2 ra (or_introl eq_refl)) as La. pose proof (W2 rb (or_intror (or_introl eq_refl))) as Lb.
    destruct ra as [|a1 [|a2 [|]]]; try discriminate. destruct rb as [|b1 [|b2 [|]]]; try discriminate.
    pose proof (DI "a"%string (or_introl eq_refl)) as D1. pose proof (DI "b"%string (or_intror (or_introl eq_refl))) as D2. pose proof (SYM "a" "b")%string as S1. cbn in *. unfold rows_of, I2. cbn. congruence.
  - intros i j _ _. unfold I2. rewrite Nat.eqb_sym. reflexivity.
  - intros x (i & Hi & Ne). unfold quad, I2, lsum. simpl. assert (0 < x 0%nat * x 0%nat + x 1%nat * x 1%nat); [|lra]. destruct i as [|[|i]]; [| |lia]; pose proof (Rle_0_sqr (x 0%nat)) as P0; pose proof (Rle_0_sqr (x 1%nat)) as P1; pose proof (Rsqr_pos_lt _ Ne) as P; unfold Rsqr in *; lra.
  - left. exists I2. split; [|reflexivity]. intros i j Hi Hj. unfold I2, lsum. destruct i as [|[|i]]; [| |lia]; (destruct j as [|[|j]]; [| |lia]); simpl; lra.
Qed.
(** non-vacuity of C26-C30 *)
Example C26_case : let m := tab [[3;1;0];[1;2;4]]%Z 3 in nonneg_table m /\ has_records m /\ proper_shape m /\ counts m.
Proof.
  cbn zeta. split; [|split; [|split; [split; simpl; lia|]]].
  - intros i j Hi Hj. cbn [nr nc tab length] in *. destruct i as [|[|i]]; [| |lia]; (destruct j as [|[|[|j]]]; [| | |lia]); simpl; lra.
  - exists 0%nat, 0%nat. simpl. repeat split; try lia. lra.
  - intros i j Hi Hj. cbn [nr nc tab length] in *. destruct i as [|[|i]]; [| |lia]; (destruct j as [|[|[|j]]]; [| | |lia]); simpl; lra.
Qed.
Example C28_case : column_determines_row (tab [[3;0;1];[0;2;0]]%Z 3) (fun j => if Nat.eqb j 1 then 1 else 0)%nat.
Proof.
  split; [|split]; cbn [nr nc tab length].
  - intros j Hj. destruct (Nat.eqb j 1); lia.
  - intros i Hi. exists i. destruct i as [|[|i]]; simpl; lia.
  - intros i j Hi Hj. destruct i as [|[|i]]; [| |lia]; (destruct j as [|[|[|j]]]; [| | |lia]); simpl; (split; [intros; try reflexivity; exfalso; lra|intros; try discriminate; lra]).
Qed.
