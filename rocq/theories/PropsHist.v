(** Properties C08-C10, C13, C38, C39: contingency tables and data quality checks. *)
From Coq Require Import String ZArith List Bool Lia Sorting.Sorted Sorting.Permutation.
Import ListNotations.
From Verif Require Import F64 Base Cells BinModel SpecBin BinDataProofs HistModel SpecHist HistProofs.
Open Scope list_scope.

(** C08, C09: for every two-column frame and all flags the call succeeds and gives the contingency table in which a
    cell counts as [counted_as] says *)
Theorem C08_hist2d_from_rebinned_df : forall c0 c1 x y dropna uf of,
  exists h, fst (hist2d_from_rebinned_df [(c0, x); (c1, y)] dropna uf of) = Ok h /\
    is_table_of (counted_as dropna uf of) (combine (c_cells x) (c_cells y)) h.
Proof. exact hist2d_rebinned_spec. Qed.
Print Assumptions C08_hist2d_from_rebinned_df.

(** the specification determines the table *)
Theorem C08_spec_is_functional : forall seen recs h1 h2, is_table_of seen recs h1 -> is_table_of seen recs h2 -> h1 = h2.
Proof. exact is_table_unique. Qed.
Print Assumptions C08_spec_is_functional.

Theorem C08_hist2d : forall npq df ic bins q dropna uf of h d,
  hist2d npq df ic bins q dropna uf of = Ok (h, d) ->
  exists c0 x c1 y, bin_data npq df (match ic with Some l => l | None => guess_interval_cols df end) bins q = Ok ([(c0, x); (c1, y)], d) /\
    keys df = [c0; c1] /\
    is_table_of (counted_as dropna uf of) (combine (c_cells x) (c_cells y)) h.
Proof.
  intros npq df ic bins q dropna uf of h d H.
  destruct (hist2d_two_columns npq df ic bins q dropna uf of) as [H1 H2].
  destruct (Nat.eq_dec (length df) 2) as [L|L]; [|rewrite H1 in H by exact L; discriminate].
  unfold hist2d in H. rewrite L in H. cbn [Nat.eqb negb] in H. destruct (bin_data _ _ _ _ _) as [[out dict]|e] eqn:E; [|discriminate].
  cbn [rbind fst snd] in H. assert (E' := E). apply bin_data_spec in E'. destruct E' as [K _].
  assert (LO : length out = 2%nat) by (rewrite <- L; rewrite <- (map_length fst out), <- (map_length fst df); unfold keys in K; rewrite K; reflexivity).
  destruct out as [|[c0 x] [|[c1 y] [|]]]; try discriminate.
  destruct (hist2d_rebinned_spec c0 c1 x y dropna uf of) as (h' & E1 & E2). rewrite E1 in H. cbn [rbind] in H. inversion H; subst.
  exists c0, x, c1, y. split; [reflexivity|]. split; [symmetry; exact K|exact E2].
Qed.
Print Assumptions C08_hist2d.

Definition exx := mkCol false [CStr "a"; CStr "b"; CNaN; CStr "a"; CStr "a"; CStr "UF"].
Definition exy := mkCol false [CInt 1; CInt 2; CInt 1; CInt 1; CStr "OF"; CInt 3].
Example C08_run : fst (hist2d_from_rebinned_df [("x", exx); ("y", exy)]%string true true true) =
  Ok (mkH [CStr "a"; CStr "b"] [CInt 1; CInt 2] [[2; 0]; [0; 1]]%nat).
Proof. vm_compute. reflexivity. Qed.
Example C09_run_keep_all : fst (hist2d_from_rebinned_df [("x", exx); ("y", exy)]%string false false false) =
  Ok (mkH [CStr "NaN"; CStr "UF"; CStr "a"; CStr "b"] [CInt 1; CInt 2; CInt 3; CStr "OF"]
      [[1; 0; 0; 0]; [0; 0; 1; 0]; [2; 0; 0; 1]; [0; 1; 0; 0]]%nat).
Proof. vm_compute. reflexivity. Qed.

(** C09: look-alike labels. 'every record without missing values is counted' is refuted ... *)
Theorem C09_no_missing_means_counted_refuted : exists x y h,
  (forall c, In c (c_cells x ++ c_cells y) -> c <> CNaN) /\ length (c_cells x) = 3%nat /\ length (c_cells y) = 3%nat /\
  fst (hist2d_from_rebinned_df [("x", x); ("y", y)]%string true true true) = Ok h /\ total h = 2%nat.
Proof.
  exists (mkCol false [CStr "UF"; CStr "a"; CStr "b"]), (mkCol false [CStr "p"; CStr "q"; CStr "p"]). eexists.
  split; [intros c H; repeat (destruct H as [<-|H]; [discriminate|]); contradiction|].
  split; [reflexivity|]. split; [reflexivity|]. split; [vm_compute; reflexivity|vm_compute; reflexivity].
Qed.
Print Assumptions C09_no_missing_means_counted_refuted.

(** ... and with dropna=False different values can share a category *)
Theorem C09_nan_merged : forall uf of, counted_as false uf of (CStr "NaN") = counted_as false uf of CNaN.
Proof. intros [|] [|]; reflexivity. Qed.
Print Assumptions C09_nan_merged.
Theorem C09_only_nan_merged : forall dropna uf of a b k, counted_as dropna uf of a = Some k -> counted_as dropna uf of b = Some k ->
  a <> b -> dropna = false /\ ((a = CNaN /\ b = CStr "NaN") \/ (a = CStr "NaN" /\ b = CNaN)).
Proof.
  intros d u o a b k Ha Hb Hab.
  assert (HE : forall c, counted_as d u o c = Some k -> c = k \/ (c = CNaN /\ d = false /\ k = CStr "NaN")).
  { intros c. destruct c as [|z|f|s]; cbn [counted_as]; intros H; try (inversion H; auto; fail).
    - destruct d; [discriminate|]. inversion H. auto.
    - destruct (_ || _); [discriminate|]. inversion H. auto. }
  destruct (HE a Ha) as [->|(-> & D & K)], (HE b Hb) as [->|(-> & D' & K')]; try congruence; subst; auto.
Qed.
Print Assumptions C09_only_nan_merged.

(** C10 *)
Theorem C10_record_order : forall c0 c1 x y x' y' dropna uf of,
  Permutation (combine (c_cells x) (c_cells y)) (combine (c_cells x') (c_cells y')) ->
  fst (hist2d_from_rebinned_df [(c0, x); (c1, y)] dropna uf of) = fst (hist2d_from_rebinned_df [(c0, x'); (c1, y')] dropna uf of).
Proof. exact hist2d_perm. Qed.
Print Assumptions C10_record_order.
Theorem C10_transpose : forall c0 c1 x y dropna uf of, exists h h',
  fst (hist2d_from_rebinned_df [(c0, x); (c1, y)] dropna uf of) = Ok h /\
  fst (hist2d_from_rebinned_df [(c1, y); (c0, x)] dropna uf of) = Ok h' /\ is_transpose h h'.
Proof. exact hist2d_swap. Qed.
Print Assumptions C10_transpose.
Example C10_hypothesis_met : Permutation (combine [CInt 1; CInt 2] [CInt 3; CInt 4]) (combine [CInt 2; CInt 1] [CInt 4; CInt 3]).
Proof. apply perm_swap. Qed.

(** C13 *)
Theorem C13_hist2d_two_columns : forall npq df ic bins q d u o,
  (length df <> 2%nat -> hist2d npq df ic bins q d u o = Raise ValueError) /\
  (length df = 2%nat ->
     match bin_data npq df (match ic with Some l => l | None => guess_interval_cols df end) bins q with
     | Ok _ => exists r, hist2d npq df ic bins q d u o = Ok r
     | Raise e => hist2d npq df ic bins q d u o = Raise e
     end).
Proof. exact hist2d_two_columns. Qed.
Print Assumptions C13_hist2d_two_columns.

(** C38 *)
Theorem C38_surviving_columns : forall df ic dropna, NoDup (keys df) ->
  let survives (p : string * col) := Nat.leb 2 (nunique (snd p)) || (Nat.eqb (nunique (snd p)) 1 && negb dropna && negb (mem (fst p) ic)) in
  fst (dq_check_nunique_values df ic dropna) = filter survives df /\
  snd (dq_check_nunique_values df ic dropna) = filter (fun c => mem c (keys (filter survives df))) ic.
Proof. exact dq_nunique_spec. Qed.
Print Assumptions C38_surviving_columns.
Theorem C38_nunique_counts_distinct_values : forall c n, nunique c = n <-> distinct_values c n.
Proof. intros c n. split; [intros <-; apply nunique_spec|intros H; eapply distinct_values_fun; [apply nunique_spec|exact H]]. Qed.
Print Assumptions C38_nunique_counts_distinct_values.
Example C38_run : dq_check_nunique_values [("a", mkCol true [CInt 1; CInt 1]); ("b", mkCol false [CStr "x"; CNaN]); ("c", mkCol true [CInt 1; CInt 2])]%string
   ["c"; "a"; "zz"]%string false =
  ([("b", mkCol false [CStr "x"; CNaN]); ("c", mkCol true [CInt 1; CInt 2])]%string, ["c"%string]).
Proof. vm_compute. reflexivity. Qed.

(** C39 *)
Theorem C39_accepts : forall nr nc, fst (dq_check_hist2d nr nc) = true <-> (2 <= nr)%nat /\ (2 <= nc)%nat.
Proof. exact dq_hist_accepts. Qed.
Print Assumptions C39_accepts.
Theorem C39_y_warning_reports_x : forall nr nc n, In (WLargeY n) (snd (dq_check_hist2d nr nc)) <-> (2 <= nr)%nat /\ (1000 < nc)%nat /\ n = nr.
Proof. exact dq_hist_y_warning. Qed.
Print Assumptions C39_y_warning_reports_x.
