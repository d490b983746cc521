(** C80: outlier matrices of two arrays. *)
From Coq Require Import String Ascii ZArith List Bool Reals Lra Lia Sorting.Sorted.
Import ListNotations.
From Verif Require Import F64 Base Cells BinModel SpecBin BinProofs BinDataProofs HistModel SpecHist HistProofs RSum StatsModel StatsProofs Num PhikModel ArrayModel SparkModel SpecSpark SparkProofs
  BetaModel SpecSig SigModel PairMatProofs PhikMatProofs SpecPhik PropsPhik2 OutModel SpecOut OutProofs PropsOut PropsOut2 PropsOut3 PropsPlot.
Open Scope list_scope.

Section Arrays.
Variable L : olib.
Variable fmt : Z -> f64 * f64 -> string.
Variable npq : list f64 -> Z -> list f64.
Variable str : cell -> string.

Definition xname (x : arr) := match a_name x with Some s => s | None => "x"%string end.
Definition yname (y : arr) := match a_name y with Some s => s | None => "y"%string end.
(** the column is kept by the quality check of a frame without interval columns *)
Definition kept (d : bool) (c : col) : Prop := (2 <= nunique c)%nat \/ (nunique c = 1%nat /\ d = false).

(** two arrays of which at least one is not numeric: the categories are counted as they are *)
Theorem C80_not_numeric : forall x y CI d u o cx cy h, a_kind x <> ANum \/ a_kind y <> ANum -> xname x <> yname y ->
  array_like_to_dataframe str x y = [(xname x, cx); (yname y, cy)] ->
  is_table_of (counted_as d u o) (combine (c_cells cx) (c_cells cy)) h ->
  let r := outlier_significance_from_binned_array L fmt npq str x y CI d u o in
  (kept d cx -> kept d cy -> proper_shape (hmat h) -> r = (let* pz := outlier_significance_matrix_from_hist2d L h CI in Ok (OMat (h_rows h) (h_cols h) (map (map snd) pz)))) /\
  (kept d cx -> kept d cy -> ~ proper_shape (hmat h) -> r = Ok ONaN) /\
  (~ kept d cx \/ ~ kept d cy -> r = Raise ValueError).
Proof.
  intros x y CI d u o cx cy h NN NE ED HT r.
  destruct (C35_array_frame str x y) as (cx' & cy' & ED' & Nx & Ny & _). fold (xname x) (yname y) in ED'. rewrite ED in ED'. injection ED' as <- <-.
  assert (Bx : c_num cx = false) by (destruct (c_num cx); [exfalso; destruct (proj1 Nx eq_refl); tauto|reflexivity]).
  assert (By : c_num cy = false) by (destruct (c_num cy); [exfalso; destruct (proj1 Ny eq_refl); tauto|reflexivity]).
  unfold r, outlier_significance_from_binned_array. rewrite ED. unfold outlier_significance_matrix. cbn [length Nat.eqb negb].
  set (df := [(xname x, cx); (yname y, cy)]). assert (EG : guess_interval_cols df = []) by (unfold guess_interval_cols, df; cbn [filter snd]; rewrite Bx, By; reflexivity). rewrite EG.
  assert (ND : NoDup (keys df)) by (repeat constructor; simpl; intuition congruence).
  destruct (dq_nunique_spec df [] d ND) as [S1 S2]. destruct (dq_check_nunique_values df [] d) as [df' ic'] eqn:EQ. cbn [fst snd] in S1, S2. cbn [filter] in S2. subst ic'.
  assert (KK : forall c n, Nat.leb 2 (nunique c) || (Nat.eqb (nunique c) 1 && negb d && negb (mem n [])) = true <-> kept d c).
  { intros c n. cbn [mem]. rewrite orb_true_iff, !andb_true_iff, Nat.leb_le, Nat.eqb_eq. unfold kept. destruct d; cbn; intuition congruence. }
  assert (BD : bin_data npq df' [] (BOne (BNum 10)) false = Ok (df', [])) by reflexivity. rewrite BD. cbn [rbind fst snd].
  assert (Full : kept d cx -> kept d cy -> df' = df).
  { intros K1 K2. rewrite S1. unfold df. cbn [filter snd fst]. rewrite (proj2 (KK cx (xname x)) K1), (proj2 (KK cy (yname y)) K2). reflexivity. }
  assert (Hh : fst (hist2d_from_rebinned_df df d u o) = Ok h).
  { unfold df. unfold hist2d_from_rebinned_df. cbn. f_equal. apply (is_table_unique (counted_as d u o) (combine (c_cells cx) (c_cells cy))); [|exact HT]. apply clean_table. }
  assert (Go : kept d cx -> kept d cy -> fst (outlier_significance_matrix_from_rebinned_df L fmt df' [] CI 1 d u o) =
     if is01 (length (h_rows h)) || is01 (length (h_cols h)) then Ok ONaN else (let* pz := outlier_significance_matrix_from_hist2d L h CI in Ok (OMat (h_rows h) (h_cols h) (map (map snd) pz)))).
  { intros K1 K2. rewrite (Full K1 K2). unfold df in *. unfold outlier_significance_matrix_from_rebinned_df.
    destruct (hist2d_from_rebinned_df [(xname x, cx); (yname y, cy)] d u o) as [hh f'] eqn:EH. cbn [fst] in Hh. subst hh. cbn [rbind fst].
    destruct (is01 _ || is01 _); [reflexivity|]. unfold hist2d_from_rebinned_df in EH. cbn in EH. injection EH as _ Ef. rewrite <- Ef. reflexivity. }
  split; [|split].
  - intros K1 K2 P. rewrite (Go K1 K2). destruct (is01 (length (h_rows h)) || is01 (length (h_cols h))) eqn:E; [exfalso; apply is01_proper in E; contradiction|]. destruct (outlier_significance_matrix_from_hist2d L h CI); reflexivity.
  - intros K1 K2 P. rewrite (Go K1 K2). destruct (is01 (length (h_rows h)) || is01 (length (h_cols h))) eqn:E; [reflexivity|]. exfalso. assert (X : is01 (length (h_rows h)) || is01 (length (h_cols h)) = true) by (apply is01_proper, P). congruence.
  - intros K. assert (N2 : length df' <> 2%nat).
    { rewrite S1. unfold df. cbn [filter snd fst]. destruct (Nat.leb 2 (nunique cx) || _) eqn:E1, (Nat.leb 2 (nunique cy) || _) eqn:E2; try (cbn; discriminate).
      exfalso. apply KK in E1. apply KK in E2. tauto. }
    unfold outlier_significance_matrix_from_rebinned_df. destruct df' as [|[? ?] [|[? ?] [|? ?]]]; try reflexivity. exfalso. apply N2. reflexivity.
Qed.

(** ** numeric arrays *)
Lemma bisect_le : forall fuel e v lo hi, (lo <= hi)%nat -> (bisect fuel e v lo hi <= hi)%nat.
Proof.
  induction fuel as [|n IH]; intros e v lo hi H; cbn [bisect]; [lia|]. destruct (Nat.ltb_spec lo hi) as [A|A]; [|lia].
  cbv zeta. assert (M : (lo + Nat.div2 (hi - lo) < hi)%nat) by (pose proof (Nat.lt_div2 (hi - lo) ltac:(lia)); lia).
  destruct (npless _ v); [apply IH; lia|]. eapply Nat.le_trans; [apply IH; lia|lia].
Qed.
Definition allowed (d u o : bool) (n : nat) : list cell :=
  map (fun i => CInt (Z.of_nat i)) (seq 1 n) ++ (if d then [] else [CStr "NaN"%string]) ++ (if u then [] else [CStr "UF"%string]) ++ (if o then [] else [CStr "OF"%string]).
Lemma bin1_allowed : forall d u o e v a, counted_as d u o (bin1 e v) = Some a -> In a (allowed d u o (length e - 1)).
Proof.
  intros d u o e v a. unfold bin1, allowed. rewrite !in_app_iff. destruct (fisnan v); [destruct d; cbn; [discriminate|intros H; injection H as <-; cbn; tauto]|].
  pose proof (bisect_le (S (length e)) e v 0 (length e) (Nat.le_0_l _)) as B. fold (searchsorted e v) in B.
  destruct (Nat.eqb_spec (searchsorted e v) 0) as [A|A]; [destruct u, o; cbn; try discriminate; intros H; injection H as <-; cbn; tauto|].
  destruct (Nat.eqb_spec (searchsorted e v) (length e)) as [C|C]; [destruct u, o; cbn; try discriminate; intros H; injection H as <-; cbn; tauto|].
  cbn [counted_as]. intros H. injection H as <-. left. apply in_map_iff. exists (searchsorted e v). split; [reflexivity|]. apply in_seq. lia.
Qed.

(** two numeric arrays are binned again, into ten bins each, whatever they contain *)
Theorem C80_numbers_are_binned : forall x y CI d u o, a_kind x = ANum -> a_kind y = ANum -> xname x <> yname y ->
  outlier_significance_from_binned_array L fmt npq str x y CI d u o =
    outlier_significance_from_array L fmt npq str x y (Some [xname x; yname y]) (BOne (BNum 10)) false 1 CI d u o /\
  forall rows cols z, outlier_significance_from_binned_array L fmt npq str x y CI d u o = Ok (OMat rows cols z) ->
    (length rows <= 13 /\ length cols <= 13)%nat /\ (d = true -> u = true -> o = true -> length rows <= 10 /\ length cols <= 10)%nat.
Proof.
  intros x y CI d u o Kx Ky NE.
  destruct (C35_array_frame str x y) as (cx & cy & ED & Nx & Ny & _). fold (xname x) (yname y) in ED.
  assert (Bx : c_num cx = true) by (apply Nx; auto). assert (By : c_num cy = true) by (apply Ny; auto).
  unfold outlier_significance_from_binned_array, outlier_significance_from_array. rewrite ED. set (df := [(xname x, cx); (yname y, cy)]).
  assert (EG : guess_interval_cols df = [xname x; yname y]) by (unfold guess_interval_cols, df; cbn [filter snd]; rewrite Bx, By; reflexivity).
  assert (ES : outlier_significance_matrix L fmt npq df None CI 1 (BOne (BNum 10)) false d u o = outlier_significance_matrix L fmt npq df (Some [xname x; yname y]) CI 1 (BOne (BNum 10)) false d u o) by (unfold outlier_significance_matrix; rewrite EG; reflexivity).
  split; [rewrite ES; reflexivity|]. intros rows cols z. rewrite ES. unfold outlier_significance_matrix. cbn [length Nat.eqb negb df].
  assert (ND : NoDup (keys df)) by (repeat constructor; simpl; intuition congruence). change [(xname x, cx); (yname y, cy)] with df.
  destruct (dq_nunique_spec df [xname x; yname y] d ND) as [S1 S2]. destruct (dq_check_nunique_values df [xname x; yname y] d) as [df' ic'] eqn:EQ. cbn [fst snd] in S1, S2.
  destruct (bin_data npq df' ic' (BOne (BNum 10)) false) as [[out dict]|e] eqn:EB; cbn [rbind rmap fst snd]; [|discriminate].
  destruct (outlier_significance_matrix_from_rebinned_df L fmt out dict CI 1 d u o) as [r f2] eqn:ER. cbn [fst]. destruct r as [r|e]; cbn [rbind rmap fst]; [|discriminate]. intros E. injection E as ->.
  destruct (bin_data_spec npq df' ic' (BOne (BNum 10)) false out dict EB) as (KE & _ & SB).
  (* both columns survived *)
  assert (Hdf : df' = df /\ ic' = [xname x; yname y]).
  { assert (N2 : length out = 2%nat) by (unfold outlier_significance_matrix_from_rebinned_df in ER; destruct out as [|[? ?] [|[? ?] [|? ?]]]; try (injection ER as ER _; discriminate); reflexivity).
    assert (N2' : length df' = 2%nat) by (rewrite <- N2; transitivity (length (keys df')); [symmetry; apply map_length|]; rewrite <- KE; apply map_length).
    assert (F : df' = df).
    { rewrite S1 in N2' |- *. clear S1 S2 EQ. unfold df in *. cbn [filter] in *.
      match type of N2' with context [if ?b then _ else _] => destruct b eqn:E1 end; (match type of N2' with context [if ?b then _ else _] => destruct b eqn:E2 end); cbn in N2'; try discriminate. reflexivity. }
    split; [exact F|]. rewrite S2, <- S1, F. apply filter_all. intros a Ha. apply mem_In. exact Ha. }
  destruct Hdf as [-> ->]. clear S1 S2 EQ.
  destruct (SB (xname x) (or_introl eq_refl) I) as (c1 & a1 & e1 & _ & _ & K1 & A1 & _). destruct (SB (yname y) (or_intror (or_introl eq_refl)) I) as (c2 & a2 & e2 & _ & _ & K2 & A2 & _).
  assert (Len : forall a e, bin_edges npq a 10 false = Ok e -> length e = 11%nat) by (intros a e H; unfold bin_edges in H; apply linspace_len in H; destruct H as [H _]; exact H).
  apply Len in K1. apply Len in K2.
  (* the frame of binned columns *)
  assert (Eo : out = [(xname x, mkCol false (fst (bin_array a1 e1))); (yname y, mkCol false (fst (bin_array a2 e2)))]).
  { unfold df in KE. destruct out as [|[k1 v1] [|[k2 v2] [|? ?]]]; try discriminate. cbn in KE. injection KE as -> ->. cbn [assoc] in A1, A2. rewrite String.eqb_refl in A1.
    assert (Q : String.eqb (yname y) (xname x) = false) by (apply String.eqb_neq; congruence). rewrite Q, String.eqb_refl in A2. injection A1 as ->. injection A2 as ->. reflexivity. }
  subst out. clear A1 A2 KE SB EB. revert ER. unfold outlier_significance_matrix_from_rebinned_df.
  set (h := crosstab (combine (map (clean1 d u o) (fst (bin_array a1 e1))) (map (clean1 d u o) (fst (bin_array a2 e2))))).
  assert (HT : is_table_of (counted_as d u o) (combine (fst (bin_array a1 e1)) (fst (bin_array a2 e2))) h) by apply clean_table.
  assert (EH : exists f', hist2d_from_rebinned_df [(xname x, mkCol false (fst (bin_array a1 e1))); (yname y, mkCol false (fst (bin_array a2 e2)))] d u o = (Ok h, f')) by (eexists; reflexivity).
  destruct EH as [f' EH]. rewrite EH. cbn [rbind]. destruct (is01 _ || is01 _); [intros Q; discriminate|]. destruct f' as [|[? x1] [|[? y1] [|? ?]]]; try (intros Q; discriminate).
  assert (RL : forall c cells axis l, relabel fmt 1 dict c cells axis = Ok l -> length l = length axis).
  { intros c cells axis l H. unfold relabel in H. destruct (assoc c dict); [|injection H as ->; reflexivity]. destruct (Nat.eqb_spec (length (axis_labels fmt 1 l0 cells axis)) (length axis)) as [Q|Q]; [injection H as <-; exact Q|discriminate]. }
  destruct (relabel fmt 1 dict (xname x) (c_cells x1) (h_rows h)) as [rw|] eqn:R1; cbn [rbind]; [|intros Q; discriminate].
  destruct (relabel fmt 1 dict (yname y) (c_cells y1) (h_cols h)) as [cl|] eqn:R2; cbn [rbind]; [|intros Q; discriminate].
  destruct (outlier_significance_matrix_from_hist2d L h CI) as [pz|]; cbn [rbind]; [|intros Q; discriminate]. intros Q. injection Q as <- <- _ _.
  rewrite (RL _ _ _ _ R1), (RL _ _ _ _ R2). destruct HT as (TR & TC & SR & SC & _).
  assert (B1 : (length (h_rows h) <= length (allowed d u o 10))%nat).
  { apply NoDup_incl_length; [apply ssorted_NoDup, SR|]. intros a Ha. apply TR in Ha. destruct Ha as ([p q] & b & Hr & E1 & _). cbn [fst snd] in *. apply in_combine_l in Hr. rewrite bin_array_fst in Hr. apply in_map_iff in Hr. destruct Hr as (v & <- & _).
    apply bin1_allowed in E1. rewrite K1 in E1. exact E1. }
  assert (B2 : (length (h_cols h) <= length (allowed d u o 10))%nat).
  { apply NoDup_incl_length; [apply ssorted_NoDup, SC|]. intros a Ha. apply TC in Ha. destruct Ha as ([p q] & b & Hr & _ & E1). cbn [fst snd] in *. apply in_combine_r in Hr. rewrite bin_array_fst in Hr. apply in_map_iff in Hr. destruct Hr as (v & <- & _).
    apply bin1_allowed in E1. rewrite K2 in E1. exact E1. }
  assert (LA : (length (allowed d u o 10) <= 13)%nat) by (destruct d, u, o; cbn; lia). split; [split; (eapply Nat.le_trans; [eassumption|exact LA])|]. intros -> -> ->. split; [exact B1|exact B2].
Qed.
End Arrays.
Print Assumptions C80_not_numeric.
Print Assumptions C80_numbers_are_binned.

(** so pre-binned data with integer bin numbers are not counted as they are: twelve bins become at most ten *)
Definition twelve : list cell := map (fun i => CInt (Z.of_nat i)) (seq 1 12).
Theorem C80_documented_refuted : forall L fmt npq str CI rows cols z, let x := mkArr ANum None twelve in
  outlier_significance_from_binned_array L fmt npq str x x CI true true true = Ok (OMat rows cols z) ->
  exists h, is_table_of (counted_as true true true) (combine twelve twelve) h /\ length (h_rows h) = 12%nat /\ (length rows <= 10)%nat.
Proof.
  intros L fmt npq str CI rows cols z x H. exists (crosstab (combine (map (clean1 true true true) twelve) (map (clean1 true true true) twelve))).
  split; [apply clean_table|]. split; [vm_compute; reflexivity|].
  destruct (C80_numbers_are_binned L fmt npq str x x CI true true true eq_refl eq_refl ltac:(discriminate)) as [_ B]. destruct (B _ _ _ H) as [_ C]. apply C; reflexivity.
Qed.
Print Assumptions C80_documented_refuted.

(** arrays that meet the hypotheses of the first theorem *)
Example C80_case : let x := mkArr AStr None [CStr "a"; CStr "b"; CStr "a"]%string in let y := mkArr ANum (Some "n"%string) [CInt 1; CInt 2; CInt 2] in
  (a_kind x <> ANum \/ a_kind y <> ANum) /\ xname x <> yname y /\ forall str, str (CStr "a") <> str (CStr "b") -> str (CInt 1) <> str (CInt 2) ->
  exists cx cy, array_like_to_dataframe str x y = [(xname x, cx); (yname y, cy)] /\ c_cells cx = map (fun v => CStr (str v)) (a_cells x).
Proof. cbn. split; [left; discriminate|]. split; [discriminate|]. intros str _ _. do 2 eexists. split; reflexivity. Qed.

(** outlier_significance_from_array gives what outlier_significance_matrix gives for the frame of the two arrays with the interval columns
    asked for, by default both columns if both arrays are numeric and none otherwise *)
Theorem C80_from_array : forall L fmt npq str x y num_vars bins q nd CI d u o, exists cx cy,
  array_like_to_dataframe str x y = [(xname x, cx); (yname y, cy)] /\
  (forall iv, num_vars = Some iv \/ (num_vars = None /\ (a_kind x = ANum /\ a_kind y = ANum -> iv = [xname x; yname y]) /\ (a_kind x <> ANum \/ a_kind y <> ANum -> iv = [])) ->
   match outlier_significance_matrix L fmt npq [(xname x, cx); (yname y, cy)] (Some iv) CI nd bins q d u o with
   | Ok (m, _) => outlier_significance_from_array L fmt npq str x y num_vars bins q nd CI d u o = Ok m
   | Raise e => outlier_significance_from_array L fmt npq str x y num_vars bins q nd CI d u o = Raise e
   end).
Proof.
  intros L fmt npq str x y nv bins q nd CI d u o. destruct (C35_array_frame str x y) as (cx & cy & ED & Nx & Ny & _). fold (xname x) (yname y) in ED.
  exists cx, cy. split; [exact ED|]. intros iv H. unfold outlier_significance_from_array. rewrite ED.
  assert (E : outlier_significance_matrix L fmt npq [(xname x, cx); (yname y, cy)] nv CI nd bins q d u o = outlier_significance_matrix L fmt npq [(xname x, cx); (yname y, cy)] (Some iv) CI nd bins q d u o).
  { destruct H as [->|(-> & H1 & H2)]; [reflexivity|]. unfold outlier_significance_matrix, guess_interval_cols. cbn [filter snd].
    destruct (c_num cx) eqn:Bx, (c_num cy) eqn:By; cbn [map fst].
    - assert (E0 : iv = [xname x; yname y]) by (apply H1, Nx; reflexivity). rewrite E0. reflexivity.
    - exfalso. assert (X : false = true) by (apply Ny, Nx; reflexivity). discriminate.
    - exfalso. assert (X : false = true) by (apply Nx, Ny; reflexivity). discriminate.
    - assert (E0 : iv = []); [|rewrite E0; reflexivity]. apply H2. assert (K : forall k, k = ANum \/ k <> ANum) by (intros []; (left; reflexivity) || (right; discriminate)). destruct (K (a_kind x)) as [Ex|Ex]; [|left; exact Ex]. destruct (K (a_kind y)) as [Ey|Ey]; [|right; exact Ey]. exfalso. assert (X : false = true) by (apply Nx; split; assumption). discriminate. }
  rewrite <- E. clear E. destruct (outlier_significance_matrix _ _ _ _ _ _ _ _ _ _ _ _) as [[m dct]|e]; cbn; reflexivity.
Qed.
Print Assumptions C80_from_array.
