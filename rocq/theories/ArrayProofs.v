From Coq Require Import String ZArith List Bool Reals Lra Lia Sorting.Permutation Sorting.Sorted.
Import ListNotations.
From Verif Require Import F64 Base Cells BinModel HistModel SpecHist HistProofs RSum StatsModel SpecStats SpecSolver SpecBiv BivModel Num PhikModel SpecPhik PhikProofs OverviewProofs PairMatProofs PhikMatProofs FrameProofs PhikInvProofs ArrayModel SpecArray.
Open Scope list_scope.

Lemma str_renaming : forall str l, python_str str -> str_distinct str l -> no_missing l -> good_renaming (tostr str) l.
Proof.
  intros str l (S1 & S2 & S3) D N. unfold tostr. split; [intros v w Hv Hw E; injection E as E; apply D; assumption|]. split.
  - intros v Hv [->|[->|[->| ->]]]; [contradiction|rewrite S2; reflexivity..].
  - intros v Hv M M'. destruct v as [|z|k|s].
    + contradiction.
    + destruct (S3 (CInt z)) as (A & B & C); [discriminate|]. destruct M' as [M'|[M'|[M'|M']]]; inversion M'; congruence.
    + destruct (S3 (CFlt k)) as (A & B & C); [discriminate|]. destruct M' as [M'|[M'|[M'|M']]]; inversion M'; congruence.
    + rewrite S2 in M'. contradiction.
Qed.
Lemma clean_array_form : forall str d u o x, python_str str -> no_missing x -> exists g, (g = (fun v => v) \/ g = tostr str) /\ clean_array str d u o x = map (clean1 d u o) (map g x).
Proof.
  intros str d u o x (S1 & S2 & S3) N.
  assert (T2 : map (tostr str) (map (tostr str) x) = map (tostr str) x) by (rewrite map_map; apply map_ext; intros v; unfold tostr; rewrite S2; reflexivity).
  assert (F : map (repl CNaN (CStr NaNs)) x = x).
  { rewrite <- (map_id x) at 2. apply map_ext_in. intros v Hv. rewrite repl_eq. destruct (cell_eq_dec v CNaN) as [->|]; [contradiction|reflexivity]. }
  assert (F2 : map (repl CNaN (CStr NaNs)) (map (tostr str) x) = map (tostr str) x).
  { rewrite map_map. apply map_ext. intros v. rewrite repl_eq. destruct (cell_eq_dec _ CNaN) as [E|]; [discriminate|reflexivity]. }
  unfold clean_array. rewrite F.
  assert (MC : forall l, map (clean1 d u o) l = let l := if d then l else map (repl CNaN (CStr NaNs)) l in let l := if u then map (repl (CStr UFs) CNaN) l else l in if o then map (repl (CStr OFs) CNaN) l else l).
  { intros l. unfold clean1. destruct d, u, o; cbn zeta; rewrite ?map_map; try reflexivity; apply map_id. }
  destruct d, u, o; cbn [orb]; rewrite ?T2; ((exists (tostr str); split; [right; reflexivity|]; rewrite MC; cbn zeta; rewrite ?F2; reflexivity) || (exists (fun v => v); split; [left; reflexivity|]; rewrite MC, map_id; cbn zeta; reflexivity)).
Qed.
Lemma id_renaming : forall l, good_renaming (fun v => v) l. Proof. intros l. split; [auto|]. split; auto. Qed.

Lemma pv_rename2 : forall L noise d u o g g' x y c0 c1 n0 n1, lib_ok L -> good_renaming g x -> good_renaming g' y ->
  pairval L noise (c0, mkCol n0 (map (clean1 d u o) (map g x))) (c1, mkCol n1 (map (clean1 d u o) (map g' y))) = pairval L noise (c0, mkCol n0 (map (clean1 d u o) x)) (c1, mkCol n1 (map (clean1 d u o) y)).
Proof.
  intros. rewrite pairval_rename_l by assumption. rewrite (pairval_sym _ _ (c0, _)) by assumption. rewrite pairval_rename_l by assumption. apply pairval_sym. assumption.
Qed.
Lemma array_pairval : forall str L c0 c1 n0 n1 x y noise d u o, c0 <> c1 ->
  phik_from_binned_array str L x y noise d u o = pairval L noise (c0, mkCol n0 (clean_array str d u o x)) (c1, mkCol n1 (clean_array str d u o y)).
Proof.
  intros. unfold phik_from_binned_array, pairval, table_val. cbn [fst snd c_cells]. rewrite (proj2 (String.eqb_neq _ _) H). set (h := crosstab _). unfold dq_check_hist2d, is01.
  assert (E : (Nat.eqb (length (h_rows h)) 0 || Nat.eqb (length (h_cols h)) 0) || (Nat.eqb (length (h_rows h)) 1 || Nat.eqb (length (h_cols h)) 1) = (Nat.eqb (length (h_rows h)) 0 || Nat.eqb (length (h_rows h)) 1) || (Nat.eqb (length (h_cols h)) 0 || Nat.eqb (length (h_cols h)) 1)) by (destruct (Nat.eqb (length (h_rows h)) 0), (Nat.eqb (length (h_rows h)) 1), (Nat.eqb (length (h_cols h)) 0), (Nat.eqb (length (h_cols h)) 1); reflexivity).
  rewrite E. clear E. destruct ((Nat.eqb (length (h_rows h)) 0 || Nat.eqb (length (h_rows h)) 1) || (Nat.eqb (length (h_cols h)) 0 || Nat.eqb (length (h_cols h)) 1)); [reflexivity|]. cbn [fst negb]. destruct (phik_from_hist2d _ _ _); reflexivity.
Qed.
Lemma matrix_two : forall L c0 c1 x y noise d u o, lib_ok L -> c0 <> c1 ->
  pairval L noise (c0, mkCol (c_num x) (map (clean1 d u o) (c_cells x))) (c1, mkCol (c_num y) (map (clean1 d u o) (c_cells y))) =
  rmap (fun t => tval t c0 c1) (fst (phik_from_rebinned_df L [(c0, x); (c1, y)] noise d u o)).
Proof.
  intros L c0 c1 x y noise d u o LO H. rewrite rebinned_unfold2. assert (N : NoDup (keys (clean d u o [(c0, x); (c1, y)]))) by (rewrite keys_clean; repeat constructor; simpl; intuition congruence).
  destruct (mapM _ _) as [vals|e] eqn:E; cbn [rmap].
  - pose proof (assembled _ _ _ N _ E) as AS. rewrite keys_clean in AS. destruct (AS (c0, mkCol (c_num x) (map (clean1 d u o) (c_cells x))) (c1, mkCol (c_num y) (map (clean1 d u o) (c_cells y)))) as (v & V & T & _); [right; left; reflexivity|]. cbn [fst] in T. congruence.
  - apply mapM_raise in E. destruct E as ([p q] & Hpq & E). unfold pair_row in E. cbn [fst snd] in E. cbn in Hpq. destruct Hpq as [Q|[Q|[Q|[]]]]; injection Q as <- <-.
    + unfold pairval in E at 1. cbn [fst] in E. rewrite String.eqb_refl in E. discriminate.
    + destruct (pairval _ _ _ _); [discriminate|]. injection E as ->. reflexivity.
    + unfold pairval in E at 1. cbn [fst] in E. rewrite String.eqb_refl in E. discriminate.
Qed.
Theorem array_matrix : forall str L c0 c1 x y noise d u o, lib_ok L -> python_str str -> c0 <> c1 ->
  no_missing (c_cells x) -> no_missing (c_cells y) -> str_distinct str (c_cells x) -> str_distinct str (c_cells y) ->
  phik_from_binned_array str L (c_cells x) (c_cells y) noise d u o = rmap (fun t => tval t c0 c1) (fst (phik_from_rebinned_df L [(c0, x); (c1, y)] noise d u o)).
Proof.
  intros str L c0 c1 x y noise d u o LO PS H Nx Ny Dx Dy. rewrite (array_pairval str L c0 c1 (c_num x) (c_num y)) by exact H.
  destruct (clean_array_form str d u o (c_cells x) PS Nx) as (g & Hg & ->). destruct (clean_array_form str d u o (c_cells y) PS Ny) as (g' & Hg' & ->).
  rewrite pv_rename2; [apply matrix_two; assumption|exact LO| |].
  - destruct Hg as [->| ->]; [apply id_renaming|apply str_renaming; assumption].
  - destruct Hg' as [->| ->]; [apply id_renaming|apply str_renaming; assumption].
Qed.
