(** C11, C12: repeated calls on the same frames. *)
From Coq Require Import String ZArith List Bool Reals Lia.
Import ListNotations.
From Verif Require Import F64 Base Cells BinModel HistModel RSum StatsModel BivModel Num PhikModel ArrayModel SparkModel RcontModel SimModel SigModel BetaModel OutModel HeapModel SpecHeap HeapProofs.
Open Scope list_scope.

Lemma left_behind_length : forall c f, length (left_behind c f) = length f.
Proof. intros [c|c d u o|dict CI nd combos d u o] f; cbn [left_behind]; try reflexivity. destruct (_ && _); [reflexivity|]. unfold replaced_frame. apply map_length. Qed.

(** earlier clean-ups *)
Lemma replaced_twice : forall d' u' o' d u o c, harmless d' u' o' d u o -> replaced d u o (replaced d' u' o' c) = replaced d u o c.
Proof.
  intros d' u' o' d u o c (H1 & H2 & H3 & H4). destruct c as [|z|k|s]; try reflexivity.
  - cbn [replaced]. destruct d'; [reflexivity|]. rewrite (H1 eq_refl). reflexivity.
  - cbn [replaced]. destruct (String.eqb s "UF" && u') eqn:U; cbn [orb].
    + apply andb_true_iff in U. destruct U as (-> & U). rewrite (H3 U), (H2 (or_introl U)). reflexivity.
    + destruct (String.eqb s "OF" && o') eqn:O; cbn [replaced]; [|reflexivity]. apply andb_true_iff in O. destruct O as (-> & O). rewrite (H4 O), (H2 (or_intror O)), orb_true_r. reflexivity.
Qed.
Lemma replaced_frame_twice : forall d' u' o' d u o f, harmless d' u' o' d u o -> replaced_frame d u o (replaced_frame d' u' o' f) = replaced_frame d u o f.
Proof.
  intros d' u' o' d u o f H. unfold replaced_frame. rewrite map_map. apply map_ext. intros p. cbn [fst snd c_num c_cells]. rewrite map_map. f_equal. f_equal. apply map_ext. intros c. apply replaced_twice. exact H.
Qed.
(** every earlier in-place call on frame [l] had flags that are harmless for (d, u, o) *)
Definition harmless_history (prog : list (call * nat)) (l : nat) (d u o : bool) : Prop :=
  forall c d' u' o', In (Binned c d' u' o', l) prog -> harmless d' u' o' d u o.
Lemma left_by_harmless : forall prog l d u o f, harmless_history prog l d u o -> replaced_frame d u o (left_by prog l f) = replaced_frame d u o f.
Proof.
  induction prog as [|[c l'] prog IH]; intros l d u o f H; [reflexivity|]. cbn [left_by]. rewrite IH by (intros c0 d0 u0 o0 Hin; apply (H c0); right; exact Hin).
  destruct (Nat.eqb_spec l' l) as [->|N]; [|reflexivity]. destruct c as [c|c d' u' o'|dict CI nd combos d' u' o']; cbn [left_behind]; try reflexivity.
  destruct (_ && _); [reflexivity|]. apply replaced_frame_twice, (H c). left. reflexivity.
Qed.

Section Heap.
Variable St : Type.
Variable E : env St.
Notation run := (run St E).

(** a pre-binned function only sees the cleaned-up frame *)
Lemma meaning_clean : forall c d u o f f', replaced_frame d u o f = replaced_frame d u o f' -> meaning_binned St E c d u o f = meaning_binned St E c d u o f'.
Proof.
  intros c d u o f f' H. rewrite <- !clean_replaced in H. destruct c; cbn [meaning_binned].
  - f_equal. assert (A : forall f, fst (hist2d_from_rebinned_df f d u o) = match clean d u o f with [(_, x); (_, y)] => Ok (crosstab (combine (c_cells x) (c_cells y))) | _ => Raise ValueError end).
    { clear. intros [|[c0 x] [|[c1 y] [|]]]; reflexivity. }
    rewrite !A, H. reflexivity.
  - f_equal. cbn [phik_from_rebinned_df fst]. rewrite H. reflexivity.
  - f_equal. unfold global_phik_from_rebinned_df, phik_from_rebinned_df. cbn [fst]. rewrite H. reflexivity.
  - f_equal. unfold significance_from_rebinned_df. cbn [fst]. rewrite H. reflexivity.
  - f_equal. destruct f as [|[c0 x] [|[c1 y] [|p f]]], f' as [|[c0' x'] [|[c1' y'] [|p' f']]]; try discriminate H; try reflexivity. cbn [clean map fst snd] in H. injection H as -> N1 C1 -> N2 C2.
    cbn [outlier_significance_matrix_from_rebinned_df hist2d_from_rebinned_df clean map fst snd c_num c_cells]. rewrite C1, C2. reflexivity.
Qed.

Definition in_range (prog : list (call * nat)) (h : heap) : Prop := forall c l, In (c, l) prog -> (l < length h)%nat.
Lemma run_spec : forall prog h s rs h' s', in_range prog h -> run prog h s = (rs, h', s') ->
  (length h <= length h')%nat /\ forall l, (l < length h)%nat -> nth l h' [] = left_by prog l (nth l h []).
Proof.
  induction prog as [|[c l] prog IH]; intros h s rs h' s' R H; cbn [HeapModel.run] in H.
  - injection H as _ <- _. split; [lia|]. reflexivity.
  - assert (Hl : (l < length h)%nat) by (apply (R c); left; reflexivity). destruct (call_spec St E c l h s Hl) as (t & Hc). rewrite Hc in H.
    set (h1 := upd l (left_behind c) h ++ t) in *. assert (L1 : (length h <= length h1)%nat) by (unfold h1; rewrite app_length, upd_length; lia).
    destruct (run prog h1 _) as [[rs' h2] s2] eqn:E2. injection H as _ <- _.
    destruct (IH h1 (snd (meaning St E c (nth l h []) s)) rs' h2 s2) as (A & B); [intros c' l' Hin; pose proof (R c' l' (or_intror Hin)); lia|exact E2|]. split; [lia|]. intros l0 Hl0. rewrite B by lia.
    cbn [left_by]. f_equal. unfold h1. rewrite app_nth1 by (rewrite upd_length; exact Hl0). rewrite upd_nth by exact Hl0. reflexivity.
Qed.
Lemma run_app : forall p1 p2 h s, run (p1 ++ p2) h s = (let '(r1, h1, s1) := run p1 h s in let '(r2, h2, s2) := run p2 h1 s1 in (r1 ++ r2, h2, s2)).
Proof.
  induction p1 as [|[c l] p1 IH]; intros p2 h s; [cbn; destruct (run p2 h s) as [[? ?] ?]; reflexivity|]. cbn [app HeapModel.run]. destruct (run_call St E c l h s) as [[r h1] s1]. rewrite IH.
  destruct (run p1 h1 s1) as [[r1 h2] s2]. destruct (run p2 h2 s2) as [[r2 h3] s3]. reflexivity.
Qed.

(** * C12 *)
(** after any sequence of calls, a frame on which no pre-binned function was called is what it was *)
Theorem C12_user_frame_unchanged : forall prog h s rs h' s' l, in_range prog h -> run prog h s = (rs, h', s') -> (l < length h)%nat ->
  (forall c d u o, ~ In (Binned c d u o, l) prog) -> nth l h' [] = nth l h [].
Proof.
  intros prog h s rs h' s' l R H Hl NB. destruct (run_spec _ _ _ _ _ _ R H) as (_ & B). rewrite B by exact Hl. clear - NB. revert NB. generalize (@nth frame l h []). induction prog as [|[c l'] prog IH]; intros f NB; [reflexivity|].
  cbn [left_by]. rewrite IH; [|intros c0 d u o Hin; apply (NB c0 d u o); right; exact Hin]. destruct (Nat.eqb_spec l' l) as [->|N]; [|reflexivity]. destruct c as [c|c d u o|]; cbn [left_behind]; try reflexivity.
  exfalso. apply (NB c d u o). left. reflexivity.
Qed.
(** ... and every later call on it gives what the functional models say about the original content *)
Theorem C12_result_on_original : forall prog h s rs h' s' l c r h2 s2, in_range prog h -> run prog h s = (rs, h', s') -> (l < length h)%nat ->
  (forall c d u o, ~ In (Binned c d u o, l) prog) -> run_call St E c l h' s' = (r, h2, s2) -> (r, s2) = meaning St E c (nth l h []) s'.
Proof.
  intros prog h s rs h' s' l c r h2 s2 R H Hl NB Hc. pose proof (C12_user_frame_unchanged prog h s rs h' s' l R H Hl NB) as U. destruct (run_spec _ _ _ _ _ _ R H) as (L & _).
  destruct (call_spec St E c l h' s' ltac:(lia)) as (t & Hs). rewrite Hs in Hc. injection Hc as <- _ <-. rewrite U. destruct (meaning St E c (nth l h []) s'); reflexivity.
Qed.
(** the pre-binned functions change cells only as described: column names and numbers of records stay, a cell is either untouched or
    was a missing value or marker and is now missing or the category 'NaN' *)
Definition cell_of (f : frame) (k i : nat) : cell := nth i (c_cells (snd (nth k f (EmptyString, mkCol false [])))) (CInt 0).
Theorem C12_only_markers_change : forall prog h s rs h' s' l, in_range prog h -> run prog h s = (rs, h', s') -> (l < length h)%nat ->
  let f := nth l h [] in let f' := nth l h' [] in
  keys f' = keys f /\ (forall k, length (c_cells (snd (nth k f' (EmptyString, mkCol false [])))) = length (c_cells (snd (nth k f (EmptyString, mkCol false []))))) /\
  forall k i, cell_of f' k i = cell_of f k i \/
    ((cell_of f k i = CNaN \/ cell_of f k i = CStr "UF" \/ cell_of f k i = CStr "OF") /\ (cell_of f' k i = CNaN \/ cell_of f' k i = CStr "NaN")).
Proof.
  intros prog h s rs h' s' l R H Hl f f'. destruct (run_spec _ _ _ _ _ _ R H) as (_ & B). specialize (B l Hl). change (f' = left_by prog l f) in B. rewrite B. clear - prog. clearbody f. revert f.
  assert (ONE : forall c f, keys (left_behind c f) = keys f /\ (forall k, length (c_cells (snd (nth k (left_behind c f) (EmptyString, mkCol false [])))) = length (c_cells (snd (nth k f (EmptyString, mkCol false []))))) /\
    forall k i, cell_of (left_behind c f) k i = cell_of f k i \/ ((cell_of f k i = CNaN \/ cell_of f k i = CStr "UF" \/ cell_of f k i = CStr "OF") /\ (cell_of (left_behind c f) k i = CNaN \/ cell_of (left_behind c f) k i = CStr "NaN"))).
  { intros c f. destruct c as [c|c d u o|dict CI nd combos d u o]; cbn [left_behind]; try (split; [reflexivity|split; [reflexivity|left; reflexivity]]). destruct (_ && _); [split; [reflexivity|split; [reflexivity|left; reflexivity]]|].
    split; [unfold keys, replaced_frame; rewrite map_map; reflexivity|].
    assert (X : forall k, nth k (replaced_frame d u o f) (EmptyString, mkCol false []) = (let p := nth k f (EmptyString, mkCol false []) in (fst p, mkCol (c_num (snd p)) (map (replaced d u o) (c_cells (snd p)))))).
    { intros k. unfold replaced_frame. cbv zeta. set (g := fun p : string * col => _). change (EmptyString, mkCol false []) with (g (EmptyString, mkCol false [])) at 1. rewrite map_nth. reflexivity. }
    split; [intros k; rewrite X; cbn [snd c_cells]; apply map_length|]. intros k i. unfold cell_of. rewrite X. cbn [snd c_cells].
    assert (MN : forall L, nth i (map (replaced d u o) L) (CInt 0) = replaced d u o (nth i L (CInt 0))) by (intros L; change (CInt 0) with (replaced d u o (CInt 0)) at 1; apply map_nth). rewrite !MN. set (v := nth i _ _). destruct v as [|z|q|s]; try (left; reflexivity); cbn [replaced].
    - right. split; [left; reflexivity|]. destruct d; [left|right]; reflexivity.
    - destruct ((s =? "UF")%string && u || (s =? "OF")%string && o) eqn:M; [|left; reflexivity]. right. split; [|left; reflexivity]. apply orb_true_iff in M. rewrite !andb_true_iff, !String.eqb_eq in M. destruct M as [(-> & _)|(-> & _)]; auto. }
  induction prog as [|[c l'] prog IH]; intros f; [split; [reflexivity|split; [reflexivity|left; reflexivity]]|]. cbn [left_by]. destruct (Nat.eqb l' l); [|apply IH].
  destruct (IH (left_behind c f)) as (A1 & A2 & A3). destruct (ONE c f) as (B1 & B2 & B3). split; [congruence|]. split; [intros k; rewrite A2; apply B2|]. intros k i. destruct (A3 k i) as [A|(A & A')], (B3 k i) as [Bq|(Bq & B')].
  - left. congruence.
  - right. split; [exact Bq|]. rewrite A. exact B'.
  - right. split; [rewrite <- Bq; exact A|exact A'].
  - right. split; [exact Bq|exact A'].
Qed.

(** * C11 *)
(** after any history with harmless flags, a pre-binned function gives what it gives on the original frame *)
Theorem C11_history : forall prog h s rs h' s' l c d u o r h2 s2, in_range prog h -> run prog h s = (rs, h', s') -> (l < length h)%nat ->
  harmless_history prog l d u o -> run_call St E (Binned c d u o) l h' s' = (r, h2, s2) -> (r, s2) = meaning St E (Binned c d u o) (nth l h []) s'.
Proof.
  intros prog h s rs h' s' l c d u o r h2 s2 R H Hl HH Hc. destruct (run_spec _ _ _ _ _ _ R H) as (L & B). destruct (call_spec St E (Binned c d u o) l h' s' ltac:(lia)) as (t & Hs). rewrite Hs in Hc.
  injection Hc as <- _ <-. rewrite (B l Hl). cbn [meaning]. rewrite (meaning_clean c d u o (left_by prog l (nth l h [])) (nth l h [])) by (apply left_by_harmless; exact HH).
  destruct (meaning_binned St E c d u o (nth l h []) s'); reflexivity.
Qed.
(** in particular with dropna=True and the same drop flags every time *)
Theorem C11_same_flags : forall prog h s rs h' s' l c u o r h2 s2, in_range prog h -> run prog h s = (rs, h', s') -> (l < length h)%nat ->
  (forall c' d' u' o', In (Binned c' d' u' o', l) prog -> (d', u', o') = (true, u, o)) ->
  run_call St E (Binned c true u o) l h' s' = (r, h2, s2) -> (r, s2) = meaning St E (Binned c true u o) (nth l h []) s'.
Proof.
  intros prog h s rs h' s' l c u o r h2 s2 R H Hl HF. apply (C11_history prog h s rs h' s'); try assumption. intros c' d' u' o' Hin. specialize (HF c' d' u' o' Hin). injection HF as -> -> ->.
  unfold harmless. split; [discriminate|]. split; [reflexivity|]. split; intros X; exact X.
Qed.
End Heap.

(** exactly the harmless flags are harmless *)
Definition mk2 (a b c : cell) : frame := [("x", mkCol false [a; b; c]); ("y", mkCol false [CStr "p"; CStr "q"; CStr "q"])]%string.
Theorem C11_exact : forall d' u' o' d u o,
  (forall f, fst (hist2d_from_rebinned_df (replaced_frame d' u' o' f) d u o) = fst (hist2d_from_rebinned_df f d u o)) <-> harmless d' u' o' d u o.
Proof.
  intros d' u' o' d u o. split.
  - intros H. pose proof (H (mk2 (CStr "a") (CStr "b") CNaN)) as HN. pose proof (H (mk2 (CStr "a") (CStr "b") (CStr "UF"))) as HU. pose proof (H (mk2 (CStr "a") (CStr "b") (CStr "OF"))) as HO. unfold harmless.
    assert (BN : forall a b : bool, (a = true -> b = true) -> a = true -> b = true) by auto.
    destruct d', u', o', d, u, o; vm_compute in HN, HU, HO; try discriminate HN; try discriminate HU; try discriminate HO; repeat split; try reflexivity; try discriminate; intros [X|X]; try discriminate X; reflexivity.
  - intros H f. assert (A : forall f, fst (hist2d_from_rebinned_df f d u o) = match clean d u o f with [(_, x); (_, y)] => Ok (crosstab (combine (c_cells x) (c_cells y))) | _ => Raise ValueError end).
    { clear. intros [|[c0 x] [|[c1 y] [|]]]; reflexivity. }
    rewrite !A, !clean_replaced, replaced_frame_twice by exact H. reflexivity.
Qed.
(** dropna=False: the same call twice in a row gives two different tables; the record dropped as underflow by the first call is a record
    of category 'NaN' in the second one *)
Theorem C11_dropna_false_refuted : forall St (E : env St) s, exists t1 t2 h',
  run St E [(Binned Hist2dB false true true, 0%nat); (Binned Hist2dB false true true, 0%nat)] [mk2 (CStr "a") (CStr "b") (CStr "UF")] s = ([Ok (VHist t1); Ok (VHist t2)], h', s) /\
  h_rows t1 = [CStr "a"; CStr "b"]%string /\ h_rows t2 = [CStr "NaN"; CStr "a"; CStr "b"]%string.
Proof. intros St E s. do 3 eexists. vm_compute. repeat split. Qed.
(** a call with dropna=False spoils later calls with dropna=True *)
Theorem C11_mixed_refuted : forall St (E : env St) s, exists t1 t2 h',
  run St E [(Binned Hist2dB false true true, 0%nat); (Binned Hist2dB true true true, 0%nat)] [mk2 (CStr "a") (CStr "b") CNaN] s = ([Ok (VHist t1); Ok (VHist t2)], h', s) /\
  h_rows t2 = [CStr "NaN"; CStr "a"; CStr "b"]%string /\ fst (hist2d_from_rebinned_df (mk2 (CStr "a") (CStr "b") CNaN) true true true) <> Ok t2.
Proof. intros St E s. do 3 eexists. split; [vm_compute; reflexivity|]. split; [reflexivity|]. vm_compute. discriminate. Qed.

(** the hypotheses are met: a program of three calls on two frames *)
Example C12_hypotheses_met : forall ic bins,
  let prog := [(User (Hist2d ic bins false true true true), 0%nat); (Binned (PhikB true) true true true, 1%nat); (Binned Hist2dB true true true, 1%nat)] in
  let h := [mk2 (CStr "a") (CStr "b") CNaN; mk2 (CStr "a") (CStr "b") (CStr "UF")] in
  in_range prog h /\ (forall c d u o, ~ In (Binned c d u o, 0%nat) prog) /\ harmless_history prog 1 true true true.
Proof.
  intros ic bins prog h. split; [|split].
  - intros c l [H|[H|[H|[]]]]; injection H as _ <-; simpl; lia.
  - intros c d u o [H|[H|[H|[]]]]; discriminate.
  - intros c d' u' o' [H|[H|[H|[]]]]; try discriminate; injection H as _ <- <- <-; repeat split; auto; discriminate.
Qed.
