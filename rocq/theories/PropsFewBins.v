(** C101: the number of bins bounds the size of the contingency tables; fewer than two bins make every phik of that column NaN. *)
From Coq Require Import String ZArith List Bool Lia Reals Sorting.Sorted.
From Verif Require Import F64 Base Cells BinModel SpecBin BinProofs BinDataProofs HistModel SpecHist HistProofs RSum StatsModel SpecStats BivModel Num PhikModel SpecPhik PhikMatProofs PropsPhik PropsPlot SearchModel PropsSearch.
Import ListNotations.
Open Scope Z_scope.
Open Scope list_scope.

(** what bin_array can return for k edges, in any order: NaN, UF, OF or one of the k-1 bin numbers *)
Definition bin_cell (k : nat) (c : cell) : Prop := c = CNaN \/ c = CStr "UF"%string \/ c = CStr "OF"%string \/ exists i : nat, (1 <= i < k)%nat /\ c = CInt (Z.of_nat i).
Theorem C101_bins : forall arr e, (forall c, In c (fst (bin_array arr e)) -> bin_cell (length e) c) /\ (forall c, In c (fst (bin_array_np arr e)) -> bin_cell (length e) c).
Proof.
  intros arr e. split; intros c H.
  - rewrite bin_array_fst in H. apply in_map_iff in H. destruct H as (v & <- & _). unfold bin1.
    destruct (bisect_any (S (length e)) e v 0 (length e) ltac:(lia) ltac:(lia)) as (R & _). fold (searchsorted e v) in R. unfold bin_cell.
    destruct (fisnan v); [tauto|]. destruct (Nat.eqb_spec (searchsorted e v) 0); [tauto|]. destruct (Nat.eqb_spec (searchsorted e v) (length e)); [tauto|]. right. right. right. eexists. split; [|reflexivity]. lia.
  - rewrite bin_array_np_fst in H. apply in_map_iff in H. destruct H as ([v r] & <- & I). cbn [fst snd]. unfold bin1r, bin_cell.
    assert (R : (r <= length e)%nat). { pose proof (np_fits e arr) as F. revert I. induction F as [|v' r' a b (F1 & _) F IH]; [intros []|]. intros [I|I]; [injection I as <- <-; exact F1|exact (IH I)]. }
    destruct (fisnan v); [tauto|]. destruct (Nat.eqb_spec r 0); [tauto|]. destruct (Nat.eqb_spec r (length e)); [tauto|]. right. right. right. eexists. split; [|reflexivity]. lia.
Qed.
(** nbins asks for nbins+1 edges; fewer than -1 is a ValueError *)
Theorem C101_edges : forall npq arr n,
  ((n < -1)%Z -> bin_edges npq arr n false = Raise ValueError) /\ ((-1 <= n)%Z -> exists e, bin_edges npq arr n false = Ok e /\ length e = Z.to_nat (n + 1)).
Proof.
  intros npq arr n. unfold bin_edges. split; intros H.
  - unfold linspace. rewrite (proj2 (Z.ltb_lt _ _)) by lia. reflexivity.
  - unfold linspace at 1. rewrite (proj2 (Z.ltb_ge _ _)) by lia. eexists. split; [reflexivity|].
    pose proof (linspace_len (fminus (fminl (filter (fun v => negb (fisnan v)) arr)) tiny) (fmaxl (filter (fun v => negb (fisnan v)) arr)) (n + 1)) as L. unfold linspace in L. rewrite (proj2 (Z.ltb_ge _ _)) in L by lia. apply (L _ eq_refl).
Qed.
(** sizes *)
Lemma sorted_nodup : forall l, StronglySorted clt l -> NoDup l.
Proof. exact ssorted_NoDup. Qed.
Lemma rows_le : forall seen recs h k, is_table_of seen recs h -> (forall r a b, In r recs -> seen (fst r) = Some a -> seen (snd r) = Some b -> exists i : nat, (1 <= i < k)%nat /\ a = CInt (Z.of_nat i)) -> (length (h_rows h) <= k - 1)%nat.
Proof.
  intros seen recs h k (T1 & _ & T3 & _) H. assert (I : incl (h_rows h) (map (fun i => CInt (Z.of_nat i)) (seq 1 (k - 1)))).
  { intros a Ha. apply T1 in Ha. destruct Ha as (r & b & R & A & B). destruct (H r a b R A B) as (i & Hi & ->). apply in_map_iff. exists i. split; [reflexivity|]. apply in_seq. lia. }
  pose proof (NoDup_incl_length (ssorted_NoDup _ T3) I) as L. rewrite map_length, seq_length in L. exact L.
Qed.
Lemma cols_le : forall seen recs h k, is_table_of seen recs h -> (forall r a b, In r recs -> seen (fst r) = Some a -> seen (snd r) = Some b -> exists i : nat, (1 <= i < k)%nat /\ b = CInt (Z.of_nat i)) -> (length (h_cols h) <= k - 1)%nat.
Proof.
  intros seen recs h k (_ & T2 & _ & T3 & _) H. assert (I : incl (h_cols h) (map (fun i => CInt (Z.of_nat i)) (seq 1 (k - 1)))).
  { intros b Hb. apply T2 in Hb. destruct Hb as (r & a & R & A & B). destruct (H r a b R A B) as (i & Hi & ->). apply in_map_iff. exists i. split; [reflexivity|]. apply in_seq. lia. }
  pose proof (NoDup_incl_length (ssorted_NoDup _ T3) I) as L. rewrite map_length, seq_length in L. exact L.
Qed.
(** the bin numbers are what is left when missing values, underflow and overflow are dropped *)
Lemma seen_bin : forall k d c a, bin_cell k c -> (d = true \/ c <> CNaN) -> counted_as d true true c = Some a -> exists i : nat, (1 <= i < k)%nat /\ a = CInt (Z.of_nat i).
Proof.
  intros k d c a [-> |[-> |[-> |(i & H & ->)]]] N E.
  - destruct N as [-> |N]; [discriminate E|congruence].
  - discriminate E.
  - discriminate E.
  - injection E as <-. exists i. split; [exact H|reflexivity].
Qed.
Theorem C101_table : forall arr1 e1 arr2 e2 d h, (d = true \/ (forall v, In v arr1 \/ In v arr2 -> fisnan v = false)) ->
  is_table_of (counted_as d true true) (combine (fst (bin_array arr1 e1)) (fst (bin_array arr2 e2))) h ->
  (length (h_rows h) <= length e1 - 1)%nat /\ (length (h_cols h) <= length e2 - 1)%nat.
Proof.
  intros arr1 e1 arr2 e2 d h N T.
  assert (X : forall arr e c, (d = true \/ forall v, In v arr -> fisnan v = false) -> In c (fst (bin_array arr e)) -> d = true \/ c <> CNaN).
  { intros arr e c [D|D] I; [left; exact D|right]. rewrite bin_array_fst in I. apply in_map_iff in I. destruct I as (v & <- & Iv). unfold bin1. rewrite (D v Iv). destruct (Nat.eqb _ _); [discriminate|]. destruct (Nat.eqb _ _); discriminate. }
  split; [apply (rows_le _ _ _ _ T)|apply (cols_le _ _ _ _ T)]; intros [u v] a b R A B; cbn [fst snd] in *.
  - apply in_combine_l in R. apply (seen_bin _ d u); [apply (proj1 (C101_bins arr1 e1)); exact R| |exact A]. apply (X arr1 e1); [|exact R]. destruct N as [N|N]; [left; exact N|right; intros w Hw; apply N; left; exact Hw].
  - apply in_combine_r in R. apply (seen_bin _ d v); [apply (proj1 (C101_bins arr2 e2)); exact R| |exact B]. apply (X arr2 e2); [|exact R]. destruct N as [N|N]; [left; exact N|right; intros w Hw; apply N; right; exact Hw].
Qed.
(** phik_matrix: with at most two edges (one bin) for an interval column c all entries of c except the diagonal are NaN. *)
Theorem C101_matrix : forall npq L df interval_cols bins q noise t c c', lib_ok L -> NoDup (keys df) ->
  let ic := match interval_cols with Some l => l | None => guess_interval_cols df end in
  phik_matrix npq L df interval_cols bins q noise true true true = Ok t ->
  In c ic -> In c (t_index t) -> In c' (t_index t) -> c <> c' -> supported (spec_of bins c) ->
  (forall arr e, asks_for npq bins q c arr e -> (length e <= 2)%nat) ->
  tval t c c' = NaN /\ tval t c' c = NaN /\ tval t c c = Fin 1.
Proof.
  intros npq L df icol bins q noise t c c' LO N ic E Ic It It' NE SU FE. pose proof (C31_phik_matrix npq L df icol bins q noise true true true LO N) as M. cbv zeta in M. rewrite E in M. fold ic in M.
  set (kept := filter _ df) in M. destruct M as (f & dict & B & KF & TI & TC & (_ & _ & WF & SY & DI & PV)).
  assert (Kc : In c (filter (fun x => mem x (keys kept)) ic)). { apply filter_In. split; [exact Ic|]. apply mem_In. rewrite <- TI. exact It. }
  destruct (bin_data_spec _ _ _ _ _ _ _ B) as (_ & _ & S3). destruct (S3 c Kc SU) as (column & arr & e & A1 & A2 & A3 & A4 & _).
  set (x := mkCol false (fst (bin_array arr e))) in *. assert (Hx : In (c, x) f) by (apply assoc_In; exact A4).
  assert (exists y, In (c', y) f) as (y & Hy). { rewrite TI, <- KF in It'. apply in_map_iff in It'. destruct It' as ([a y] & E1 & Hy). cbn in E1. subst a. exists y. exact Hy. }
  pose proof (FE arr e A3) as LE.
  assert (T : tval t c c' = NaN).
  {
    destruct (hist2d_rebinned_spec c c' x y true true true) as (h & _ & T). destruct (PV c x c' y h Hx Hy NE T) as [[_ V]|[[P _] _]]; [exact V|exfalso].
    assert (RL : (length (h_rows h) <= length e - 1)%nat).
    { apply (rows_le _ _ _ _ T). intros [u v] a b R A _. cbn [fst snd] in *. apply in_combine_l in R. apply (seen_bin _ true u); [apply (proj1 (C101_bins arr e)); exact R|left; reflexivity|exact A]. }
    cbn [hmat nr] in P. lia. }
  split; [exact T|]. split; [rewrite SY; exact T|]. apply DI. rewrite KF, <- TI. exact It.
Qed.
(** in particular: a number of bins below 2, *)
Theorem C101_one_bin : forall npq L df interval_cols n noise t c c', lib_ok L -> NoDup (keys df) -> (n <= 1)%Z ->
  let ic := match interval_cols with Some l => l | None => guess_interval_cols df end in
  phik_matrix npq L df interval_cols (BOne (BNum n)) false noise true true true = Ok t ->
  In c ic -> In c (t_index t) -> In c' (t_index t) -> c <> c' -> tval t c c' = NaN /\ tval t c' c = NaN /\ tval t c c = Fin 1.
Proof.
  intros npq L df icol n noise t c c' LO N Hn ic E Ic It It' NE. apply (C101_matrix npq L df icol (BOne (BNum n)) false noise t c c'); try assumption; [exact I|].
  intros arr e A. unfold asks_for, spec_of in A. destruct (C101_edges npq arr n) as [_ X]. destruct (Z_lt_le_dec n (-1)) as [L'|L'].
  - destruct (C101_edges npq arr n) as [Y _]. rewrite (Y L') in A. discriminate.
  - destruct (X L') as (e' & E1 & E2). rewrite E1 in A. injection A as <-. lia.
Qed.
(** no bins or one bin: below -1 it is a ValueError as soon as there is an interval column; for 0 all values are outside the bins, for -1 below them *)
Theorem C101_outside : forall npq arr e c, In c (fst (bin_array arr e)) ->
  (bin_edges npq arr 0 false = Ok e -> c = CNaN \/ c = CStr "UF"%string \/ c = CStr "OF"%string) /\
  (bin_edges npq arr (-1) false = Ok e -> c = CNaN \/ c = CStr "UF"%string).
Proof.
  intros npq arr e c I. split; intros E.
  - destruct (C101_edges npq arr 0) as [_ X]. destruct (X ltac:(lia)) as (e' & E1 & E2). rewrite E1 in E. injection E as <-. destruct (proj1 (C101_bins arr e') c I) as [H|[H|[H|(i & Hi & _)]]]; [tauto|tauto|tauto|]. cbn in E2. lia.
  - destruct (C101_edges npq arr (-1)) as [_ X]. destruct (X ltac:(lia)) as (e' & E1 & E2). rewrite E1 in E. injection E as <-. destruct e'; [|discriminate E2]. rewrite bin_array_fst in I. apply in_map_iff in I. destruct I as (v & <- & _).
    unfold bin1, searchsorted. cbn. destruct (fisnan v); [left; reflexivity|right; reflexivity].
Qed.
(** a frame whose two columns determine each other: NaN with one bin *)
Theorem C101_example : forall npq L, lib_ok L -> lib_converges L ->
  let f := [("v", mkCol true [CInt 1; CInt 2; CInt 3; CInt 4]); ("w", mkCol false [CStr "a"; CStr "a"; CStr "b"; CStr "b"])]%string in
  exists t, phik_matrix npq L f None (BOne (BNum 1)) false true true true true = Ok t /\ tval t "v" "w" = NaN.
Proof.
  intros npq L LO LC f. assert (N : NoDup (keys f)) by (repeat constructor; cbn; intuition congruence).
  pose proof (C31_phik_matrix npq L f None (BOne (BNum 1)) false true true true true LO N) as M. cbv zeta in M.
  destruct (phik_matrix npq L f None (BOne (BNum 1)) false true true true true) as [t|e] eqn:E.
  - exists t. split; [reflexivity|]. destruct M as (_ & _ & _ & _ & TI & _). assert (TI' : t_index t = ["v"; "w"]%string) by (rewrite TI; vm_compute; reflexivity).
    apply (C101_one_bin npq L f None 1 true t "v" "w" LO N ltac:(lia) E); [left; reflexivity|rewrite TI'; left; reflexivity|rewrite TI'; right; left; reflexivity|discriminate].
  - exfalso. destruct M as [M|[_ M]]; [|contradiction]. assert (X : match bin_data npq (filter (fun p => Nat.leb 2 (nunique (snd p)) || (Nat.eqb (nunique (snd p)) 1 && negb true && negb (mem (fst p) (guess_interval_cols f)))) f)
       (filter (fun c => mem c (keys (filter (fun p => Nat.leb 2 (nunique (snd p)) || (Nat.eqb (nunique (snd p)) 1 && negb true && negb (mem (fst p) (guess_interval_cols f)))) f))) (guess_interval_cols f)) (BOne (BNum 1)) false with Ok _ => true | _ => false end = true) by (vm_compute; reflexivity).
    rewrite M in X. discriminate.
Qed.
Print Assumptions C101_bins. Print Assumptions C101_table. Print Assumptions C101_matrix. Print Assumptions C101_one_bin. Print Assumptions C101_outside. Print Assumptions C101_example.
