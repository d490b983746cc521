(** C76, C77: columns that determine each other; the phik matrix of a frame with a duplicated column cannot be inverted. *)
From Coq Require Import String Ascii ZArith List Bool Reals Lra Lia.
Import ListNotations.
From Verif Require Import F64 Base Cells BinModel HistModel SpecHist HistProofs RSum StatsModel StatsProofs BivModel Num PhikModel SpecPhik PhikProofs3 OverviewProofs PairMatProofs PhikMatProofs PhikInvProofs PropsPhik ArrayModel SparkModel SpecSpark SparkProofs.
Open Scope list_scope.
Open Scope R_scope.

Lemma count_pos : forall A (p : A -> bool) l, (0 < count_if p l)%nat -> exists a, In a l /\ p a = true.
Proof.
  intros A p l. induction l as [|a l IH]; cbn [count_if]; intros H; [lia|]. destruct (p a) eqn:P; [exists a; split; [left; reflexivity|exact P]|]. destruct IH as (b & Hb & Pb); [lia|]. exists b. split; [right; exact Hb|exact Pb].
Qed.
Lemma opair_true : forall x y a b, opair_eqb x y a b = true -> x = Some a /\ y = Some b.
Proof. intros [u|] [v|] a b H; cbn in H; try discriminate. destruct (cell_eq_dec u a); [|discriminate]. destruct (cell_eq_dec v b); [|discriminate]. subst. auto. Qed.

(** the second variable determines the first one *)
Definition determines (seen : cell -> option cell) (recs : list (cell * cell)) : Prop :=
  forall r r' a a' b, In r recs -> In r' recs -> seen (fst r) = Some a -> seen (snd r) = Some b -> seen (fst r') = Some a' -> seen (snd r') = Some b -> a = a'.
Lemma table_determined : forall seen recs h, is_table_of seen recs h -> determines seen recs -> exists g, column_determines_row (hmat h) g.
Proof.
  intros seen recs h (T1 & T2 & S1 & S2 & L1 & L2 & EN & RP & CP & _) D.
  assert (U : forall i i' j, (i < length (h_rows h))%nat -> (i' < length (h_rows h))%nat -> (j < length (h_cols h))%nat -> (0 < entry h i j)%nat -> (0 < entry h i' j)%nat -> i = i').
  { intros i i' j Hi Hi' Hj P P'. rewrite EN in P, P' by assumption. apply count_pos in P, P'. destruct P as (r & Hr & P), P' as (r' & Hr' & P'). apply opair_true in P, P'. destruct P as (A & B), P' as (A' & B').
    pose proof (D r r' _ _ _ Hr Hr' A B A' B') as EQ. apply (proj1 (NoDup_nth (h_rows h) CNaN) (ssorted_NoDup _ S1)); assumption. }
  exists (fun j => match find (fun i => negb (Nat.eqb (entry h i j) 0)) (seq 0 (length (h_rows h))) with Some i => i | None => 0%nat end).
  assert (G : forall j, (j < length (h_cols h))%nat -> exists i, find (fun i => negb (Nat.eqb (entry h i j) 0)) (seq 0 (length (h_rows h))) = Some i /\ (i < length (h_rows h))%nat /\ (0 < entry h i j)%nat).
  { intros j Hj. destruct (find _ _) as [i|] eqn:F.
    - apply find_some in F. destruct F as (F1 & F2). apply in_seq in F1. apply negb_true_iff, Nat.eqb_neq in F2. exists i. split; [reflexivity|]. lia.
    - exfalso. destruct (CP j Hj) as (i & Hi & P). pose proof (find_none _ _ F i) as N. rewrite in_seq in N. specialize (N ltac:(lia)). apply negb_false_iff, Nat.eqb_eq in N. lia. }
  split; [|split]; cbn [nr nc el hmat].
  - intros j Hj. destruct (G j Hj) as (i & -> & Hi & _). exact Hi.
  - intros i Hi. destruct (RP i Hi) as (j & Hj & P). exists j. split; [exact Hj|]. destruct (G j Hj) as (i' & -> & Hi' & P'). exact (U i' i j Hi' Hi Hj P' P).
  - intros i j Hi Hj. destruct (G j Hj) as (i' & -> & Hi' & P'). split.
    + intros NZ. apply (U i' i j Hi' Hi Hj P'). unfold entry. destruct (nth j (nth i (h_cnt h) []) 0%nat); [exfalso; apply NZ; reflexivity|lia].
    + intros <-. apply not_0_INR. unfold entry in P'. lia.
Qed.
(** C77: entry of the phik matrix for a column that is a function of another one *)
Theorem C77_determined_column : forall L f noise d u o t c0 x c1 y h, lib_ok L -> NoDup (keys f) -> fst (phik_from_rebinned_df L f noise d u o) = Ok t ->
  In (c0, x) f -> In (c1, y) f -> c0 <> c1 -> determines (counted_as d u o) (combine (c_cells x) (c_cells y)) ->
  is_table_of (counted_as d u o) (combine (c_cells x) (c_cells y)) h -> (2 <= length (h_rows h))%nat -> (3 <= length (h_cols h))%nat -> tval t c0 c1 = Fin 1 /\ tval t c1 c0 = Fin 1.
Proof.
  intros L f noise d u o t c0 x c1 y h LO ND HP I0 I1 NE D HT H2 H3. pose proof (C31_phik_from_rebinned_df L f noise d u o LO ND) as M. rewrite HP in M. destruct M as (_ & _ & _ & SY & _ & M).
  destruct (table_determined _ _ _ HT D) as (g & HG).
  assert (V : tval t c0 c1 = Fin 1). { destruct (M c0 x c1 y h I0 I1 NE HT) as [(NP & _)|(_ & v & Ev & -> & _)]; [exfalso; apply NP; split; cbn [hmat nr nc]; lia|].
    rewrite (hist2d_determined L (hmat h) g noise LO (hmat_nonneg h) (hmat_counts h) HG H2 H3) in Ev. congruence. }
  split; [exact V|rewrite SY; exact V].
Qed.

(** C76: a duplicated column *)
Lemma determines_self : forall seen l, determines seen (combine l l).
Proof.
  intros seen l r r' a a' b Hr Hr' A B A' B'. assert (S : forall r, In r (combine l l) -> fst r = snd r).
  { clear. induction l as [|c l IH]; intros r H; [destruct H|]. destruct H as [<-|H]; [reflexivity|apply IH; exact H]. }
  rewrite (S r Hr) in A. rewrite (S r' Hr') in A'. congruence.
Qed.
Definition val (x : num) : R := match x with Fin r => r | _ => 0 end.
Lemma pos_nodup : forall l i, NoDup l -> (i < length l)%nat -> pos (nth i l EmptyString) l = Some i.
Proof.
  intros l i ND Hi. destruct (pos_In (nth i l EmptyString) l (nth_In _ _ Hi)) as (k & E & Lk & Q). rewrite E. f_equal. apply (proj1 (NoDup_nth l EmptyString) ND); try assumption.
Qed.
Lemma cells_tval : forall t l i j, t_index t = l -> t_columns t = l -> NoDup l -> (i < length l)%nat -> (j < length l)%nat -> nth j (nth i (t_cells t) []) NaN = tval t (nth i l EmptyString) (nth j l EmptyString).
Proof. intros t l i j E1 E2 ND Hi Hj. unfold tval. rewrite E1, E2, !pos_nodup by assumption. reflexivity. Qed.
Lemma nth_ext_rows : forall (A B : list (list num)) n, length A = n -> length B = n -> (forall r, In r A -> length r = n) -> (forall r, In r B -> length r = n) ->
  (forall i j, (i < n)%nat -> (j < n)%nat -> nth j (nth i A []) NaN = nth j (nth i B []) NaN) -> A = B.
Proof.
  intros A B n LA LB RA RB H. apply (nth_ext _ _ [] []); [congruence|]. intros i Hi. rewrite LA in Hi. apply (nth_ext _ _ NaN NaN).
  - rewrite RA, RB; [reflexivity| |]; apply nth_In; lia.
  - intros j Hj. rewrite RA in Hj by (apply nth_In; lia). apply H; lia.
Qed.
Lemma rows_nth2 : forall n V i j, (i < n)%nat -> (j < n)%nat -> nth j (nth i (rows_of n V) []) NaN = Fin (V i j).
Proof.
  intros n V i j H H'. unfold rows_of. rewrite (nth_indep _ [] (map (fun j => Fin (V 0%nat j)) (seq 0 n))) by (rewrite map_length, seq_length; exact H). rewrite (map_nth (fun i => map (fun j => Fin (V i j)) (seq 0 n))), seq_nth by exact H. cbn [plus].
  rewrite (nth_indep _ NaN (Fin (V i 0%nat))) by (rewrite map_length, seq_length; exact H'). rewrite (map_nth (fun j => Fin (V i j))), seq_nth by exact H'. reflexivity.
Qed.
Lemma equal_rows_singular : forall n V i0 i1, (i0 < n)%nat -> (i1 < n)%nat -> i0 <> i1 -> (forall j, (j < n)%nat -> V i0 j = V i1 j) -> forall W, ~ right_inverse n V W.
Proof.
  intros n V i0 i1 H0 H1 NE EQ W RI. pose proof (RI i0 i0 H0 H0) as A. pose proof (RI i1 i0 H1 H0) as B. rewrite Nat.eqb_refl in A. rewrite (proj2 (Nat.eqb_neq i1 i0)) in B by congruence.
  assert (S : lsum (fun k => V i0 k * W k i0) (seq 0 n) = lsum (fun k => V i1 k * W k i0) (seq 0 n)). { apply lsum_ext. intros k Hk. apply in_seq in Hk. rewrite EQ by lia. reflexivity. }
  lra.
Qed.
(** if the phik matrix has numbers only, numpy's matrix inversion finds it singular *)
Theorem C76_duplicated_column : forall L inv f noise d u o c0 c1 x x' t V h, lib_ok L -> NoDup (keys f) -> fst (phik_from_rebinned_df L f noise d u o) = Ok t ->
  In (c0, x) f -> In (c1, x') f -> c0 <> c1 -> c_cells x = c_cells x' ->
  is_table_of (counted_as d u o) (combine (c_cells x) (c_cells x)) h -> (3 <= length (h_rows h))%nat ->
  t_cells t = rows_of (length f) V -> inverts inv (length f) V ->
  global_phik_from_rebinned_df L inv f noise d u o = Raise LinAlgError.
Proof.
  intros L inv f noise d u o c0 c1 x x' t V h LO ND HP I0 I1 NE CE HT H3 TV INV. unfold global_phik_from_rebinned_df. rewrite HP. cbn [rbind]. set (n := length f) in *.
  assert (Hn : n = length (keys f)) by (unfold keys; rewrite map_length; reflexivity).
  pose proof (C31_phik_from_rebinned_df L f noise d u o LO ND) as M. rewrite HP in M. destruct M as (TI & TC & (WF1 & WF2) & SY & DI & M).
  set (key i := nth i (keys f) EmptyString).
  assert (TVV : forall i j, (i < n)%nat -> (j < n)%nat -> tval t (key i) (key j) = Fin (V i j)).
  { intros i j Hi Hj. unfold key. rewrite <- (cells_tval t (keys f)) by (try assumption; lia). rewrite TV. apply rows_nth2; assumption. }
  destruct (In_nth (keys f) c0 EmptyString (in_map fst _ _ I0)) as (i0 & L0 & E0). destruct (In_nth (keys f) c1 EmptyString (in_map fst _ _ I1)) as (i1 & L1 & E1).
  fold (key i0) in E0. fold (key i1) in E1. rewrite <- Hn in L0, L1.
  assert (C10 : tval t c0 c1 = Fin 1 /\ tval t c1 c0 = Fin 1).
  { assert (HT' : is_table_of (counted_as d u o) (combine (c_cells x) (c_cells x')) h) by (rewrite <- CE; exact HT).
    apply (C77_determined_column L f noise d u o t c0 x c1 x' h LO ND HP I0 I1 NE); [rewrite <- CE; apply determines_self|exact HT'|lia|].
    destruct HT as (T1 & T2 & S1 & S2 & _). assert (h_cols h = h_rows h) as ->; [|exact H3]. apply ssorted_ext; try assumption. intros a. rewrite T1, T2.
    assert (S : forall r, In r (combine (c_cells x) (c_cells x)) -> fst r = snd r). { clear. induction (c_cells x) as [|c l IH]; intros r H; [destruct H|]. destruct H as [<-|H]; [reflexivity|apply IH; exact H]. }
    split; intros (r & b & Hr & A & B); exists r, a; rewrite (S r Hr) in *; repeat split; congruence. }
  assert (EQ : forall j, (j < n)%nat -> V i0 j = V i1 j).
  { intros j Hj. assert (EV : tval t c0 (key j) = tval t c1 (key j)); [|rewrite <- E0, <- E1, !TVV in EV by assumption; congruence].
    destruct (string_dec (key j) c0) as [->|N0]; [rewrite DI by exact (in_map fst _ _ I0); rewrite (proj2 C10); reflexivity|].
    destruct (string_dec (key j) c1) as [->|N1]; [rewrite (proj1 C10), DI by exact (in_map fst _ _ I1); reflexivity|].
    assert (IK : In (key j) (keys f)) by (apply nth_In; lia). unfold keys in IK. apply in_map_iff in IK. destruct IK as ([kj y] & Ek & Iy). cbn [fst] in Ek. subst kj.
    pose proof (clean_table d u o (c_cells x) (c_cells y)) as HTy.
    assert (F0 : tval t c0 (key j) = Fin (V i0 j)) by (rewrite <- E0; apply TVV; assumption). assert (F1 : tval t c1 (key j) = Fin (V i1 j)) by (rewrite <- E1; apply TVV; assumption).
    destruct (M c0 x (key j) y _ I0 Iy (not_eq_sym N0) HTy) as [(_ & Bad)|(_ & w0 & P0 & Q0 & _)]; [congruence|].
    rewrite CE in HTy at 1. destruct (M c1 x' (key j) y _ I1 Iy (not_eq_sym N1) HTy) as [(_ & Bad)|(_ & w1 & P1 & Q1 & _)]; [congruence|]. congruence. }
  assert (NI : i0 <> i1) by (intros ->; apply NE; congruence).
  destruct INV as [(W & RI & _)|(_ & EI)]; [exfalso; exact (equal_rows_singular n V i0 i1 L0 L1 NI EQ W RI)|]. rewrite TV, EI. reflexivity.
Qed.
(** three records, the same column twice *)
Definition twice : frame := [("a", col3 [0; 1; 2]%Z); ("b", col3 [0; 1; 2]%Z)]%string.
Example C76_case : forall L inv noise, lib_ok L -> lib_converges L -> inverts inv 2 (fun _ _ => 1) -> global_phik_from_rebinned_df L inv twice noise true true true = Raise LinAlgError.
Proof.
  intros L inv noise LO LC INV. assert (ND : NoDup (keys twice)) by (repeat constructor; simpl; intuition congruence).
  pose proof (C31_phik_from_rebinned_df L twice noise true true true LO ND) as M. destruct (fst (phik_from_rebinned_df L twice noise true true true)) as [t|e] eqn:HP; [|exfalso; exact (proj2 M LC)].
  pose proof (clean_table true true true (map CInt [0; 1; 2]%Z) (map CInt [0; 1; 2]%Z)) as HT.
  assert (C10 : tval t "a" "b" = Fin 1 /\ tval t "b" "a" = Fin 1).
  { eapply (C77_determined_column L twice noise true true true t "a" (col3 [0;1;2]%Z) "b" (col3 [0;1;2]%Z)); [exact LO|exact ND|exact HP|left; reflexivity|right; left; reflexivity|discriminate|apply determines_self|exact HT|vm_compute; lia|vm_compute; lia]. }
  eapply (C76_duplicated_column L inv twice noise true true true "a" "b" (col3 [0;1;2]%Z) (col3 [0;1;2]%Z) t (fun _ _ => 1)); [exact LO|exact ND|exact HP|left; reflexivity|right; left; reflexivity|discriminate|reflexivity|exact HT|vm_compute; lia| |exact INV].
  destruct M as (TI & TC & (WF1 & WF2) & SY & DI & _). apply (nth_ext_rows _ _ 2).
  - rewrite WF1, TI. reflexivity.
  - reflexivity.
  - intros r Hr. rewrite (WF2 r Hr), TC. reflexivity.
  - intros r [<-|[<-|[]]]; reflexivity.
  - intros i j Hi Hj. rewrite (cells_tval t (keys twice)) by (assumption || exact Hi || exact Hj). rewrite rows_nth2 by assumption.
    pose proof (DI "a"%string (or_introl eq_refl)) as Da. pose proof (DI "b"%string (or_intror (or_introl eq_refl))) as Db. destruct C10 as (Cab & Cba).
    destruct i as [|[|i]]; [| |lia]; (destruct j as [|[|j]]; [| |lia]); cbn [keys twice map fst nth]; assumption.
Qed.
Example C76_inverse_assumption : inverts (fun _ => Raise LinAlgError) 2 (fun _ _ => 1).
Proof. right. split; [|reflexivity]. apply (equal_rows_singular 2 _ 0 1); [lia|lia|lia|reflexivity]. Qed.
