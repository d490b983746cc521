(** C114: an infinite value (or a range that overflows) makes the automatic edges of its column useless: every record is underflow and phik is NaN. *)
From Coq Require Import String ZArith List Bool Reals Lra Lia Sorting.Sorted.
From Flocq Require Import Core BinarySingleNaN.
From Verif Require Import BrentFModel BrentFProofs F64 FOrder Base Cells BinModel SpecBin BinProofs BinDataProofs LinspaceProofs HistModel SpecHist HistProofs RSum StatsModel SpecStats BivModel Num PhikModel SpecPhik PhikMatProofs PropsPhik SearchModel PropsSearch PropsFewBins SpecInf.
Import ListNotations.
Open Scope Z_scope.
Open Scope list_scope.
Notation pinf := (B754_infinity false).

Lemma minus_nan_or : forall u v, fminus v u = fnan \/ v = pinf \/ ffin v = true \/ v = B754_infinity true.
Proof. intros u [s|[|]| |s m e p]; auto. Qed.
Lemma max_any : forall l a, (forall v, In v (a :: l) -> fisnan v = false) -> In (fold_left fmax2 l a) (a :: l) /\ forall v, In v (a :: l) -> fle v (fold_left fmax2 l a) = true.
Proof.
  induction l as [|b l IH]; intros a N; cbn [fold_left].
  - split; [left; reflexivity|]. intros v [<-|[]]. apply fle_refl. apply N. left. reflexivity.
  - pose proof (N a (or_introl eq_refl)) as NA. pose proof (N b (or_intror (or_introl eq_refl))) as NB.
    assert (H : (fmax2 a b = a \/ fmax2 a b = b) /\ fle a (fmax2 a b) = true /\ fle b (fmax2 a b) = true).
    { unfold fmax2. destruct (flt a b) eqn:E; [split; [right; reflexivity|]; split; [apply flt_le; exact E|apply fle_refl; exact NB]|]. split; [left; reflexivity|]. split; [apply fle_refl; exact NA|]. rewrite flt_negb_fle in E by assumption. destruct (fle b a); [reflexivity|discriminate E]. }
    destruct H as (H0 & H1 & H2). destruct (IH (fmax2 a b)) as [I1 I2]. { intros v [<-|Hv]; [destruct H0 as [-> | ->]; assumption|apply N; right; right; exact Hv]. }
    split.
    + destruct I1 as [I1|I1]; [rewrite <- I1; destruct H0 as [-> | ->]; [left|right; left]; reflexivity|right; right; exact I1].
    + intros v [<-|[<-|Hv]]; [eapply fle_trans; [exact H1|apply I2; left; reflexivity]|eapply fle_trans; [exact H2|apply I2; left; reflexivity]|apply I2; right; exact Hv].
Qed.
Lemma min_any : forall l a, (forall v, In v (a :: l) -> fisnan v = false) -> In (fold_left fmin2 l a) (a :: l) /\ forall v, In v (a :: l) -> fle (fold_left fmin2 l a) v = true.
Proof.
  induction l as [|b l IH]; intros a N; cbn [fold_left].
  - split; [left; reflexivity|]. intros v [<-|[]]. apply fle_refl. apply N. left. reflexivity.
  - pose proof (N a (or_introl eq_refl)) as NA. pose proof (N b (or_intror (or_introl eq_refl))) as NB.
    assert (H : (fmin2 a b = a \/ fmin2 a b = b) /\ fle (fmin2 a b) a = true /\ fle (fmin2 a b) b = true).
    { unfold fmin2. destruct (flt b a) eqn:E; [split; [right; reflexivity|]; split; [apply flt_le; exact E|apply fle_refl; exact NB]|]. split; [left; reflexivity|]. split; [apply fle_refl; exact NA|]. rewrite flt_negb_fle in E by assumption. destruct (fle a b); [reflexivity|discriminate E]. }
    destruct H as (H0 & H1 & H2). destruct (IH (fmin2 a b)) as [I1 I2]. { intros v [<-|Hv]; [destruct H0 as [-> | ->]; assumption|apply N; right; right; exact Hv]. }
    split.
    + destruct I1 as [I1|I1]; [rewrite <- I1; destruct H0 as [-> | ->]; [left|right; left]; reflexivity|right; right; exact I1].
    + intros v [<-|[<-|Hv]]; [eapply fle_trans; [apply I2; left; reflexivity|exact H1]|eapply fle_trans; [apply I2; left; reflexivity|exact H2]|apply I2; right; exact Hv].
Qed.
(** the difference that the edges are made of *)
Lemma overflowed : forall u v, ffin u = true -> ffin v = true -> ffin (fminus v u) = false <-> (bpow radix2 1024 <= Rabs (rnd (f2R v - f2R u)))%R.
Proof.
  intros u v FU FV. pose proof (Bminus_correct 53 1024 _ _ mode_NE v u FV FU) as D. change (Bminus mode_NE v u) with (fminus v u) in D. change (B2R v) with (f2R v) in D. change (B2R u) with (f2R u) in D.
  change (round radix2 (SpecFloat.fexp 53 1024) (round_mode mode_NE) (f2R v - f2R u)) with (rnd (f2R v - f2R u)) in D. destruct (Rlt_bool_spec (Rabs (rnd (f2R v - f2R u))) (bpow radix2 1024)) as [O|O].
  - destruct D as (_ & D & _). change (is_finite (fminus v u)) with (ffin (fminus v u)) in D. rewrite D. split; intros H; [discriminate H|lra].
  - destruct D as [D _]. split; [intros _; exact O|intros _]. destruct (fminus v u) as [s|s| |s m e p]; try reflexivity; discriminate D.
Qed.
Lemma overflow_sign : forall u v, ffin u = true -> ffin v = true -> ffin (fminus v u) = false -> (f2R u <= f2R v)%R -> fminus v u = pinf.
Proof.
  intros u v FU FV O LE. pose proof (proj1 (overflowed u v FU FV) O) as B. pose proof (Bminus_correct 53 1024 _ _ mode_NE v u FV FU) as D. change (Bminus mode_NE v u) with (fminus v u) in D. change (B2R v) with (f2R v) in D. change (B2R u) with (f2R u) in D.
  change (round radix2 (SpecFloat.fexp 53 1024) (round_mode mode_NE) (f2R v - f2R u)) with (rnd (f2R v - f2R u)) in D. rewrite Rlt_bool_false in D by exact B. destruct D as [D S]. unfold binary_overflow in D. cbn [overflow_to_inf] in D.
  assert (SV : Bsign v = false).
  { destruct (Bsign v) eqn:E; [exfalso|reflexivity]. assert (V0 : (f2R v <= 0)%R). { destruct v as [s|s| |s m e p]; try discriminate FV; [unfold f2R; cbn [B2R]; lra|]. cbn [Bsign] in E. subst s. apply F2R_le_0. cbn. lia. }
    assert (U0 : (0 <= f2R u)%R). { destruct u as [s|s| |s m e p]; try discriminate FU; [unfold f2R; cbn [B2R]; lra|]. cbn [Bsign] in S. destruct s; [discriminate S|]. apply F2R_ge_0. cbn. lia. }
    replace (f2R v - f2R u)%R with 0%R in B by lra. rewrite rnd_0, Rabs_R0 in B. pose proof (bpow_gt_0 radix2 1024). lra. }
  rewrite SV in D. destruct (fminus v u) as [s|s| |s m e p]; try discriminate D. cbn in D. congruence.
Qed.
Lemma between_fin : forall m u s, ffin m = true -> ffin s = true -> fle m u = true -> fle u s = true -> ffin u = true.
Proof.
  intros m u s FM FS A B. destruct u as [su|[|]| |su q e p]; try reflexivity.
  - destruct m as [sm|sm| |sm q e p]; try discriminate FM; discriminate A.
  - destruct s as [sm|sm| |sm q e p]; try discriminate FS; discriminate B.
  - destruct (fle_nan _ _ A) as [_ X]. discriminate X.
Qed.
Lemma tiny_val : ffin tiny = true /\ (0 < f2R tiny)%R.
Proof. destruct (flit_spec 6338253001141147 (-99) ltac:(lia) ltac:(lia) ltac:(lia)) as [A B]. change (flit 6338253001141147 (-99)) with tiny in A, B. split; [exact B|]. rewrite A. apply Rmult_lt_0_compat; [apply IZR_lt; lia|apply bpow_gt_0]. Qed.
Lemma minf_minus : forall y, ffin y = true -> fminus (B754_infinity true) y = B754_infinity true.
Proof. intros [s|s| |s q e p] H; try discriminate H; reflexivity. Qed.
Lemma minus_minf : forall y, ffin y = true -> fminus y (B754_infinity true) = pinf.
Proof. intros [s|s| |s q e p] H; try discriminate H; reflexivity. Qed.
Lemma pinf_minus : forall y, fminus pinf y = fnan \/ fminus pinf y = pinf.
Proof. intros [s|[|]| |s q e p]; auto. Qed.
Lemma span_case : forall m s u v, fle m u = true -> fle u s = true -> fle m v = true -> fle v s = true -> ffin (fminus v u) = false ->
  fminus s (fminus m tiny) = fnan \/ fminus s (fminus m tiny) = pinf.
Proof.
  intros m s u v Mu Us Mv Vs W. destruct tiny_val as [FT PT].
  assert (C : s = pinf \/ s = B754_infinity true \/ ffin s = true). { destruct (fle_nan _ _ Us) as [_ X]. destruct s as [s|[|]| |s q e p]; auto; discriminate X. }
  destruct C as [-> |[-> |FS]].
  - apply pinf_minus.
  - left. pose proof (fle_trans _ _ _ Mu Us) as L. assert (E : m = B754_infinity true) by (destruct m as [sm|[|]| |[|] q e p]; try discriminate L; reflexivity). rewrite E, (minf_minus tiny FT). reflexivity.
  - assert (D : m = B754_infinity true \/ ffin m = true). { pose proof (fle_trans _ _ _ Mu Us) as L. destruct m as [sm|[|]| |sm q e p]; auto; destruct s as [z|z| |z q e p]; try discriminate FS; discriminate L. }
    destruct D as [-> |FM].
    { right. rewrite (minf_minus tiny FT). apply minus_minf. exact FS. }
    pose proof (between_fin _ _ _ FM FS Mu Us) as FU. pose proof (between_fin _ _ _ FM FS Mv Vs) as FV.
    right. pose proof (proj1 (overflowed u v FU FV) W) as B.
    apply (proj1 (fle_spec m u FM FU)) in Mu. apply (proj1 (fle_spec u s FU FS)) in Us. apply (proj1 (fle_spec m v FM FV)) in Mv. apply (proj1 (fle_spec v s FV FS)) in Vs.
    destruct (ffin (fminus m tiny)) eqn:FST.
    + set (st := fminus m tiny) in *. assert (LST : (f2R st <= f2R m)%R).
      { pose proof (Bminus_correct 53 1024 _ _ mode_NE m tiny FM FT) as D. change (Bminus mode_NE m tiny) with st in D. change (B2R st) with (f2R st) in D. change (B2R m) with (f2R m) in D. change (B2R tiny) with (f2R tiny) in D.
        change (round radix2 (SpecFloat.fexp 53 1024) (round_mode mode_NE) (f2R m - f2R tiny)) with (rnd (f2R m - f2R tiny)) in D. destruct (Rlt_bool _ _).
        - destruct D as [-> _]. apply rnd_ub; [apply fmt_B2R|lra].
        - destruct D as [D _]. exfalso. destruct st as [z|z| |z q e p]; try discriminate FST; discriminate D. }
      apply overflow_sign; [exact FST|exact FS| |lra]. apply (proj2 (overflowed st s FST FS)).
      assert (Z : (0 <= rnd (f2R s - f2R st))%R). { rewrite <- rnd_0. apply rnd_le. lra. }
      rewrite Rabs_pos_eq by exact Z. eapply Rle_trans; [exact B|]. unfold Rabs. destruct (Rcase_abs _) as [N|N].
      * rewrite <- rnd_opp. apply rnd_le. lra.
      * apply rnd_le. lra.
    + assert (E : fminus m tiny = B754_infinity true).
      { pose proof (Bminus_correct 53 1024 _ _ mode_NE m tiny FM FT) as D. change (Bminus mode_NE m tiny) with (fminus m tiny) in D. destruct (Rlt_bool _ _).
        - destruct D as (_ & D & _). change (is_finite (fminus m tiny)) with (ffin (fminus m tiny)) in D. congruence.
        - destruct D as [D S]. unfold binary_overflow in D. cbn [overflow_to_inf] in D. assert (ST : Bsign tiny = false).
          { destruct tiny as [z|z| |z q e p]; try discriminate FT; [exfalso; unfold f2R in PT; cbn [B2R] in PT; lra|]. destruct z; [|reflexivity]. exfalso. assert (f2R (B754_finite true q e p) <= 0)%R by (apply F2R_le_0; cbn; lia). lra. }
          rewrite S, ST in D. destruct (fminus m tiny) as [z|z| |z q e p]; try discriminate D. cbn in D. congruence. }
      rewrite E. apply minus_minf. exact FS.
Qed.
Lemma span : forall arr, wide arr -> let vals := filter (fun v => negb (fisnan v)) arr in
  let start := fminus (fminl vals) tiny in let stop := fmaxl vals in
  In stop arr /\ (forall v, In v arr -> fisnan v = false -> fle v stop = true) /\ (fminus stop start = fnan \/ fminus stop start = pinf).
Proof.
  intros arr (u & v & Hu & Hv & NU & NV & W) vals start stop.
  assert (Iu : In u vals) by (apply filter_In; split; [exact Hu|rewrite NU; reflexivity]). assert (Iv : In v vals) by (apply filter_In; split; [exact Hv|rewrite NV; reflexivity]).
  assert (NN : forall w, In w vals -> fisnan w = false) by (intros w Hw; apply filter_In in Hw; destruct (fisnan w); [destruct Hw as [_ Hw]; discriminate Hw|reflexivity]).
  assert (X : In stop vals /\ (forall w, In w vals -> fle w stop = true) /\ (forall w, In w vals -> fle (fminl vals) w = true)).
  { unfold stop. clear - NN Iu. destruct vals as [|a l]; [destruct Iu|]. destruct (max_any l a NN) as [A1 A2]. destruct (min_any l a NN) as [B1 B2]. cbn [fmaxl fminl]. auto. }
  destruct X as (IX & MX & MN). split; [apply filter_In in IX; apply IX|]. split; [intros w Hw NW; apply MX; apply filter_In; split; [exact Hw|rewrite NW; reflexivity]|].
  apply (span_case (fminl vals) stop u v); auto.
Qed.
(** the edges *)
Definition dead (x : f64) : Prop := x = fnan \/ x = pinf.
Lemma dead_plus : forall x y, dead x -> dead (fplus x y).
Proof. intros x y [-> | ->]; destruct y as [s|[|]| |s q e p]; unfold dead; auto. Qed.
Lemma dead_times : forall d i, dead d -> (0 <= i <= 2 ^ 53)%Z -> dead (fmult (ofZ i) d).
Proof.
  intros d i D H. destruct (ofZ_spec i ltac:(lia)) as [V F]. assert (P : (0 <= f2R (ofZ i))%R) by (rewrite V; apply IZR_le; lia). destruct (ofZ i) as [s|s| |[|] q e p]; try discriminate F; destruct D as [-> | ->]; unfold dead; auto.
  exfalso. assert (f2R (B754_finite true q e p) < 0)%R by (apply F2R_lt_0; cbn; lia). lra.
Qed.
Lemma dead_div : forall d i, dead d -> (0 < i <= 2 ^ 53)%Z -> dead (fdiv d (ofZ i)).
Proof.
  intros d i D H. destruct (ofZ_spec i ltac:(lia)) as [V F]. assert (P : (0 < f2R (ofZ i))%R) by (rewrite V; apply IZR_lt; lia). destruct (ofZ i) as [s|s| |[|] q e p]; try discriminate F; destruct D as [-> | ->]; unfold dead; auto.
  - exfalso. unfold f2R in P. cbn [B2R] in P. lra.
  - exfalso. assert (f2R (B754_finite true q e p) < 0)%R by (apply F2R_lt_0; cbn; lia). lra.
Qed.
Lemma set_last_in : forall A (l : list A) a x, In x (set_last l a) -> In x l \/ x = a.
Proof. induction l as [|b l IH]; intros a x H; [destruct H|]. destruct l as [|c l]; cbn [set_last] in H; [destruct H as [<-|[]]; auto|]. destruct H as [<-|H]; [left; left; reflexivity|]. destruct (IH _ _ H) as [I|I]; [left; right; exact I|auto]. Qed.

Lemma never_below : forall x v, dead x -> flt x v = false.
Proof. intros x v [-> | ->]; destruct v as [s|[|]| |s q e p]; reflexivity. Qed.
(** every edge is NaN, +infinity or the largest value: no value is above any edge *)
Theorem C114_edges : forall npq arr n e, wide arr -> (n <= 2 ^ 50)%Z -> bin_edges npq arr n false = Ok e ->
  forall x, In x e -> (x = fnan \/ x = pinf \/ (In x arr /\ forall v, In v arr -> fisnan v = false -> fle v x = true)) /\ (forall v, In v arr -> fisnan v = false -> flt x v = false).
Proof.
  intros npq arr n e W Hn E x Hx. destruct (span arr W) as (IX & MX & D). unfold bin_edges, linspace in E. destruct (n + 1 <? 0) eqn:N0; [discriminate E|]. apply Z.ltb_ge in N0.
  set (start := fminus (fminl _) tiny) in *. set (stop := fmaxl _) in *. set (delta := fminus stop start) in *.
  set (y := map _ _) in E. assert (YD : forall a, In a y -> dead a).
  { intros a Ha. unfold y in Ha. apply in_map_iff in Ha. destruct Ha as (i & <- & Hi). apply in_seq in Hi. apply dead_plus. cbv beta.
    destruct (0 <? n + 1 - 1) eqn:P; [|apply dead_times; [exact D|lia]]. apply Z.ltb_lt in P.
    assert (DS : dead (fdiv delta (ofZ (n + 1 - 1)))) by (apply dead_div; [exact D|lia]).
    assert (Z0 : feqb (fdiv delta (ofZ (n + 1 - 1))) fzero = false) by (destruct DS as [-> | ->]; reflexivity). rewrite Z0. apply dead_times; [exact DS|lia]. }
  assert (C : dead x \/ x = stop). { destruct (1 <? n + 1); injection E as <-; [destruct (set_last_in _ _ _ _ Hx) as [I|I]; [left; apply YD; exact I|right; exact I]|left; apply YD; exact Hx]. }
  split; [destruct C as [[C|C]| ->]; auto|]. intros v Hv NV. destruct C as [C| ->]; [apply never_below; exact C|]. pose proof (MX v Hv NV) as L. pose proof (fle_nan _ _ L) as [_ NS]. rewrite flt_negb_fle by assumption. rewrite L. reflexivity.
Qed.
(** so every record is underflow *)
Definition under (v : f64) : cell := if fisnan v then CNaN else CStr "UF"%string.
Lemma no_index : forall e v r, fits e v r -> fisnan v = false -> (forall x, In x e -> flt x v = false) -> r = 0%nat.
Proof.
  intros e v r (F1 & F2 & _) NV H. destruct r as [|r]; [reflexivity|exfalso]. 
  destruct F2 as [F2|F2]; [discriminate F2|]. cbn [Nat.sub] in F2. rewrite Nat.sub_0_r in F2. unfold npless in F2. rewrite NV, (H (nth r e fnan)) in F2 by (apply nth_In; lia). discriminate F2.
Qed.
Theorem C114_underflow : forall npq arr n e, wide arr -> (n <= 2 ^ 50)%Z -> bin_edges npq arr n false = Ok e ->
  fst (bin_array arr e) = map under arr /\ fst (bin_array_np arr e) = map under arr.
Proof.
  intros npq arr n e W Hn E. assert (H : forall x v, In x e -> In v arr -> fisnan v = false -> flt x v = false) by (intros x v Hx; apply (C114_edges npq arr n e W Hn E x Hx)). split.
  - rewrite bin_array_fst. apply map_ext_in. intros v Hv. unfold bin1, under. destruct (fisnan v) eqn:NV; [reflexivity|].
    assert (F : fits e v (searchsorted e v)). { unfold searchsorted. destruct (bisect_any (S (length e)) e v 0 (length e) ltac:(lia) ltac:(lia)) as (B1 & B2 & B3). split; [lia|]. split; assumption. }
    rewrite (no_index e v _ F NV) by (intros x Hx; apply (H x v Hx Hv NV)). reflexivity.
  - rewrite bin_array_np_fst. pose proof (np_fits e arr) as F. revert H F. clear E W. generalize (np_searchsorted e arr) as idx. intros idx H F. induction F as [|v r a b F1 F IH]; [reflexivity|]. cbn [combine map fst snd]. f_equal.
    + unfold bin1r, under. destruct (fisnan v) eqn:NV; [reflexivity|]. rewrite (no_index e v _ F1 NV) by (intros x Hx; apply (H x v Hx (or_introl eq_refl) NV)). reflexivity.
    + apply IH. intros x w Hx Hw. apply H; [exact Hx|right; exact Hw].
Qed.
(** a single infinite value is enough; so are two finite values that are too far apart *)
Theorem C114_infinite : forall arr v, In v arr -> infinite v -> wide arr.
Proof.
  intros arr v Hv [FV NV]. exists v, v. repeat split; try assumption. destruct v as [s|[|]| |s q e p]; try discriminate FV; reflexivity.
Qed.
Theorem C114_too_far_apart : forall arr u v, In u arr -> In v arr -> ffin u = true -> ffin v = true -> (bpow radix2 1024 <= f2R v - f2R u)%R -> wide arr.
Proof.
  intros arr u v Hu Hv FU FV D. exists u, v. split; [exact Hu|]. split; [exact Hv|]. split; [destruct u; try discriminate FU; reflexivity|]. split; [destruct v; try discriminate FV; reflexivity|].
  apply (proj2 (overflowed u v FU FV)). eapply Rle_trans; [|apply Rle_abs]. apply rnd_lb; [apply fmt_bpow; lia|exact D].
Qed.
(** with explicit edges infinite values are what one expects: overflow and underflow *)
Theorem C114_explicit_edges : forall arr e, (1 <= length e)%nat -> (forall x, In x e -> ffin x = true) ->
  forall i v, nth_error arr i = Some v -> infinite v ->
  nth_error (fst (bin_array arr e)) i = Some (CStr (if flt v fzero then "UF" else "OF")%string).
Proof.
  intros arr e L FE i v Hv [FV NV]. rewrite bin_array_fst, nth_error_map, Hv. cbn [option_map]. f_equal. unfold bin1. rewrite NV.
  destruct (bisect_any (S (length e)) e v 0 (length e) ltac:(lia) ltac:(lia)) as (B1 & B2 & B3). fold (searchsorted e v) in B1, B2, B3. set (r := searchsorted e v) in *. clearbody r.
  assert (F : forall j, (j < length e)%nat -> ffin (nth j e fnan) = true) by (intros j Hj; apply FE; apply nth_In; exact Hj).
  destruct v as [s|[|]| |s q m p]; try discriminate FV; try discriminate NV.
  - change (flt (B754_infinity true) fzero) with true. cbv iota. replace r with 0%nat; [reflexivity|]. destruct B2 as [B2|B2]; [symmetry; exact B2|exfalso]. destruct r as [|r']; [|].
    + specialize (F 0%nat ltac:(lia)). cbn [Nat.sub] in B2. destruct (nth 0 e fnan); try discriminate F; discriminate B2.
    + specialize (F (S r' - 1)%nat ltac:(lia)). destruct (nth (S r' - 1) e fnan); try discriminate F; discriminate B2.
  - change (flt pinf fzero) with false. cbv iota. assert (RL : r = length e).
    { destruct (Nat.eq_dec r (length e)) as [X|X]; [exact X|exfalso]. specialize (F r ltac:(lia)). destruct B3 as [B3|B3]; [contradiction|]. destruct (nth r e fnan); try discriminate F; discriminate B3. }
    rewrite RL, Nat.eqb_refl. destruct (Nat.eqb_spec (length e) 0); [lia|reflexivity].
Qed.

(** what counts as a record: nothing is left, so the contingency tables with this column are empty on its side *)
Theorem C114_table : forall npq arr n e other d h, wide arr -> (n <= 2 ^ 50)%Z -> bin_edges npq arr n false = Ok e ->
  is_table_of (counted_as d true true) (combine (fst (bin_array arr e)) other) h -> (forall a, In a (h_rows h) -> d = false /\ a = CStr "NaN"%string).
Proof.
  intros npq arr n e other d h W Hn E (T1 & _) a Ha. apply T1 in Ha. destruct Ha as ([x y] & b & R & A & _). cbn [fst] in A. apply in_combine_l in R. rewrite (proj1 (C114_underflow npq arr n e W Hn E)) in R. apply in_map_iff in R. destruct R as (v & <- & Hv). unfold under in A.
  destruct (fisnan v); [|discriminate A]. destruct d; [discriminate A|]. cbn in A. split; [reflexivity|]. congruence.
Qed.
Theorem C114_matrix : forall npq L df interval_cols bins n noise t c c' column arr, lib_ok L -> NoDup (keys df) ->
  let ic := match interval_cols with Some l => l | None => guess_interval_cols df end in
  phik_matrix npq L df interval_cols bins false noise true true true = Ok t ->
  In c ic -> In c (t_index t) -> In c' (t_index t) -> c <> c' -> spec_of bins c = Some (BNum n) -> (n <= 2 ^ 50)%Z ->
  In (c, column) df -> mapM to_float (c_cells column) = Ok arr -> wide arr ->
  tval t c c' = NaN /\ tval t c' c = NaN /\ tval t c c = Fin 1.
Proof.
  intros npq L df icol bins n noise t c c' column arr LO N ic E Ic It It' NE SU Hn Hcol Harr W. pose proof (C31_phik_matrix npq L df icol bins false noise true true true LO N) as M. cbv zeta in M. rewrite E in M. fold ic in M.
  set (kept := filter _ df) in M. destruct M as (f & dict & B & KF & TI & TC & (_ & _ & WF & SY & DI & PV)).
  assert (Kc : In c (filter (fun x => mem x (keys kept)) ic)). { apply filter_In. split; [exact Ic|]. apply mem_In. rewrite <- TI. exact It. }
  destruct (bin_data_spec _ _ _ _ _ _ _ B) as (_ & _ & S3). destruct (S3 c Kc) as (column' & arr' & e & A1 & A2 & A3 & A4 & _); [unfold supported; rewrite SU; exact I|].
  assert (column' = column). { apply assoc_In in A1. unfold kept in A1. apply filter_In in A1. destruct A1 as [A1 _]. pose proof (assoc_NoDup _ _ _ _ N A1) as X1. pose proof (assoc_NoDup _ _ _ _ N Hcol) as X2. congruence. }
  subst column'. assert (arr' = arr) by congruence. subst arr'. unfold asks_for in A3. rewrite SU in A3.
  set (x := mkCol false (fst (bin_array arr e))) in *. assert (Hx : In (c, x) f) by (apply assoc_In; exact A4).
  assert (exists y, In (c', y) f) as (y & Hy). { rewrite TI, <- KF in It'. apply in_map_iff in It'. destruct It' as ([a y] & E1 & Hy). cbn in E1. subst a. exists y. exact Hy. }
  assert (T : tval t c c' = NaN).
  {
    destruct (hist2d_rebinned_spec c c' x y true true true) as (h & _ & T). destruct (PV c x c' y h Hx Hy NE T) as [[_ V]|[[P _] _]]; [exact V|exfalso].
    cbn [hmat nr] in P. destruct (h_rows h) as [|a l] eqn:HR; [cbn in P; lia|]. destruct (C114_table npq arr n e (c_cells y) true h W Hn A3 T a) as [X _]; [rewrite HR; left; reflexivity|discriminate X].
  }
  split; [exact T|]. split; [rewrite SY; exact T|]. apply DI. rewrite KF, <- TI. exact It.
Qed.
(** one infinite value among [n] otherwise ordinary ones *)
Theorem C114_example : forall npq L, lib_ok L -> lib_converges L ->
  let f := [("v", mkCol true [CInt 1; CInt 2; CInt 3; CFlt (mkK pinf eq_refl)]); ("w", mkCol false [CStr "a"; CStr "a"; CStr "b"; CStr "b"])]%string in
  exists t, phik_matrix npq L f None (BOne (BNum 10)) false true true true true = Ok t /\ tval t "v" "w" = NaN /\ tval t "v" "v" = Fin 1.
Proof.
  intros npq L LO LC f. assert (N : NoDup (keys f)) by (repeat constructor; cbn; intuition congruence).
  pose proof (C31_phik_matrix npq L f None (BOne (BNum 10)) false true true true true LO N) as M. cbv zeta in M.
  destruct (phik_matrix npq L f None (BOne (BNum 10)) false true true true true) as [t|e] eqn:E.
  - exists t. split; [reflexivity|]. destruct M as (_ & _ & _ & _ & TI & _). assert (TI' : t_index t = ["v"; "w"]%string) by (rewrite TI; vm_compute; reflexivity).
    destruct (C114_matrix npq L f None (BOne (BNum 10)) 10 true t "v" "w" (mkCol true [CInt 1; CInt 2; CInt 3; CFlt (mkK pinf eq_refl)]) [ofZ 1; ofZ 2; ofZ 3; pinf] LO N E) as (A & _ & D); try reflexivity.
    + left. reflexivity.
    + rewrite TI'. left. reflexivity.
    + rewrite TI'. right. left. reflexivity.
    + discriminate.
    + lia.
    + left. reflexivity.
    + apply (C114_infinite _ pinf); [right; right; right; left; reflexivity|split; reflexivity].
    + split; assumption.
  - exfalso. destruct M as [M|[_ M]]; [|contradiction]. assert (X : match bin_data npq (filter (fun p => Nat.leb 2 (nunique (snd p)) || (Nat.eqb (nunique (snd p)) 1 && negb true && negb (mem (fst p) (guess_interval_cols f)))) f)
       (filter (fun c => mem c (keys (filter (fun p => Nat.leb 2 (nunique (snd p)) || (Nat.eqb (nunique (snd p)) 1 && negb true && negb (mem (fst p) (guess_interval_cols f)))) f))) (guess_interval_cols f)) (BOne (BNum 10)) false with Ok _ => true | _ => false end = true) by (vm_compute; reflexivity).
    rewrite M in X. discriminate.
Qed.
(** with the same columns and 4 in place of infinity the edges do separate the values *)
Theorem C114_contrast : forall npq, 
  rmap (fun e => fst (bin_array [ofZ 1; ofZ 2; ofZ 3; ofZ 4] e)) (bin_edges npq [ofZ 1; ofZ 2; ofZ 3; ofZ 4] 2 false) = Ok [CInt 1; CInt 1; CInt 2; CInt 2] /\
  rmap (fun e => fst (bin_array [ofZ 1; ofZ 2; ofZ 3; pinf] e)) (bin_edges npq [ofZ 1; ofZ 2; ofZ 3; pinf] 2 false) = Ok [CStr "UF"; CStr "UF"; CStr "UF"; CStr "UF"]%string /\
  (exists e, bin_edges npq [(flit 9007199254740991 971); fopp (flit 9007199254740991 971)] 2 false = Ok e /\ fst (bin_array [(flit 9007199254740991 971); fopp (flit 9007199254740991 971)] e) = [CStr "UF"; CStr "UF"]%string).
Proof. intros npq. split; [vm_compute; reflexivity|]. split; [vm_compute; reflexivity|]. eexists. split; [cbn [bin_edges]; unfold bin_edges, linspace; reflexivity|]. vm_compute. reflexivity. Qed.
Print Assumptions C114_edges. Print Assumptions C114_matrix. Print Assumptions C114_example.
