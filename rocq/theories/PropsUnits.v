(** C96: does the unit of an interval variable matter? *)
From Coq Require Import String ZArith List Bool Reals Lia Lra Permutation Sorted.
From Flocq Require Import Core.
Import ListNotations.
From Verif Require Import F64 Base Cells BinModel SpecBin BinProofs LinspaceProofs SpecChi2F Chi2FProofs BrentFProofs QuantileModel SpecQuantile QuantileProofs QuantileFModel SpecUnits.
Open Scope list_scope.
Open Scope R_scope.

(** ** quantile bins, exact arithmetic: any increasing transformation gives the same bins *)
Lemma rinsert_map : forall f x l, (forall u, In u l -> x < u -> f x < f u) -> (forall u, In u l -> u < x -> f u < f x) -> rinsert (f x) (map f l) = map f (rinsert x l).
Proof.
  induction l as [|y l IH]; intros H1 H2; [reflexivity|]. cbn [map rinsert]. destruct (Rle_dec x y) as [L|L], (Rle_dec (f x) (f y)) as [L'|L']; [reflexivity| | |].
  - exfalso. destruct L as [L|L]; [specialize (H1 y (or_introl eq_refl) L); lra|subst; lra].
  - exfalso. specialize (H2 y (or_introl eq_refl) ltac:(lra)). lra.
  - cbn [map]. f_equal. apply IH; intros u Hu; [apply H1; right; exact Hu|apply H2; right; exact Hu].
Qed.
Lemma rsort_map : forall f l, increasing_on f l -> rsort (map f l) = map f (rsort l).
Proof.
  induction l as [|x l IH]; intros H; [reflexivity|]. cbn [map rsort fold_right]. fold (rsort (map f l)) (rsort l). rewrite IH by (intros u v Hu Hv; apply H; right; assumption).
  apply rinsert_map; intros u Hu L; (assert (In u l) by (eapply Permutation_in; [apply Permutation_sym, rsort_perm|exact Hu])); (apply H; [|  |exact L]); cbn; auto.
Qed.
Lemma nth_map_lt : forall (f : R -> R) l i, (i < length l)%nat -> nth i (map f l) 0 = f (nth i l 0).
Proof. intros f l i H. rewrite (nth_indep _ 0 (f 0)) by (rewrite map_length; exact H). apply map_nth. Qed.
Lemma nth_map_seq : forall (F : nat -> R) n s k, (k < n)%nat -> nth k (map F (seq s n)) 0 = F (s + k)%nat.
Proof. induction n as [|n IH]; intros s k H; [lia|]. destruct k as [|k]; cbn [seq map nth]; [f_equal; lia|]. rewrite IH by lia. f_equal. lia. Qed.
Lemma edges_nth : forall off vals nb k, (k <= nb)%nat -> nth k (quantile_edges off vals nb) 0 = np_quantile1 vals (INR k / INR nb) - (if Nat.eqb k 0 then off else 0).
Proof.
  intros off vals nb k Hk. unfold quantile_edges, quantile_points. rewrite Nat.add_1_r. cbn [seq map]. destruct k as [|k]; [reflexivity|]. cbn [nth Nat.eqb].
  rewrite map_map, nth_map_seq by lia. replace (1 + k)%nat with (S k) by lia. lra.
Qed.
Theorem C96_quantile_monotone : forall f vals nb off off', vals <> [] -> (1 <= nb)%nat -> 0 < off -> 0 < off' -> increasing_on f vals ->
  forall v k, In v vals -> (k <= nb)%nat ->
  (nth k (quantile_edges off' (map f vals) nb) 0 < f v <-> nth k (quantile_edges off vals nb) 0 < v).
Proof.
  intros f vals nb off off' NE NB OF OF' INC v k Hv Hk. rewrite !edges_nth by exact Hk.
  assert (NE' : map f vals <> []) by (destruct vals; [contradiction|discriminate]).
  assert (WI : forall u w, In u vals -> In w vals -> u <= w -> f u <= f w). { intros u w Hu Hw [L| ->]; [left; apply INC; assumption|right; reflexivity]. }
  assert (IFF : forall u w, In u vals -> In w vals -> (f u < f w <-> u < w)). { intros u w Hu Hw. split; [|apply INC; assumption]. intros L. destruct (Rlt_dec u w) as [Q|Q]; [exact Q|]. specialize (WI w u Hw Hu ltac:(lra)). lra. }
  assert (LA : length (rsort vals) = length vals) by (symmetry; apply Permutation_length, rsort_perm).
  assert (INA : forall i, (i < length vals)%nat -> In (nth i (rsort vals) 0) vals) by (intros i Hi; eapply Permutation_in; [apply Permutation_sym, rsort_perm|apply nth_In; lia]).
  destruct (q_val vals nb NB k Hk) as (g & G & _ & GZ & J & GE & QE). destruct (q_val (map f vals) nb NB k Hk) as (g' & G' & _ & GZ' & J' & GE' & QE').
  rewrite map_length in *. set (n1 := (length vals - 1)%nat) in *. set (j := (k * n1 / nb)%nat) in *. assert (g' = g) by lra. subst g'. rewrite rsort_map in QE' by exact INC.
  assert (NZ : (0 < length vals)%nat) by (destruct vals; [contradiction|cbn; lia]). rewrite !nth_map_lt in QE' by (unfold n1 in *; lia).
  set (x := nth j (rsort vals) 0) in *. set (y := nth (Nat.min (j + 1) n1) (rsort vals) 0) in *.
  assert (Hx : In x vals) by (apply INA; unfold n1 in *; lia). assert (Hy : In y vals) by (apply INA; unfold n1 in *; lia).
  assert (XY : x <= y) by (apply sorted_nth; [apply rsort_sorted|rewrite LA; unfold n1 in *; lia]).
  pose proof (WI x y Hx Hy XY) as FXY.
  assert (SPLIT : v <= x \/ y <= v).
  { assert (In v (rsort vals)) by (eapply Permutation_in; [apply rsort_perm|exact Hv]). destruct (In_nth _ _ 0 H) as (i & Hi & <-). rewrite LA in Hi.
    destruct (le_lt_dec i j) as [Q|Q]; [left; apply sorted_nth; [apply rsort_sorted|rewrite LA; unfold n1 in *; lia]|right; apply sorted_nth; [apply rsort_sorted|rewrite LA; unfold n1 in *; lia]]. }
  rewrite QE, QE'. destruct (Nat.eqb_spec k 0) as [K0|K0].
  - rewrite (GZ K0). assert (MIN : x <= v).
    { unfold x. assert (j = 0)%nat as -> by (unfold j; rewrite K0; cbn; apply Nat.div_0_l; lia). assert (In v (rsort vals)) by (eapply Permutation_in; [apply rsort_perm|exact Hv]). destruct (In_nth _ _ 0 H) as (i & Hi & <-). apply sorted_nth; [apply rsort_sorted|lia]. }
    pose proof (WI x v Hx Hv MIN). split; intros _; lra.
  - rewrite !Rminus_0_r. destruct SPLIT as [S|S].
    + pose proof (WI v x Hv Hx S). split; intros L; exfalso; nra.
    + pose proof (WI y v Hy Hv S). destruct (Rle_lt_or_eq_dec x y XY) as [L|E].
      * pose proof (INC x y Hx Hy L). split; intros _; nra.
      * rewrite <- E in *. replace (f x + g * (f x - f x)) with (f x) by ring. replace (x + g * (x - x)) with x by ring. apply IFF; assumption.
Qed.

(** decreasing maps do not: 1, 2, 3 with two bins *)
Theorem C96_reflection_refuted : forall off, 0 < off < 1 ->
  (nth 1 (quantile_edges off [1; 2; 3] 2) 0 < 2 <-> False) /\ (nth 1 (quantile_edges off [1; 2; 3] 2) 0 < 1 <-> False) /\ nth 1 (quantile_edges off [1; 2; 3] 2) 0 < 3 /\
  ((nth 1 (quantile_edges off (map Ropp [1; 2; 3]) 2) 0 < - 2) <-> False) /\ ((nth 1 (quantile_edges off (map Ropp [1; 2; 3]) 2) 0 < - 3) <-> False) /\
  nth 1 (quantile_edges off (map Ropp [1; 2; 3]) 2) 0 < - 1.
Proof.
  intros off H. rewrite !edges_nth by lia. cbn [Nat.eqb].
  destruct (q_val [1; 2; 3] 2 ltac:(lia) 1%nat ltac:(lia)) as (g & G & _ & _ & _ & GE & ->). destruct (q_val (map Ropp [1; 2; 3]) 2 ltac:(lia) 1%nat ltac:(lia)) as (g' & G' & _ & _ & _ & GE' & ->).
  cbn [map length Nat.sub Nat.mul Nat.add] in *. change (2 / 2)%nat with 1%nat in *. change (Nat.min 2 2) with 2%nat. simpl INR in GE, GE'. assert (g = 0) by lra. assert (g' = 0) by lra. subst g g'.
  assert (S1 : rsort [1; 2; 3] = [1; 2; 3]) by (unfold rsort; cbn; repeat (destruct (Rle_dec _ _); try lra; cbn); reflexivity).
  assert (S2 : rsort [- (1); - (2); - (3)] = [- (3); - (2); - (1)]) by (unfold rsort; cbn; repeat (destruct (Rle_dec _ _); try lra; cbn); reflexivity).
  rewrite S1, S2. cbn [nth]. repeat split; intros; try contradiction; lra.
Qed.

(** ** uniform bins, binary64 *)
Lemma tiny_bounds : 99 / 10 ^ 16 <= f2R tiny <= 101 / 10 ^ 16.
Proof. pose proof dl_val as H. unfold dl in H. rewrite H. lra. Qed.
Lemma edge_close : forall npq arr n lo hi e, data_range arr lo hi -> (1 <= n <= 2 ^ 50)%Z -> bin_edges npq arr n false = Ok e ->
  forall k, (k <= Z.to_nat n)%nat -> Rabs (f2R (nth k e fnan) - ideal_edge (f2R lo) (f2R hi) n k) <= edge_err (f2R lo) (f2R hi).
Proof.
  intros npq arr n lo hi e D N E k K. pose proof (bin_edges_near npq arr n lo hi e D N E) as B. cbn zeta in B. specialize (B k K). set (a := rnd (f2R lo - f2R tiny)) in *.
  destruct D as (_ & _ & _ & Fl & Fh & _). pose proof tiny_bounds as T. pose proof (rnd_minus_err (f2R lo) (f2R tiny) (fmt_B2R _) (fmt_B2R _)) as R. fold a in R.
  assert (U : u53 = / 9007199254740992) by (unfold u53; lra). pose proof b2_m50 as B50.
  assert (A : Rabs (f2R lo - f2R tiny) <= Rabs (f2R lo) + 101 / 10 ^ 16). { eapply Rle_trans; [apply Rabs_triang|]. rewrite Rabs_Ropp, (Rabs_pos_eq (f2R tiny)) by lra. lra. }
  assert (NN : 1 <= IZR n) by (apply (IZR_le 1); lia). assert (KN : 0 <= INR k / IZR n <= 1).
  { split; [apply Rmult_le_pos; [apply pos_INR|left; apply Rinv_0_lt_compat; lra]|]. apply Rmult_le_reg_r with (IZR n); [lra|]. unfold Rdiv. rewrite Rmult_assoc, Rinv_l by lra. rewrite INR_IZR_INZ, Rmult_1_l, Rmult_1_r. apply IZR_le. lia. }
  unfold ideal_edge, edge_err. set (x := f2R (nth k e fnan)) in *. set (l := f2R lo) in *. set (h := f2R hi) in *. set (t := f2R tiny) in *. set (q := INR k / IZR n) in *.
  replace (INR k * ((h - a) / IZR n)) with (q * (h - a)) in B by (unfold q; field; lra). replace (INR k * ((h - l) / IZR n)) with (q * (h - l)) by (unfold q; field; lra).
  replace (x - (l + q * (h - l))) with ((x - (a + q * (h - a))) + (1 - q) * (a - l)) by ring.
  assert (AL : Rabs (a - l) <= t + u53 * Rabs (l - t)). { replace (a - l) with ((a - (l - t)) + - t) by ring. eapply Rle_trans; [apply Rabs_triang|]. rewrite Rabs_Ropp, (Rabs_pos_eq t) by lra. lra. }
  assert (AA : Rabs a <= Rabs l + Rabs (a - l)). { replace a with (l + (a - l)) at 1 by ring. apply Rabs_triang. }
  eapply Rle_trans; [apply Rabs_triang|]. rewrite Rabs_mult, (Rabs_pos_eq (1 - q)) by lra. rewrite U in *. rewrite B50 in B. pose proof (Rabs_pos l). pose proof (Rabs_pos h). pose proof (Rabs_pos (a - l)). pose proof (Rabs_pos (l - t)). 
  assert ((1 - q) * Rabs (a - l) <= Rabs (a - l)) by nra. lra.
Qed.
Lemma unit_range : forall a b d arr arr' lo hi lo' hi', 0 < a -> in_other_unit a b d arr arr' -> data_range arr lo hi -> data_range arr' lo' hi' ->
  Rabs (f2R lo' - (a * f2R lo + b)) <= d /\ Rabs (f2R hi' - (a * f2R hi + b)) <= d.
Proof.
  intros a b d arr arr' lo hi lo' hi' A U (_ & L1 & H1 & FL & FH & R1) (_ & L2 & H2 & FL' & FH' & R2).
  assert (FW : forall v, In v arr -> fisnan v = false -> exists w, In w arr' /\ fisnan w = false /\ Rabs (f2R w - (a * f2R v + b)) <= d).
  { clear - U. induction U as [|v w l l' [N B] U IH]; intros u Hu F; [contradiction|]. destruct Hu as [<-|Hu]; [exists w; cbn; split; [auto|]; split; [congruence|auto]|]. destruct (IH u Hu F) as (x & X & Y). exists x. cbn. tauto. }
  assert (BW : forall w, In w arr' -> fisnan w = false -> exists v, In v arr /\ fisnan v = false /\ Rabs (f2R w - (a * f2R v + b)) <= d).
  { clear - U. induction U as [|v w l l' [N B] U IH]; intros u Hu F; [contradiction|]. destruct Hu as [<-|Hu]; [exists v; cbn; split; [auto|]; split; [congruence|apply B; congruence]|]. destruct (IH u Hu F) as (x & X & Y). exists x. cbn. tauto. }
  destruct (FW lo L1 (fin_not_nan _ FL)) as (w1 & W1 & N1 & B1). destruct (BW lo' L2 (fin_not_nan _ FL')) as (v1 & V1 & M1 & C1).
  destruct (FW hi H1 (fin_not_nan _ FH)) as (w2 & W2 & N2 & B2). destruct (BW hi' H2 (fin_not_nan _ FH')) as (v2 & V2 & M2 & C2).
  pose proof (R2 w1 W1 N1). pose proof (R1 v1 V1 M1). pose proof (R2 w2 W2 N2). pose proof (R1 v2 V2 M2). apply Rabs_le_inv in B1, C1, B2, C2. split; apply Rabs_le; nra.
Qed.
(** the bin of a record changes only if the record is close to an interior edge (or is the smallest value and gets lost, C04) *)
Theorem C96_change_of_units : forall npq npq' arr arr' lo hi lo' hi' n a b d, data_range arr lo hi -> data_range arr' lo' hi' -> (1 <= n <= 2 ^ 50)%Z -> 0 < a -> in_other_unit a b d arr arr' ->
  exists e e', bin_edges npq arr n false = Ok e /\ bin_edges npq' arr' n false = Ok e' /\
  forall i, (i < length arr)%nat -> let v := nth i arr fnan in let w := nth i arr' fnan in
    let c := nth i (fst (bin_array arr e)) CNaN in let c' := nth i (fst (bin_array arr' e')) CNaN in
    (fisnan v = true -> c = CNaN /\ c' = CNaN) /\
    (fisnan v = false -> keeps_smallest lo \/ f2R lo < f2R v -> keeps_smallest lo' \/ f2R lo' < f2R w ->
     (forall k, (1 <= k < Z.to_nat n)%nat -> edge_err (f2R lo) (f2R hi) + (2 * d + edge_err (f2R lo') (f2R hi')) / a < Rabs (f2R v - ideal_edge (f2R lo) (f2R hi) n k)) ->
     c = c' /\ exists j, (1 <= j <= n)%Z /\ c = CInt j).
Proof.
  intros npq npq' arr arr' lo hi lo' hi' n a b d D D' N A U. destruct (unit_range a b d arr arr' lo hi lo' hi' A U D D') as [UL UH].
  destruct (bin_edges_uniform npq arr n lo hi D N) as (e & E1 & E2 & E3 & E4 & E5 & E6). destruct (bin_edges_uniform npq' arr' n lo' hi' D' N) as (e' & E1' & E2' & E3' & E4' & E5' & E6').
  exists e, e'. split; [exact E1|]. split; [exact E1'|]. intros i Hi v w c c'.
  assert (LEN : length arr' = length arr) by (clear - U; induction U; cbn; congruence).
  assert (UV : fisnan v = fisnan w /\ (fisnan v = false -> Rabs (f2R w - (a * f2R v + b)) <= d)).
  { unfold v, w. clear - U Hi. revert i Hi. induction U as [|x y l l' P U IH]; intros i Hi; cbn [length] in Hi; [lia|]. destruct i as [|i]; [exact P|]. apply IH. lia. }
  assert (CE : c = bin1 e v). { unfold c, v. rewrite bin_array_fst. rewrite (nth_indep _ CNaN (bin1 e fnan)) by (rewrite map_length; exact Hi). apply map_nth. }
  assert (CE' : c' = bin1 e' w). { unfold c', w. rewrite bin_array_fst. rewrite (nth_indep _ CNaN (bin1 e' fnan)) by (rewrite map_length, LEN; exact Hi). apply map_nth. }
  pose proof (bin1_spec e v ltac:(lia) E3) as B. pose proof (bin1_spec e' w ltac:(lia) E3') as B'. rewrite <- CE in B. rewrite <- CE' in B'. destruct UV as [UN UB]. split.
  - intros F. split; [apply (bin_of_unique e v); [exact E3|exact B|constructor; exact F]|apply (bin_of_unique e' w); [exact E3'|exact B'|constructor; congruence]].
  - intros F KV KW M. specialize (UB F). assert (IV : In v arr) by (apply nth_In; exact Hi). assert (IW : In w arr') by (apply nth_In; lia).
    pose proof (edge_close npq arr n lo hi e D N E1) as EC. pose proof (edge_close npq' arr' n lo' hi' e' D' N E1') as EC'.
    destruct D as (DF & _ & _ & FL & FH & DR). destruct D' as (DF' & _ & _ & FL' & FH' & DR'). assert (F' : fisnan w = false) by congruence.
    destruct (DF v IV F) as [FV _]. destruct (DF' w IW F') as [FW _]. pose proof (DR v IV F) as RV. pose proof (DR' w IW F') as RW.
    assert (FE : forall k, (k <= Z.to_nat n)%nat -> ffin (nth k e fnan) = true) by (intros k K; apply E4, nth_In; lia). assert (FE' : forall k, (k <= Z.to_nat n)%nat -> ffin (nth k e' fnan) = true) by (intros k K; apply E4', nth_In; lia).
    assert (LOW : forall x y, keeps_smallest x \/ f2R x < f2R y -> f2R x <= f2R y -> rnd (f2R x - f2R tiny) < f2R y).
    { intros x y [K|K] XY; [pose proof (off_effective (f2R x) (fmt_B2R _) K) as Q; fold dl; assert (0 < b2 (-49)) by apply bpow_gt_0; lra|].
      assert (rnd (f2R x - f2R tiny) <= f2R x) by (rewrite <- (rnd_id (f2R x)) at 2 by apply fmt_B2R; apply rnd_le; pose proof tiny_bounds; lra). lra. }
    assert (TR : forall k, (1 <= k < Z.to_nat n)%nat -> (f2R (nth k e fnan) < f2R v -> f2R (nth k e' fnan) < f2R w) /\ (f2R v <= f2R (nth k e fnan) -> f2R w <= f2R (nth k e' fnan))).
    { intros k K. specialize (M k K). specialize (EC k ltac:(lia)). specialize (EC' k ltac:(lia)).
      assert (KN : 0 <= INR k / IZR n <= 1).
      { assert (1 <= IZR n) by (apply (IZR_le 1); lia). split; [apply Rmult_le_pos; [apply pos_INR|left; apply Rinv_0_lt_compat; lra]|]. apply Rmult_le_reg_r with (IZR n); [lra|]. unfold Rdiv. rewrite Rmult_assoc, Rinv_l by lra. rewrite INR_IZR_INZ, Rmult_1_l, Rmult_1_r. apply IZR_le. lia. }
      unfold ideal_edge in *. set (q := INR k / IZR n) in *. replace (INR k * ((f2R hi - f2R lo) / IZR n)) with (q * (f2R hi - f2R lo)) in * by (unfold q, Rdiv; ring). replace (INR k * ((f2R hi' - f2R lo') / IZR n)) with (q * (f2R hi' - f2R lo')) in * by (unfold q, Rdiv; ring).
      set (E := edge_err (f2R lo) (f2R hi)) in *. set (E' := edge_err (f2R lo') (f2R hi')) in *. set (I := f2R lo + q * (f2R hi - f2R lo)) in *. set (I' := f2R lo' + q * (f2R hi' - f2R lo')) in *.
      assert (II : Rabs (I' - (a * I + b)) <= d).
      { replace (I' - (a * I + b)) with ((1 - q) * (f2R lo' - (a * f2R lo + b)) + q * (f2R hi' - (a * f2R hi + b))) by (unfold I, I'; ring). apply Rabs_le_inv in UL, UH. apply Rabs_le. split; nra. }
      assert (M' : a * E + 2 * d + E' < a * Rabs (f2R v - I)).
      { apply Rmult_lt_compat_l with (r := a) in M; [|exact A]. replace (a * (E + (2 * d + E') / a)) with (a * E + 2 * d + E') in M by (field; lra). exact M. }
      apply Rabs_le_inv in II, EC, EC', UB. assert (0 <= E) by (unfold E, edge_err; pose proof (Rabs_pos (f2R lo)); pose proof (Rabs_pos (f2R hi)); lra). assert (0 <= d) by lra. assert (0 <= E') by (unfold E', edge_err; pose proof (Rabs_pos (f2R lo')); pose proof (Rabs_pos (f2R hi')); lra).
      unfold Rabs in M'. destruct (Rcase_abs (f2R v - I)) as [S|S]; split; intros Q; nra. }
    destruct (bin_of_cases e v c E3 ltac:(lia) FV E4) as [[Q _]|[Q (j & J & CJ)]]; [replace (length e - 1)%nat with (Z.to_nat n) by lia; lra|exact B| |].
    { exfalso. rewrite E5 in Q. pose proof (LOW lo v KV ltac:(lra)). lra. }
    split; [|exists (Z.of_nat j); split; [lia|exact CJ]].
    apply (bin_of_unique e' w); [exact E3'| |exact B']. rewrite CJ. rewrite CJ in B. inversion B as [| | |j' J' B1 B2 EQ]. apply Nat2Z.inj in EQ. subst j'.
    apply flt_spec in B1; [|apply FE; lia|exact FV]. apply fle_spec in B2; [|exact FV|apply FE; lia].
    constructor; [lia| |].
    + apply flt_spec; [apply FE'; lia|exact FW|]. destruct (Nat.eq_dec j 1) as [-> |NJ]; [cbn [Nat.sub]; rewrite E5'; apply LOW; [exact KW|lra]|]. apply (TR (j - 1)%nat); [lia|exact B1].
    + apply fle_spec; [exact FW|apply FE'; lia|]. destruct (Nat.eq_dec j (Z.to_nat n)) as [-> |NJ]; [rewrite E6'; lra|]. apply (TR j); [lia|exact B2].
Qed.

(** ** small units: when every value is below 1e-14 / (4 n) in size, all records fall into the last bin *)
Theorem C96_small_units_collapse : forall npq arr n lo hi, data_range arr lo hi -> (1 <= n <= 2 ^ 40)%Z -> (forall v, In v arr -> fisnan v = false -> Rabs (f2R v) * IZR n <= 24 / 10 ^ 16) ->
  exists e, bin_edges npq arr n false = Ok e /\ Forall2 (fun v c => (fisnan v = true -> c = CNaN) /\ (fisnan v = false -> c = CInt n)) arr (fst (bin_array arr e)).
Proof.
  intros npq arr n lo hi D N S. assert (N' : (1 <= n <= 2 ^ 50)%Z) by lia. destruct (bin_edges_uniform npq arr n lo hi D N') as (e & E1 & E2 & E3 & E4 & E5 & E6). exists e. split; [exact E1|].
  pose proof (bin_edges_near npq arr n lo hi e D N' E1) as NR. cbn zeta in NR. destruct D as (DF & LI & HI & FL & FH & DR). specialize (NR (Z.to_nat n - 1)%nat ltac:(lia)). set (a := rnd (f2R lo - f2R tiny)) in *.
  pose proof (S lo LI (fin_not_nan _ FL)) as SL. pose proof (S hi HI (fin_not_nan _ FH)) as SH. pose proof tiny_bounds as T.
  assert (NN : 1 <= IZR n <= 1099511627776) by (split; [apply (IZR_le 1); lia|apply IZR_le; lia]).
  pose proof (rnd_minus_err (f2R lo) (f2R tiny) (fmt_B2R _) (fmt_B2R _)) as RM. fold a in RM. assert (U : u53 = / 9007199254740992) by reflexivity. rewrite U in RM. pose proof b2_m50 as B50. rewrite B50 in NR.
  set (x := f2R (nth (Z.to_nat n - 1) e fnan)) in *. set (l := f2R lo) in *. set (h := f2R hi) in *. set (t := f2R tiny) in *. set (m := IZR n) in *.
  assert (BL : Rabs l <= 24 / 10 ^ 16) by (pose proof (Rabs_pos l); nra). assert (BH : Rabs h <= 24 / 10 ^ 16) by (pose proof (Rabs_pos h); nra).
  assert (LT : Rabs (l - t) <= 125 / 10 ^ 16) by (apply Rabs_le_inv in BL; apply Rabs_le; lra).
  assert (AU : a <= l - 98 / 10 ^ 16). { apply Rabs_le_inv in RM. clear - RM T LT. clearbody a t l. lra. } assert (AB : Rabs a <= 126 / 10 ^ 16). { pose proof (Rabs_le_inv _ _ LT) as LT'. apply Rabs_le_inv in RM. clear - RM LT LT'. clearbody a t l. apply Rabs_le. lra. }
  assert (X : x * m < - (24 / 10 ^ 16)).
  { assert (KE : INR (Z.to_nat n - 1) = m - 1). { rewrite INR_IZR_INZ, Nat2Z.inj_sub by lia. rewrite Z2Nat.id by lia. cbn. rewrite minus_IZR. reflexivity. }
    rewrite KE in NR. assert (Q : (m - 1) * ((h - a) / m) = h - a - (h - a) / m) by (field; lra). rewrite Q in NR. apply Rabs_le_inv in NR.
    assert (NB : x <= h - (h - a) / m + 1 / 10 ^ 28) by lra. apply Rle_lt_trans with ((h - (h - a) / m + 1 / 10 ^ 28) * m); [apply Rmult_le_compat_r; lra|].
    replace ((h - (h - a) / m + 1 / 10 ^ 28) * m) with (h * m - (h - a) + 1 / 10 ^ 28 * m) by (field; lra).
    assert (h * m <= 24 / 10 ^ 16) by (pose proof (Rle_abs h); nra). assert (LH : l <= h) by apply (DR lo LI (fin_not_nan _ FL)). clearbody a t l h m x. clear - H LH AU NN. nra. }
  assert (HB := bin_array_spec arr e ltac:(lia) E3). clear LI HI. 
  assert (GEN : forall l1 l2, Forall2 (bin_of e) l1 l2 -> (forall v, In v l1 -> In v arr) -> Forall2 (fun v c => (fisnan v = true -> c = CNaN) /\ (fisnan v = false -> c = CInt n)) l1 l2).
  { clear HB. induction 1 as [|v c l1 l2 H HB IH]; intros IN; constructor; [|apply IH; intros w Hw; apply IN; right; exact Hw]. specialize (IN v (or_introl eq_refl)). split; intros F.
    - apply (bin_of_unique e v); [exact E3|exact H|constructor; exact F].
    - apply (bin_of_unique e v); [exact E3|exact H|]. destruct (DF v IN F) as [FV _]. pose proof (DR v IN F) as RV. pose proof (S v IN F) as SV.
      rewrite <- (Z2Nat.id n) by lia. constructor; [lia| |].
      + apply flt_spec; [apply E4, nth_In; lia|exact FV|]. fold x. pose proof (Rle_abs (- f2R v)) as Q. rewrite Rabs_Ropp in Q. fold m in SV. assert (x * m < f2R v * m) by nra. apply Rmult_lt_reg_r with m; [lra|exact H0].
      + apply fle_spec; [exact FV|apply E4, nth_In; lia|]. rewrite E6. apply RV. }
  apply GEN; [exact HB|auto].
Qed.

(** ** concrete cases *)
(** the same four lengths in two units: two bins of two records, or one bin of four *)
Definition kilo : list f64 := map ofZ [1; 2; 3; 4]%Z.
Definition small : list f64 := map (fun z => flit z (-60)) [1; 2; 3; 4]%Z.
Definition cells_of (r : res (list f64)) (arr : list f64) : list cell := match r with Ok e => fst (bin_array arr e) | _ => [] end.
Theorem C96_units_refuted : forall npq,
  in_other_unit (bpow radix2 (-60)) 0 0 kilo small /\
  cells_of (bin_edges npq kilo 2 false) kilo = [CInt 1; CInt 1; CInt 2; CInt 2] /\
  cells_of (bin_edges npq small 2 false) small = [CInt 2; CInt 2; CInt 2; CInt 2].
Proof.
  intros npq. split; [|split; vm_compute; reflexivity].
  assert (G : forall z, (1 <= z <= 4)%Z -> fisnan (ofZ z) = fisnan (flit z (-60)) /\ (fisnan (ofZ z) = false -> Rabs (f2R (flit z (-60)) - (bpow radix2 (-60) * f2R (ofZ z) + 0)) <= 0)).
  { intros z Hz. assert (E : f2R (ofZ z) = IZR z) by (apply ofZ_spec; lia). assert (E' : f2R (flit z (-60)) = IZR z * bpow radix2 (-60)).
    { apply flit_spec; lia. }
    split; [assert (z = 1 \/ z = 2 \/ z = 3 \/ z = 4)%Z as [-> |[-> |[-> | -> ]]] by lia; reflexivity|]. intros _. rewrite E, E'. replace (_ - _) with 0 by ring. rewrite Rabs_R0. lra. }
  unfold in_other_unit, kilo, small. cbn [map]. repeat (apply Forall2_cons; [apply G; lia|]). apply Forall2_nil.
Qed.
(** adjacent floats: quantile bins in binary64 are not invariant under an increasing (even affine) transformation *)
Definition four : list f64 := map ofZ [1; 2; 3; 4]%Z.
Definition near_one : list f64 := map (fun z => flit (2 ^ 52 + z) (-52)) [0; 1; 2; 3]%Z.
Theorem C96_quantile_binary64_refuted :
  in_other_unit (bpow radix2 (-52)) (1 - bpow radix2 (-52)) 0 four near_one /\
  cells_of (bin_edges np_quantile64 four 2 true) four = [CInt 1; CInt 1; CInt 2; CInt 2] /\
  cells_of (bin_edges np_quantile64 near_one 2 true) near_one = [CInt 1; CInt 1; CInt 1; CInt 2].
Proof.
  split; [|split; vm_compute; reflexivity].
  assert (G : forall z, (0 <= z <= 3)%Z -> fisnan (ofZ (z + 1)) = fisnan (flit (2 ^ 52 + z) (-52)) /\ (fisnan (ofZ (z + 1)) = false -> Rabs (f2R (flit (2 ^ 52 + z) (-52)) - (bpow radix2 (-52) * f2R (ofZ (z + 1)) + (1 - bpow radix2 (-52)))) <= 0)).
  { intros z Hz. destruct (flit_spec (2 ^ 52 + z) (-52)) as [E' F']; try lia. destruct (ofZ_spec (z + 1)) as [E F]; [lia|]. split; [rewrite !fin_not_nan by assumption; reflexivity|]. intros _. rewrite E, E', !plus_IZR.
    replace (IZR (2 ^ 52)) with (/ bpow radix2 (-52)) by (rewrite <- bpow_opp; reflexivity). match goal with |- Rabs ?x <= _ => replace x with 0 end; [rewrite Rabs_R0; lra|]. field. apply Rgt_not_eq, bpow_gt_0. }
  unfold in_other_unit, four, near_one. cbn [map]. apply Forall2_cons; [apply (G 0%Z); lia|]. apply Forall2_cons; [apply (G 1%Z); lia|]. apply Forall2_cons; [apply (G 2%Z); lia|]. apply Forall2_cons; [apply (G 3%Z); lia|]. apply Forall2_nil.
Qed.

(** ** examples: the hypotheses are met *)
(** 0, 1.3, 2.9 and a missing value, doubled and shifted *)
Definition ex96 : list f64 := [ofZ 0; ofZ 13; fnan; ofZ 29].
Definition ex96' : list f64 := [ofZ 1; ofZ 27; fnan; ofZ 59].
Example C96_change_met : data_range ex96 (ofZ 0) (ofZ 29) /\ data_range ex96' (ofZ 1) (ofZ 59) /\ in_other_unit 2 1 0 ex96 ex96' /\ keeps_smallest (ofZ 0) /\ keeps_smallest (ofZ 1) /\
  (forall k, (1 <= k < Z.to_nat 2)%nat -> edge_err 0 29 + (2 * 0 + edge_err 1 59) / 2 < Rabs (13 - ideal_edge 0 29 2 k)).
Proof.
  assert (OZ : forall z, (Z.abs z <= 2 ^ 53)%Z -> f2R (ofZ z) = IZR z) by (intros z H; apply ofZ_spec; exact H).
  assert (FZ : forall z, (Z.abs z <= 2 ^ 53)%Z -> ffin (ofZ z) = true) by (intros z H; apply ofZ_spec; exact H).
  assert (BG : 128 <= bpow radix2 1022) by (change 128 with (bpow radix2 7); apply bpow_le; lia).
  assert (DRG : forall l lo hi, (forall v, In v l -> fisnan v = false -> exists z, v = ofZ z /\ (lo <= z <= hi)%Z) -> In (ofZ lo) l -> In (ofZ hi) l -> (0 <= lo)%Z -> (hi <= 100)%Z -> (lo <= hi)%Z -> data_range l (ofZ lo) (ofZ hi)).
  { intros l lo hi H I1 I2 B1 B2 B3. split.
    - intros v Hv F. destruct (H v Hv F) as (z & -> & Z). split; [apply FZ; lia|]. rewrite OZ by lia. rewrite Rabs_pos_eq by (apply IZR_le; lia). apply Rle_trans with 128; [apply IZR_le; lia|exact BG].
    - split; [exact I1|]. split; [exact I2|]. split; [apply FZ; lia|]. split; [apply FZ; lia|]. intros v Hv F. destruct (H v Hv F) as (z & -> & Z). rewrite !OZ by lia. split; apply IZR_le; lia. }
  split; [|split; [|split; [|split; [|split]]]].
  - apply DRG; [|cbn; auto|cbn; auto|lia|lia|lia]. intros v [<-|[<-|[<-|[<-|[]]]]] F; try discriminate F; eexists; (split; [reflexivity|lia]).
  - apply DRG; [|cbn; auto|cbn; auto|lia|lia|lia]. intros v [<-|[<-|[<-|[<-|[]]]]] F; try discriminate F; eexists; (split; [reflexivity|lia]).
  - unfold in_other_unit, ex96, ex96'. assert (G : forall x y, (0 <= x <= 100)%Z -> y = (2 * x + 1)%Z -> fisnan (ofZ x) = fisnan (ofZ y) /\ (fisnan (ofZ x) = false -> Rabs (f2R (ofZ y) - (2 * f2R (ofZ x) + 1)) <= 0)).
    { intros x y H ->. split; [rewrite !fin_not_nan by (apply FZ; lia); reflexivity|]. intros _. rewrite !OZ by lia. rewrite plus_IZR, mult_IZR. replace (_ - _) with 0 by ring. rewrite Rabs_R0. lra. }
    repeat (apply Forall2_cons; [first [apply G; lia | split; [reflexivity|discriminate]]|]). apply Forall2_nil.
  - unfold keeps_smallest. rewrite OZ by lia. lra.
  - unfold keeps_smallest. rewrite OZ by lia. lra.
  - intros k K. assert (k = 1)%nat as -> by (change (Z.to_nat 2) with 2%nat in K; lia). unfold ideal_edge, edge_err. rewrite Rabs_R0, (Rabs_pos_eq 29), (Rabs_pos_eq 1), (Rabs_pos_eq 59) by lra. rewrite Rabs_left by (simpl INR; lra). simpl INR. lra.
Qed.
Example C96_collapse_met : forall v, In v small -> fisnan v = false -> Rabs (f2R v) * 2 <= 24 / 10 ^ 16.
Proof.
  assert (G : forall z, (1 <= z <= 4)%Z -> Rabs (f2R (flit z (-60))) * 2 <= 24 / 10 ^ 16).
  { intros z Z. destruct (flit_spec z (-60)) as [E F]; try lia. rewrite E. change (bpow radix2 (-60)) with (/ 1152921504606846976). assert (1 <= IZR z <= 4) by (split; apply IZR_le; lia). rewrite Rabs_pos_eq by lra. lra. }
  intros v [<-|[<-|[<-|[<-|[]]]]] _; apply G; lia.
Qed.
Example C96_monotone_met : [3; 1; 2] <> [] /\ increasing_on exp [3; 1; 2].
Proof. split; [discriminate|]. intros u v _ _ H. apply exp_increasing; exact H. Qed.
Print Assumptions C96_quantile_monotone.
Print Assumptions C96_change_of_units.
Print Assumptions C96_small_units_collapse.
Print Assumptions C96_quantile_binary64_refuted.
