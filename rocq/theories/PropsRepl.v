(** C105: more data with the same distribution. *)
From Coq Require Import String ZArith List Bool Reals Lra Lia Psatz Sorting.Permutation FunctionalExtensionality.
From Verif Require Import F64 Base Cells BinModel HistModel SpecHist HistProofs FrameProofs RSum StatsModel SpecStats StatsProofs StatsProofs2 StatsProofs3 SpecSolver BivModel SpecBiv PropsStats PropsBiv PropsBiv2 Num PhikModel SpecPhik PhikProofs PhikMatProofs PropsPhik PropsPhik2 SpecBvn PropsBvn
  SimModel SigModel SpecSig SigProofs PropsSig PropsSig2 ReplProofs.
Import ListNotations.
Open Scope list_scope.
Open Scope R_scope.

Lemma div_le : forall a b c, 0 < c -> a <= b -> a / c <= b / c.
Proof. intros a b c C H. apply Rmult_le_compat_r; [left; apply Rinv_0_lt_compat; exact C|exact H]. Qed.

(** on a square grid, and on one with two bins on an axis, phik without noise correction is at least phik with it (up to the solver tolerance) *)
Theorem C105_noise_lowers : forall bq m v v', root_finder_ok bq -> nonneg_table m -> has_records m -> proper_shape m -> nr m = nc m \/ Nat.min (nr m) (nc m) = 2%nat ->
  let L := mkLib true bvn_prob bq in phik_from_hist2d L m true = Ok v -> phik_from_hist2d L m false = Ok v' -> v <= v' + 202 / 10 ^ 7.
Proof.
  intros bq m v v' BQ HN HR PS RG L E E'. destruct (phik_value bq m true v BQ HN HR PS RG E) as [V B]. destruct (phik_value bq m false v' BQ HN HR PS RG E') as [V' _].
  pose proof (largest_pos m HN HR PS) as MP. pose proof (noise_nonneg m true) as P.
  refine (compare (share m) _ _ _ v _ _ _ v' (share_mono m PS RG) MP MP P (noise_nonneg m false) (Rle_refl _) (div_le _ _ _ MP P) _ V V'). apply B.
Qed.

(** all counts multiplied by k >= 1 (every record repeated k times): phik does not fall, with or without noise correction, 2 x 2 tables (Yates' correction) included *)
Theorem C105_more_data : forall bq m k b v v', root_finder_ok bq -> nonneg_table m -> has_records m -> proper_shape m -> nr m = nc m \/ Nat.min (nr m) (nc m) = 2%nat -> 1 <= k ->
  let L := mkLib true bvn_prob bq in phik_from_hist2d L m b = Ok v -> phik_from_hist2d L (times k m) b = Ok v' -> v <= v' + 202 / 10 ^ 7.
Proof.
  intros bq m k b v v' BQ HN HR PS RG K L E E'. destruct (phik_value bq m b v BQ HN HR PS RG E) as [V B].
  pose proof (matsum_pos m HN HR) as MS. assert (HN' := times_nonneg k m ltac:(lra) HN). assert (HR' := times_records k m ltac:(lra) HR).
  destruct (phik_value bq (times k m) b v' BQ HN' HR' PS RG E') as [V' B']. pose proof (largest_pos m HN HR PS) as MP. change (share (times k m)) with (share m) in V'.
  assert (EM : largest (times k m) = k * largest m) by (unfold largest; rewrite times_matsum; cbn [nr nc times]; ring). rewrite EM in V', B'.
  assert (EP : noise_part (times k m) b = noise_part m b) by (unfold noise_part; rewrite times_ndof by lra; reflexivity). rewrite EP in V'.
  pose proof (times_stat m k HN HR K) as ST. pose proof (noise_nonneg m b) as P. assert (KM : 0 < k * largest m) by (apply Rmult_lt_0_compat; lra).
  refine (compare (share m) _ _ _ v _ _ _ v' (share_mono m PS RG) MP KM P P _ _ (proj2 B') V V').
  - replace (stat true Pearson m (nz_rows m) (nz_cols m) / largest m) with ((k * stat true Pearson m (nz_rows m) (nz_cols m)) / (k * largest m)) by (field; lra). apply div_le; assumption.
  - apply Rle_trans with (k * noise_part m b / (k * largest m)); [apply div_le; [exact KM|nra]|]. apply Req_le. field. lra.
Qed.

(** and with noise correction it tends to the phik without noise correction *)
Theorem C105_limit : forall bq m v0 eps, root_finder_ok bq -> nonneg_table m -> has_records m -> proper_shape m -> nr m = nc m \/ Nat.min (nr m) (nc m) = 2%nat -> ~ two_by_two m -> 0 < eps ->
  let L := mkLib true bvn_prob bq in phik_from_hist2d L m false = Ok v0 ->
  exists K, forall k v, K <= k -> 1 <= k -> phik_from_hist2d L (times k m) true = Ok v -> Rabs (v - v0) <= eps + 202 / 10 ^ 7.
Proof.
  intros bq m v0 eps BQ HN HR PS RG T2 EP L E0. destruct (phik_value bq m false v0 BQ HN HR PS RG E0) as [V0 B0]. pose proof (matsum_pos m HN HR) as MS. pose proof (largest_pos m HN HR PS) as MP.
  set (c := stat true Pearson m (nz_rows m) (nz_cols m)) in *. set (M := largest m) in *. set (g := share m) in *. set (p := noise_part m true). assert (P0 : 0 <= p) by apply noise_nonneg. change (noise_part m false) with 0 in V0.
  assert (VK : forall k v, 1 <= k -> phik_from_hist2d L (times k m) true = Ok v -> phik_is (k * c) p (k * M) g v /\ v <= v0 + 202 / 10 ^ 7).
  { intros k v K E. assert (HN' := times_nonneg k m ltac:(lra) HN). assert (HR' := times_records k m ltac:(lra) HR). destruct (phik_value bq (times k m) true v BQ HN' HR' PS RG E) as [V B].
    rewrite times_stat_exact in V by (assumption || lra). fold c in V. assert (EM : largest (times k m) = k * M) by (unfold M, largest; rewrite times_matsum; cbn [nr nc times]; ring). rewrite EM in V.
    assert (EN : noise_part (times k m) true = p) by (unfold noise_part; rewrite times_ndof by lra; reflexivity). rewrite EN in V. change (share (times k m)) with g in V. split; [exact V|].
    assert (KM : 0 < k * M) by (apply Rmult_lt_0_compat; lra). refine (compare g _ _ _ v _ _ _ v0 (share_mono m PS RG) KM MP P0 (Rle_refl 0) _ _ (proj2 B0) V V0).
    - apply Req_le. field. lra.
    - unfold Rdiv at 1. rewrite Rmult_0_l. apply Rmult_le_pos; [exact P0|left; apply Rinv_0_lt_compat; exact KM]. }
  destruct V0 as [[C0 ->]|[(_ & CM & ->)|((C0 & CM) & r0 & R0 & A0 & G0)]].
  - exists 1. intros k v _ K E. destruct (VK k v K E) as [V _]. assert (c = 0) by (destruct B0; lra). assert (k * c = 0) by (rewrite H; ring). destruct V as [[_ ->]|[(H1 & _)|((H1 & _) & _)]]; [|lra|lra]. rewrite Rminus_0_r, Rabs_R0. lra.
  - exists (p / M + 1). intros k v KK K E. destruct (VK k v K E) as [V _].
    assert (KM : p < k * M). { apply Rmult_lt_reg_r with (/ M); [apply Rinv_0_lt_compat; exact MP|]. replace (k * M * / M) with k by (field; lra). unfold Rdiv in KK. lra. }
    assert (KC : k * c = k * M) by (rewrite CM; reflexivity). destruct V as [[H1 _]|[(_ & _ & ->)|((_ & H1) & _)]]; [lra| |lra]. rewrite Rminus_diag_eq, Rabs_R0 by reflexivity. lra.
  - rewrite !Rminus_0_r in G0. apply abs_inv in A0. destruct (Rle_dec r0 eps) as [Q|Q].
    + exists 1. intros k v _ K E. destruct (VK k v K E) as [V U]. pose proof (phik_is_range _ _ _ _ _ V). apply Rabs_le. lra.
    + set (r := r0 - eps). set (d := g r0 - g r). assert (D : 0 < d). { unfold d. pose proof (share_mono m PS RG r r0 ltac:(unfold r; lra) ltac:(unfold r; lra) ltac:(lra)). fold g in H. lra. }
      exists (p / (M * d) + p / c + 1). intros k v KK K E. destruct (VK k v K E) as [V U].
      assert (MD : 0 < M * d) by (apply Rmult_lt_0_compat; assumption).
      assert (Q1 : 0 <= p / (M * d)) by (apply Rmult_le_pos; [exact P0|left; apply Rinv_0_lt_compat; exact MD]). assert (Q2 : 0 <= p / c) by (apply Rmult_le_pos; [exact P0|left; apply Rinv_0_lt_compat; lra]).
      assert (KC : p < k * c). { apply Rmult_lt_reg_r with (/ c); [apply Rinv_0_lt_compat; lra|]. replace (k * c * / c) with k by (field; lra). unfold Rdiv in *. lra. }
      assert (KD : p < k * M * d). { apply Rmult_lt_reg_r with (/ (M * d)); [apply Rinv_0_lt_compat; exact MD|]. replace (k * M * d * / (M * d)) with k by (field; split; lra). unfold Rdiv in *. lra. }
      assert (LT : k * c < k * M) by (apply Rmult_lt_compat_l; lra).
      destruct V as [[H1 _]|[(_ & H1 & _)|(_ & rr & RR & A & G)]]; [lra|lra|]. apply abs_inv in A.
      assert (LE : r <= rr).
      { apply Rnot_lt_le. intros X. pose proof (share_mono m PS RG rr r ltac:(lra) X ltac:(unfold r; lra)) as Y. fold g in Y. rewrite G in Y. assert (KM : 0 < k * M) by (apply Rmult_lt_0_compat; lra).
        assert (Z1 : (k * c - p) / (k * M) <= (k * c - p) / (k * M - p)). { apply Rmult_le_compat_l; [lra|]. apply Rinv_le_contravar; lra. }
        assert (Z2 : (k * c - p) / (k * M) = c / M - p / (k * M)) by (field; lra). assert (Z3 : p / (k * M) < d). { apply Rmult_lt_reg_r with (k * M); [exact KM|]. unfold Rdiv. rewrite Rmult_assoc, Rinv_l by lra. lra. }
        unfold d in Z3. lra. }
      apply Rabs_le. unfold r in LE. lra.
Qed.

(** the asymptotic p-value does not rise *)
Theorem C105_p_value : forall SL St multinomial randint libm_exp libm_log uninit ib0 fuel cpp clamp m k nsim l simm w s p z s1 p' z' s2, slib_ok SL -> nonneg_table m -> has_records m -> proper_shape m -> ~ two_by_two m -> 1 <= k ->
  let run := significance_from_hist2d SL St multinomial randint libm_exp libm_log uninit ib0 fuel cpp clamp in
  run m nsim l simm "asymptotic"%string w s = (Ok (Fin p, z), s1) -> run (times k m) nsim l simm "asymptotic"%string w s = (Ok (Fin p', z'), s2) -> p' <= p.
Proof.
  intros SL St mu ra le ll un ib0 fuel cpp clamp m k nsim l simm w s p z s1 p' z' s2 OK HN HR PS T2 K run E E'. unfold run in *.
  assert (HN' := times_nonneg k m ltac:(lra) HN). assert (HR' := times_records k m ltac:(lra) HR).
  destruct (C40_value _ _ _ _ _ _ _ _ _ _ _ _ _ _ _ _ _ _ _ _ _ OK PS E) as (c & EC & V & _). destruct (C40_value _ _ _ _ _ _ _ _ _ _ _ _ _ _ _ _ _ _ _ _ _ OK (PS : proper_shape (times k m)) E') as (c' & EC' & V' & _).
  destruct (V eq_refl) as [_ [A _]]. destruct (V' eq_refl) as [_ [A' _]]. cbn [nr nc times] in A'. rewrite get_chi2_closed in EC, EC' by assumption. injection EC as EC. injection EC' as EC'.
  rewrite times_stat_exact in EC' by (assumption || lra). rewrite EC in EC'. destruct OK as ((PR & _ & ONE & MO) & _). destruct PS as [P1 P2].
  assert (KK : 0 < (INR (nr m) - 1) * (INR (nc m) - 1)). { apply le_INR in P1. apply le_INR in P2. simpl in P1, P2. apply Rmult_lt_0_compat; lra. }
  destruct (Rle_dec c 0) as [C0|C0]; [|apply (MO c c' _ p p' ltac:(nra) (eq_sym A) (eq_sym A'))].
  rewrite (ONE c _ KK C0) in A. injection A as ->. destruct (PR c' _ KK) as (q & Q & QR). rewrite Q in A'. injection A' as ->. lra.
Qed.

(** * whole frames: every record k times, in any order *)
Definition each_k_times (k n : nat) (l : list nat) : Prop := Permutation l (concat (repeat (seq 0 n) k)).
Definition htimes (k : nat) (h : htable) : htable := mkH (h_rows h) (h_cols h) (map (map (Nat.mul k)) (h_cnt h)).

Lemma entry_htimes : forall k h i j, entry (htimes k h) i j = (k * entry h i j)%nat.
Proof.
  intros k h i j. unfold entry. cbn [htimes h_cnt]. change (@nil nat) with (map (Nat.mul k) []) at 1. rewrite map_nth. destruct (Nat.lt_ge_cases j (length (nth i (h_cnt h) []))) as [H|H].
  - rewrite (nth_indep _ 0%nat (k * 0)%nat) by (rewrite map_length; exact H). apply map_nth.
  - rewrite !nth_overflow by (rewrite ?map_length; exact H). lia.
Qed.
Lemma hmat_htimes : forall k h, hmat (htimes k h) = times (INR k) (hmat h).
Proof.
  intros k h. unfold hmat, times. cbn [htimes h_rows h_cols nr nc el]. f_equal. apply functional_extensionality. intros i. apply functional_extensionality. intros j.
  transitivity (INR (entry (htimes k h) i j)); [reflexivity|]. rewrite entry_htimes. apply mult_INR.
Qed.
Lemma count_if_concat : forall A (p : A -> bool) l k, count_if p (concat (repeat l k)) = (k * count_if p l)%nat.
Proof.
  intros A p l k. assert (AP : forall a b, count_if p (a ++ b) = (count_if p a + count_if p b)%nat) by (induction a as [|x a IH]; intros b; [reflexivity|]; cbn [app count_if]; rewrite IH; lia).
  induction k as [|k IH]; [reflexivity|]. cbn [repeat concat]. rewrite AP, IH. lia.
Qed.
Lemma in_concat_repeat : forall A (l : list A) k a, (1 <= k)%nat -> (In a (concat (repeat l k)) <-> In a l).
Proof.
  intros A l k a K. split.
  - intros H. apply in_concat in H. destruct H as (x & X & Y). apply repeat_spec in X. subst x. exact Y.
  - intros H. destruct k as [|k]; [lia|]. cbn [repeat concat]. apply in_or_app. left. exact H.
Qed.
Lemma sum_scale : forall k l, fold_right plus 0%nat (map (Nat.mul k) l) = (k * fold_right plus 0%nat l)%nat.
Proof. intros k l. induction l as [|a l IH]; cbn [map fold_right]; [lia|]. rewrite IH. lia. Qed.
Lemma total_htimes : forall k h, total (htimes k h) = (k * total h)%nat.
Proof. intros k h. unfold total. cbn [htimes h_cnt]. induction (h_cnt h) as [|row c IH]; cbn [map fold_right]; [lia|]. rewrite IH, sum_scale. lia. Qed.
Lemma table_times : forall seen recs h k, (1 <= k)%nat -> is_table_of seen recs h -> is_table_of seen (concat (repeat recs k)) (htimes k h).
Proof.
  intros seen recs h k K (A & B & C & D & E & F & G & H & I & J). unfold is_table_of. cbn [htimes h_rows h_cols h_cnt]. split; [|split; [|split; [exact C|split; [exact D|split; [|split; [|split; [|split; [|split]]]]]]]].
  - intros a. rewrite A. split; intros (r & b & R1 & R2); exists r, b; (split; [apply (in_concat_repeat _ recs k r K); exact R1|exact R2]).
  - intros b. rewrite B. split; intros (r & a & R1 & R2); exists r, a; (split; [apply (in_concat_repeat _ recs k r K); exact R1|exact R2]).
  - rewrite map_length. exact E.
  - intros row Hr. apply in_map_iff in Hr. destruct Hr as (r & <- & Hr). rewrite map_length. apply F. exact Hr.
  - intros i j Hi Hj. rewrite count_if_concat, <- G by assumption. apply entry_htimes.
  - intros i Hi. destruct (H i Hi) as (j & Hj & P). exists j. split; [exact Hj|]. rewrite entry_htimes. nia.
  - intros j Hj. destruct (I j Hj) as (i & Hi & P). exists i. split; [exact Hi|]. rewrite entry_htimes. nia.
  - rewrite total_htimes, count_if_concat, J. reflexivity.
Qed.
Lemma pick_concat : forall A (d : A) l k xs, pick d (concat (repeat l k)) xs = concat (repeat (pick d l xs) k).
Proof. intros A d l k xs. induction k as [|k IH]; [reflexivity|]. cbn [repeat concat]. unfold pick in *. rewrite map_app, IH. reflexivity. Qed.
Lemma pick_all : forall A (d : A) xs, pick d (seq 0 (length xs)) xs = xs.
Proof. intros A d xs. unfold pick. apply nth_ext with (d := d) (d' := d); rewrite map_length, seq_length; [reflexivity|]. intros i Hi. rewrite (nth_indep _ d (nth 0 xs d)) by (rewrite map_length, seq_length; exact Hi). rewrite (map_nth (fun i => nth i xs d) (seq 0 (length xs)) 0%nat i). rewrite seq_nth by exact Hi. reflexivity. Qed.

Theorem C105_records : forall bq f noise d u o n k l t t', root_finder_ok bq -> NoDup (keys f) -> rectangular n f -> (1 <= k)%nat -> each_k_times k n l ->
  let L := mkLib true bvn_prob bq in
  fst (phik_from_rebinned_df L f noise d u o) = Ok t -> fst (phik_from_rebinned_df L (reorder l f) noise d u o) = Ok t' ->
  t_index t' = t_index t /\ t_columns t' = t_columns t /\
  forall c0 x c1 y h, In (c0, x) f -> In (c1, y) f -> c0 <> c1 -> is_table_of (counted_as d u o) (combine (c_cells x) (c_cells y)) h ->
    (~ proper_shape (hmat h) -> tval t c0 c1 = NaN /\ tval t' c0 c1 = NaN) /\
    (proper_shape (hmat h) -> exists v v', tval t c0 c1 = Fin v /\ tval t' c0 c1 = Fin v' /\
       (nr (hmat h) = nc (hmat h) \/ Nat.min (nr (hmat h)) (nc (hmat h)) = 2%nat -> v <= v' + 202 / 10 ^ 7) /\
       (noise = false -> ~ two_by_two (hmat h) -> v' = v)).
Proof.
  intros bq f noise d u o n k l t t' BQ ND RE K EK L E E'. assert (LO : lib_ok L) by (split; [apply C81_contract|exact BQ]).
  pose proof (C31_phik_from_rebinned_df L f noise d u o LO ND) as S. rewrite E in S. assert (ND' : NoDup (keys (reorder l f))) by (rewrite keys_reorder; exact ND).
  pose proof (C31_phik_from_rebinned_df L (reorder l f) noise d u o LO ND') as S'. rewrite E' in S'.
  destruct S as (I1 & I2 & _ & _ & _ & V). destruct S' as (I1' & I2' & _ & _ & _ & V'). rewrite keys_reorder in I1', I2'. split; [congruence|]. split; [congruence|].
  intros c0 x c1 y h X Y NE HT. assert (LX : length (c_cells x) = n) by exact (RE _ X). assert (LY : length (c_cells y) = n) by exact (RE _ Y).
  assert (HT' : is_table_of (counted_as d u o) (combine (c_cells (rcol l x)) (c_cells (rcol l y))) (htimes k h)).
  { cbn [rcol c_cells]. rewrite pick_combine by (rewrite LX, LY; reflexivity). apply is_table_perm with (concat (repeat (combine (c_cells x) (c_cells y)) k)); [|apply table_times; assumption].
    assert (LN : n = length (combine (c_cells x) (c_cells y))) by (rewrite combine_length, LX, LY; symmetry; apply Nat.min_id).
    rewrite <- (pick_all _ (CNaN, CNaN) (combine (c_cells x) (c_cells y))) at 1. rewrite <- pick_concat, <- LN. unfold pick. apply Permutation_map. apply Permutation_sym. exact EK. }
  assert (X' : In (c0, rcol l x) (reorder l f)) by (rewrite reorder_map; apply in_map_iff; exists (c0, x); split; [reflexivity|exact X]).
  assert (Y' : In (c1, rcol l y) (reorder l f)) by (rewrite reorder_map; apply in_map_iff; exists (c1, y); split; [reflexivity|exact Y]).
  specialize (V c0 x c1 y h X Y NE HT). specialize (V' c0 _ c1 _ (htimes k h) X' Y' NE HT'). rewrite hmat_htimes in V'.
  split.
  - intros NP. destruct V as [[_ V]|[P _]]; [|contradiction]. destruct V' as [[_ V']|[P _]]; [|contradiction]. split; assumption.
  - intros PS. destruct V as [[P _]|(_ & v & P & T & _)]; [contradiction|]. destruct V' as [[P' _]|(_ & v' & P' & T' & _)]; [contradiction|]. exists v, v'. split; [exact T|]. split; [exact T'|].
    assert (HN : nonneg_table (hmat h)) by apply hmat_nonneg. assert (HR : has_records (hmat h)) by (eapply hmat_records; [exact HT|destruct PS; lia]). assert (KR : 1 <= INR k) by (apply (le_INR 1); exact K). split.
    + intros RG. exact (C105_more_data bq (hmat h) (INR k) noise v v' BQ HN HR PS RG KR P P').
    + intros -> T2. rewrite (C30_sample_size L (hmat h) (INR k) LO HN HR PS T2 ltac:(lra)) in P'. congruence.
Qed.

(** non-vacuity: the table of C81 lies strictly between pedestal and maximum; it is square and not 2 x 2 *)
Example C105_case : nonneg_table c81_table /\ has_records c81_table /\ proper_shape c81_table /\ nr c81_table = nc c81_table.
Proof. destruct C81_table_hypotheses as (A & B & C & _). repeat split; try assumption; apply C. Qed.
Example C105_each_twice : each_k_times 2 3 [2; 0; 1; 1; 0; 2]%nat.
Proof. unfold each_k_times. cbn. apply Permutation_sym. apply (Permutation_count_occ Nat.eq_dec). intros [|[|[|i]]]; reflexivity. Qed.
Print Assumptions C105_records.
Print Assumptions C105_limit.
