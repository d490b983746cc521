(** C99: the phik matrix in binary64 arithmetic, end to end. *)
From Coq Require Import String ZArith List Bool Reals Lra Lia Sorting.Permutation Sorting.Sorted FunctionalExtensionality.
From Verif Require Import F64 Base Cells BinModel HistModel SpecHist HistProofs RSum StatsModel SpecStats StatsProofs BinDataProofs PhikModel SpecPhik PairMatProofs PhikMatProofs PhikInvProofs OverviewProofs FrameProofs BrentFModel BrentFProofs Chi2FModel SpecChi2F Chi2FProofs Chi2FProofs2 Chi2FProofs3 LinspaceProofs PropsFloatPhik PropsChi2F PhikMatFModel SpecMatF PropsHist.
Import ListNotations Chi2FModel SpecChi2F.
Open Scope list_scope.

(** * the mean of one or two values *)
Lemma plus_zero : forall x, ffin x = true -> (Rabs (f2R x) <= 1)%R -> ffin (fplus fzero x) = true /\ f2R (fplus fzero x) = f2R x.
Proof.
  intros x F B. assert (E : (f2R fzero + f2R x = f2R x)%R) by (change (f2R fzero) with 0%R; lra).
  destruct (fplus_spec fzero x 0 eq_refl F ltac:(lia)) as [V G]; [rewrite E; exact B|]. rewrite E, rnd_id in V by apply fmt_B2R. auto.
Qed.
Lemma minus_zero : forall x, ffin x = true -> (Rabs (f2R x) <= 1)%R -> ffin (fminus x fzero) = true /\ f2R (fminus x fzero) = f2R x.
Proof.
  intros x F B. assert (E : (f2R x - f2R fzero = f2R x)%R) by (change (f2R fzero) with 0%R; lra).
  destruct (fminus_spec x fzero 0 F eq_refl ltac:(lia)) as [V G]; [rewrite E; exact B|]. rewrite E, rnd_id in V by apply fmt_B2R. auto.
Qed.
Lemma mean_one : forall comp x, ffin x = true -> (Rabs (f2R x) <= 1)%R -> same_number (fmean comp [x]) x.
Proof.
  intros comp x F B. unfold fmean. cbn [fold_left length Z.of_nat Pos.of_succ_nat].
  assert (Y : ffin (fst (sum_step comp (fzero, fzero) x)) = true /\ f2R (fst (sum_step comp (fzero, fzero) x)) = f2R x).
  { destruct comp; cbn [sum_step fst]; [|apply plus_zero; assumption]. destruct (minus_zero x F B) as [G1 G2]. destruct (plus_zero (fminus x fzero) G1) as [G3 G4]; [rewrite G2; exact B|].
    split; [exact G3|]. rewrite G4. exact G2. }
  destruct Y as [Y1 Y2]. set (y := fst (sum_step comp (fzero, fzero) x)) in *. clearbody y.
  destruct (ofZ_spec 1) as [O1 O2]; [simpl; lia|]. assert (E : (f2R y / f2R (ofZ 1) = f2R y)%R) by (rewrite O1; field).
  destruct (fdiv_spec y (ofZ 1) 0 Y1) as [V G]; [rewrite O1; lra|lia|rewrite E, Y2; exact B|]. rewrite E, rnd_id in V by apply fmt_B2R. repeat split; [exact G|exact F|]. rewrite V. exact Y2.
Qed.
Lemma mean_ones : forall comp, fmean comp [fone; fone] = fone.
Proof. intros [|]; apply BinarySingleNaN.B2SF_inj; vm_compute; reflexivity. Qed.

(** * the values of a group *)
Section Group.
  Variable G : (string * col) * (string * col) -> f64.
  Let row (pq : (string * col) * (string * col)) := (fst (fst pq), fst (snd pq), G pq).
  Definition matches (a b : string) (pq : (string * col) * (string * col)) : bool :=
    (String.eqb (fst (fst pq)) a && String.eqb (fst (snd pq)) b) || (String.eqb (fst (snd pq)) a && String.eqb (fst (fst pq)) b).
  Lemma group_ne : forall a b l, a <> b -> fgroup (flong (map row l)) a b = filter (fun v => negb (fisnan v)) (map G (filter (matches a b) l)).
  Proof.
    intros a b l N. unfold fgroup, flong. induction l as [|[[n0 x0] [n1 x1]] l IH]; [reflexivity|]. cbn [map flat_map row fst snd app].
    set (t := flat_map _ _) in *. cbn [filter fst snd]. change (matches a b (n0, x0, (n1, x1))) with ((String.eqb n0 a && String.eqb n1 b) || (String.eqb n1 a && String.eqb n0 b)).
    destruct (String.eqb_spec n0 a), (String.eqb_spec n1 b), (String.eqb_spec n1 a), (String.eqb_spec n0 b); try (exfalso; congruence); cbn [andb orb map filter];
      destruct (fisnan (G (n0, x0, (n1, x1)))) eqn:E; cbn [negb map snd]; rewrite ?IH, ?E; reflexivity.
  Qed.
  Lemma group_eq : forall a l, (forall pq, In pq l -> matches a a pq = true -> fisnan (G pq) = false) ->
    fgroup (flong (map row l)) a a = flat_map (fun pq => [G pq; G pq]) (filter (matches a a) l) \/ exists pq, In pq l /\ matches a a pq = true /\ (fst (fst pq) <> a \/ fst (snd pq) <> a).
  Proof.
    intros a l. induction l as [|[[n0 x0] [n1 x1]] l IH]; intros H; [left; reflexivity|].
    destruct IH as [IH|(pq & I & M)]; [intros pq I M; apply H; [right; exact I|exact M]| |right; exists pq; split; [right; exact I|exact M]].
    unfold fgroup, flong in *. cbn [map flat_map row fst snd app]. set (t := flat_map _ (map row l)) in *. cbn [filter fst snd].
    specialize (H ((n0, x0), (n1, x1)) (or_introl eq_refl)). unfold matches in *. cbn [fst snd] in *. destruct (String.eqb_spec n0 a), (String.eqb_spec n1 a); cbn [andb orb] in *.
    - left. rewrite (H eq_refl). cbn [negb map snd flat_map app]. rewrite IH. reflexivity.
    - left. exact IH.
    - left. exact IH.
    - left. exact IH.
  Qed.
  Lemma group_swap : forall a b l, fgroup (flong (map row l)) a b = fgroup (flong (map row l)) b a.
  Proof.
    intros a b l. unfold fgroup, flong. induction l as [|[[n0 x0] [n1 x1]] l IH]; [reflexivity|]. cbn [map flat_map row fst snd app]. set (t := flat_map _ _) in *. cbn [filter fst snd]. set (w := G _).
    destruct (String.eqb_spec n0 a), (String.eqb_spec n1 b), (String.eqb_spec n1 a), (String.eqb_spec n0 b); cbn [andb]; destruct (fisnan w); cbn [negb map snd]; rewrite ?IH; reflexivity.
  Qed.
End Group.
Lemma filter_single : forall (A : Type) (M : A -> bool) l x, NoDup l -> In x l -> M x = true -> (forall y, In y l -> M y = true -> y = x) -> filter M l = [x].
Proof.
  intros A M l x. induction l as [|a l IH]; intros N I E U; [destruct I|]. apply NoDup_cons_iff in N. destruct N as [N1 N2]. simpl. destruct (M a) eqn:Ma.
  - assert (a = x) by (apply U; [left; reflexivity|exact Ma]). subst a. f_equal. destruct (filter M l) as [|b k] eqn:F; [reflexivity|].
    assert (B : In b (filter M l)) by (rewrite F; left; reflexivity). apply filter_In in B. exfalso. apply N1. rewrite <- (U b (or_intror (proj1 B)) (proj2 B)). apply B.
  - destruct I as [-> |I]; [congruence|]. apply IH; try assumption. intros y Hy. apply U. right. exact Hy.
Qed.
Lemma combos_nodup : forall (A : Type) (l : list A), NoDup l -> NoDup (combos l).
Proof.
  intros A l. induction l as [|a l IH]; intros N; [constructor|]. apply NoDup_cons_iff in N. destruct N as [N1 N2]. cbn [combos].
  assert (X : forall k, NoDup k -> NoDup (map (fun b : A => (a, b)) k)).
  { intros k. induction k as [|b k IHk]; intros Nk; [constructor|]. apply NoDup_cons_iff in Nk. simpl. constructor; [|apply IHk; apply Nk]. rewrite in_map_iff. intros (c & E & I). injection E as ->. tauto. }
  assert (Y : forall (k k' : list (A * A)), NoDup k -> NoDup k' -> (forall p, In p k -> ~ In p k') -> NoDup (k ++ k')).
  { intros k k'. induction k as [|p k IHk]; intros Nk Nk' D; [exact Nk'|]. apply NoDup_cons_iff in Nk. simpl. constructor.
    - rewrite in_app_iff. intros [I|I]; [tauto|]. apply (D p (or_introl eq_refl) I).
    - apply IHk; [tauto|exact Nk'|]. intros q I. apply D. right. exact I. }
  apply Y; [apply X; constructor; assumption|apply IH; exact N2|]. intros [p q] I J. apply in_map_iff in I. destruct I as (b & E & _). injection E as <- _. apply combos_In in J. tauto.
Qed.
Lemma combos_pair : forall (f : frame) c0 x c1 y, pair_of f c0 x c1 y -> In ((c0, x), (c1, y)) (combos f).
Proof.
  intros f c0 x c1 y (l1 & l2 & l3 & ->). induction l1 as [|p l1 IH]; cbn [app combos]; apply in_app_iff.
  - left. apply in_map_iff. exists (c1, y). split; [reflexivity|]. right. apply in_app_iff. right. left. reflexivity.
  - right. exact IH.
Qed.
Lemma combos_pair_inv : forall (f : frame) c0 x c1 y, c0 <> c1 -> In ((c0, x), (c1, y)) (combos f) -> pair_of f c0 x c1 y.
Proof.
  intros f c0 x c1 y N. induction f as [|p f IH]; intros I; [destruct I|]. cbn [combos] in I. apply in_app_iff in I. destruct I as [I|I].
  - apply in_map_iff in I. destruct I as (q & E & I). injection E as -> ->. destruct I as [I|I]; [injection I as I _; congruence|]. apply in_split in I. destruct I as (l2 & l3 & ->). exists [], l2, l3. reflexivity.
  - destruct (IH I) as (l1 & l2 & l3 & ->). exists (p :: l1), l2, l3. reflexivity.
Qed.
Lemma pair_in : forall f c0 x c1 y, pair_of f c0 x c1 y -> In (c0, x) f /\ In (c1, y) f.
Proof. intros f c0 x c1 y (l1 & l2 & l3 & ->). split; apply in_app_iff; right; [left; reflexivity|]. right. apply in_app_iff. right. left. reflexivity. Qed.
Lemma pair_ne : forall f c0 x c1 y, NoDup (keys f) -> pair_of f c0 x c1 y -> c0 <> c1.
Proof.
  intros f c0 x c1 y N (l1 & l2 & l3 & ->) E. subst c1. unfold keys in N. rewrite map_app in N. cbn [map fst] in N. rewrite map_app in N. cbn [map fst] in N. apply NoDup_remove_2 in N. apply N. rewrite !in_app_iff. right. right. left. reflexivity.
Qed.
Lemma filter_pair : forall (f : frame) p q, NoDup (keys f) -> In (p, q) (combos f) -> fst p <> fst q -> filter (matches (fst p) (fst q)) (combos f) = [(p, q)].
Proof.
  intros f p q N I NE. pose proof (combos_In _ _ _ _ I) as [Hp Hq]. apply filter_single; [apply combos_nodup, nodup_keys, N|exact I|unfold matches; cbn [fst snd]; rewrite !String.eqb_refl; reflexivity|].
  intros [p' q'] I' M. pose proof (combos_In _ _ _ _ I') as [Hp' Hq']. unfold matches in M. cbn [fst snd] in M. apply orb_true_iff in M. destruct M as [M|M]; apply andb_true_iff in M; destruct M as [M1 M2]; apply String.eqb_eq in M1; apply String.eqb_eq in M2.
  - rewrite (keys_fun _ f p' p N Hp' Hp M1), (keys_fun _ f q' q N Hq' Hq M2). reflexivity.
  - assert (q' = p) by (apply (keys_fun _ f); assumption). assert (p' = q) by (apply (keys_fun _ f); assumption). subst. exfalso. apply NE. f_equal. apply (combos_asym _ f); [apply nodup_keys; exact N|exact I|exact I'].
Qed.
Lemma filter_diag : forall (f : frame) p, NoDup (keys f) -> In p f -> filter (matches (fst p) (fst p)) (combos f) = [(p, p)].
Proof.
  intros f p N Hp. apply filter_single; [apply combos_nodup, nodup_keys, N|destruct (combos_total _ f p p Hp Hp); assumption|unfold matches; cbn [fst snd]; rewrite !String.eqb_refl; reflexivity|].
  intros [p' q'] I' M. pose proof (combos_In _ _ _ _ I') as [Hp' Hq']. unfold matches in M. cbn [fst snd] in M. apply orb_true_iff in M. destruct M as [M|M]; apply andb_true_iff in M; destruct M as [M1 M2]; apply String.eqb_eq in M1; apply String.eqb_eq in M2;
    f_equal; apply (keys_fun _ f); assumption.
Qed.
Lemma fval_grid : forall (g : string -> string -> f64) l a b,
  fval (mkFT l l (map (fun a => map (fun b => g a b) l) l)) a b = if in_dec string_dec a l then if in_dec string_dec b l then g a b else fnan else fnan.
Proof.
  intros g l a b. unfold fval. cbn [ft_index ft_columns ft_cells]. destruct (in_dec string_dec a l) as [Ha|Ha].
  - destruct (pos_In a l Ha) as (i & Ei & Li & Ni). rewrite Ei. destruct (in_dec string_dec b l) as [Hb|Hb]; [|rewrite (pos_None b l Hb); reflexivity]. destruct (pos_In b l Hb) as (j & Ej & Lj & Nj). rewrite Ej.
    rewrite (nth_indep _ [] (map (fun b => g "" b) l)%string) by (rewrite map_length; exact Li). rewrite (map_nth (fun a => map (fun b => g a b) l)), Ni.
    rewrite (nth_indep _ fnan (g a ""%string)) by (rewrite map_length; exact Lj). rewrite (map_nth (fun b => g a b)), Nj. reflexivity.
  - rewrite (pos_None a l Ha). destruct (pos b l); reflexivity.
Qed.

(** * tables *)
Lemma matsum_total : forall seen recs h, is_table_of seen recs h -> matsum (hmat h) = INR (total h).
Proof.
  intros seen recs h (_ & _ & _ & _ & LC & LR & _). unfold matsum, rowsum, total. cbn [hmat nr nc el]. rewrite <- LC.
  rewrite (lsum_nth _ (fun row => lsum (fun j => INR (nth j row 0%nat)) (seq 0 (length (h_cols h)))) (h_cnt h) []).
  assert (X : forall k, (forall row, In row k -> length row = length (h_cols h)) -> lsum (fun row => lsum (fun j => INR (nth j row 0%nat)) (seq 0 (length (h_cols h)))) k = INR (fold_right (fun row s => (fold_right plus 0 row + s)%nat) 0%nat k)).
  { induction k as [|row k IH]; intros H; [reflexivity|]. rewrite lsum_cons. cbn [fold_right]. rewrite plus_INR, IH by (intros r I; apply H; right; exact I). f_equal.
    rewrite <- (H row (or_introl eq_refl)), (lsum_nth _ INR row 0%nat). clear. induction row as [|x row IH]; [reflexivity|]. rewrite lsum_cons, IH. cbn [fold_right]. rewrite plus_INR. reflexivity. }
  apply X. exact LR.
Qed.
Lemma count_if_le : forall (A : Type) (p : A -> bool) l, (count_if p l <= length l)%nat.
Proof. intros A p l. induction l as [|a l IH]; simpl; [lia|]. destruct (p a); lia. Qed.
Lemma total_le : forall seen recs h, is_table_of seen recs h -> (total h <= length recs)%nat.
Proof. intros seen recs h H. destruct H as (_ & _ & _ & _ & _ & _ & _ & _ & _ & T). rewrite T. apply count_if_le. Qed.
Lemma entry_le : forall seen recs h i j, is_table_of seen recs h -> (nth j (nth i (h_cnt h) []) 0 <= length recs)%nat.
Proof.
  intros seen recs h i j (_ & _ & _ & _ & LC & LR & EN & _). destruct (le_lt_dec (length (h_rows h)) i) as [Hi|Hi].
  - rewrite (nth_overflow (h_cnt h)) by lia. destruct j; simpl; lia.
  - destruct (le_lt_dec (length (h_cols h)) j) as [Hj|Hj].
    + rewrite nth_overflow; [lia|]. rewrite (LR (nth i (h_cnt h) [])); [exact Hj|apply nth_In; lia].
    + fold (entry h i j). rewrite (EN i j Hi Hj). apply count_if_le.
Qed.
Lemma real_hmat : forall seen recs h, is_table_of seen recs h -> (INR (length recs) <= 8796093022208)%R -> real_table (hmat64 h) = hmat h /\ count_table64 (hmat64 h).
Proof.
  intros seen recs h H B. assert (E : forall i j, f2R (fe (hmat64 h) i j) = el (hmat h) i j /\ ffin (fe (hmat64 h) i j) = true).
  { intros i j. cbn [hmat64 hmat fe el]. pose proof (entry_le seen recs h i j H) as L. set (k := nth j (nth i (h_cnt h) []) 0%nat) in *.
    assert (Z.of_nat (length recs) <= 8796093022208)%Z by (apply le_IZR; rewrite <- INR_IZR_INZ; exact B).
    destruct (ofZ_spec (Z.of_nat k)) as [V F]; [change (2 ^ 53)%Z with 9007199254740992%Z; lia|]. rewrite V, INR_IZR_INZ. auto. }
  split.
  - unfold real_table, hmat. cbn [fr fc hmat64]. f_equal. apply functional_extensionality. intros i. apply functional_extensionality. intros j. apply E.
  - intros i j _ _. split; [apply E|]. exists (nth j (nth i (h_cnt h) []) 0%nat). apply E.
Qed.

(** a table of a moderate frame: C89 applies *)
Lemma table_phik : forall add_up chi2_rho noise recs h seen kr kc, any_order add_up -> sane_for_all chi2_rho -> is_table_of seen recs h -> (INR (length recs) <= 8796093022208)%R ->
  (length kr <= 1024)%nat -> (length kc <= 1024)%nat -> (forall a, In a (h_rows h) -> In a kr) -> (forall a, In a (h_cols h) -> In a kc) -> proper_shape (hmat h) ->
  match phik_from_hist2d_64 add_up chi2_rho (hmat64 h) noise with
  | Ok r => unit_interval r
  | Raise RuntimeError => True
  | Raise ValueError => exists chi, get_chi2 true (hmat h) Pearson = Ok chi /\ (max_of (hmat h) * (1 - / 1125899906842624) - chi2_tol (hmat h) chi < chi)%R
  | Raise _ => False
  end.
Proof.
  intros add_up chi2_rho noise recs h seen kr kc AO SA HT HN LR LC IR IC PS. destruct (real_hmat seen recs h HT HN) as [RE CT].
  assert (DR : (length (h_rows h) <= 1024)%nat). { eapply Nat.le_trans; [|exact LR]. apply NoDup_incl_length; [apply ssorted_NoDup; apply HT|exact IR]. }
  assert (DC : (length (h_cols h) <= 1024)%nat). { eapply Nat.le_trans; [|exact LC]. apply NoDup_incl_length; [apply ssorted_NoDup; apply HT|exact IC]. }
  assert (TL : (matsum (hmat h) <= 8796093022208)%R). { rewrite (matsum_total _ _ _ HT). eapply Rle_trans; [apply le_INR, (total_le _ _ _ HT)|exact HN]. }
  assert (HR : has_records (real_table (hmat64 h))). { rewrite RE. eapply hmat_records; [exact HT|]. destruct PS; lia. }
  assert (KB : (INR (nr (hmat h) * nc (hmat h)) <= 1048576)%R).
  { replace 1048576%R with (INR (1024 * 1024)) by (rewrite mult_INR; simpl INR; lra). apply le_INR. cbn [hmat nr nc]. apply Nat.mul_le_mono; assumption. }
  assert (HM : moderate (real_table (hmat64 h))) by (rewrite RE; split; [lra|exact KB]).
  assert (MX : (max_of (real_table (hmat64 h)) <= 9007199254740992)%R).
  { rewrite RE. unfold max_of. cbn [hmat nr nc]. set (k := Z.min _ _). assert (K : (0 <= k <= 1023)%Z) by (unfold k; destruct PS as [P1 P2]; cbn [hmat nr nc] in P1, P2; lia).
    assert (IZR k <= 1023)%R by (apply IZR_le; lia). assert (0 <= IZR k)%R by (apply IZR_le; lia). assert (0 <= matsum (hmat h))%R by (rewrite (matsum_total _ _ _ HT); apply pos_INR).
    fold (hmat h). apply Rle_trans with (8796093022208 * 1023)%R; [apply Rmult_le_compat; assumption|lra]. }
  pose proof (records_one (hmat64 h) CT HR) as N1. destruct (ftot_val add_up AO (hmat64 h) CT (conj N1 (proj1 HM))) as [[FT _] VT].
  destruct (C89_phik_hist2d add_up chi2_rho (hmat64 h) noise AO CT HR HM (proj1 PS) (proj2 PS) MX) as (chi & c & M & p & E1 & E2 & E3 & E4 & E5 & E6).
  { apply SA; [exact FT|rewrite VT; split; [exact N1|rewrite RE; exact TL]|exact (proj1 PS)|exact (proj2 PS)]. }
  rewrite RE in E1, E3, E4, E5, E6. destruct (phik_from_hist2d_64 add_up chi2_rho (hmat64 h) noise) as [r|e]; [apply E6|]. destruct e; try exact E6. exists chi. split; [exact E1|]. rewrite E4 in E6. exact E6.
Qed.
(** Whatever the data: the matrix is labelled by the columns in order, symmetric to the last bit, exactly 1 on the diagonal, and off the diagonal it is the
    phik of the contingency table, a number in [0, 1], or NaN if the table is degenerate. An exception is brentq's or needs a table within rounding
    error of perfect association. *)
Theorem C99_rebinned : forall add_up chi2_rho comp f noise d u o, any_order add_up -> sane_for_all chi2_rho -> moderate_frame f -> NoDup (keys f) ->
  match phik_rebinned_64 add_up chi2_rho comp f noise d u o with
  | Ok t => matrix64_of add_up chi2_rho noise d u o f t
  | Raise RuntimeError => True
  | Raise ValueError => exists c0 x c1 y h chi, pair_of f c0 x c1 y /\ is_table_of (counted_as d u o) (combine (c_cells x) (c_cells y)) h /\ proper_shape (hmat h) /\
       get_chi2 true (hmat h) Pearson = Ok chi /\ (max_of (hmat h) * (1 - / 1125899906842624) - chi2_tol (hmat h) chi < chi)%R
  | Raise _ => False
  end.
Proof.
  intros add_up chi2_rho comp f noise d u o AO SA (n & HN & MF) ND. unfold phik_rebinned_64. set (f' := clean d u o f).
  assert (KF : keys f' = keys f) by apply keys_clean. assert (ND' : NoDup (keys f')) by (rewrite KF; exact ND).
  (* what one pair gives *)
  assert (PR : forall p q, In p f -> In q f -> let h := crosstab (combine (map (clean1 d u o) (c_cells (snd p))) (map (clean1 d u o) (c_cells (snd q)))) in
     is_table_of (counted_as d u o) (combine (c_cells (snd p)) (c_cells (snd q))) h /\
     (proper_shape (hmat h) -> match phik_from_hist2d_64 add_up chi2_rho (hmat64 h) noise with
       | Ok r => unit_interval r | Raise RuntimeError => True
       | Raise ValueError => exists chi, get_chi2 true (hmat h) Pearson = Ok chi /\ (max_of (hmat h) * (1 - / 1125899906842624) - chi2_tol (hmat h) chi < chi)%R
       | Raise _ => False end)).
  { intros [c0 x] [c1 y] Hp Hq h. cbn [snd] in *. assert (HT : is_table_of (counted_as d u o) (combine (c_cells x) (c_cells y)) h) by apply clean_table. split; [exact HT|]. intros PS.
    destruct (MF _ Hp) as (LX & kx & KX1 & KX2). destruct (MF _ Hq) as (LY & ky & KY1 & KY2). cbn [snd] in *.
    apply (table_phik add_up chi2_rho noise (combine (c_cells x) (c_cells y)) h (counted_as d u o) (map (clean1 d u o) kx) (map (clean1 d u o) ky)); try assumption; try (rewrite map_length; assumption).
    - rewrite combine_length, LX, LY, Nat.min_id. exact HN.
    - intros a Ha. apply in_rows in Ha. destruct Ha as ([r1 r2] & Hr & _ & <-). apply in_combine_l in Hr. apply in_map_iff in Hr. destruct Hr as (r & <- & Hr). cbn [fst]. apply in_map. apply KX2. exact Hr.
    - intros a Ha. apply in_cols in Ha. destruct Ha as ([r1 r2] & Hr & _ & <-). apply in_combine_r in Hr. apply in_map_iff in Hr. destruct Hr as (r & <- & Hr). cbn [snd]. apply in_map. apply KY2. exact Hr. }
  assert (PSD : forall h, is01 (length (h_rows h)) || is01 (length (h_cols h)) = false -> proper_shape (hmat h)).
  { intros h B. destruct (le_dec 2 (nr (hmat h))), (le_dec 2 (nc (hmat h))); try (split; assumption); exfalso; assert (X : ~ proper_shape (hmat h)) by (intros [? ?]; contradiction); apply is01_proper in X; congruence. }
  assert (EC : combos f' = map (fun pq => ((fst (fst pq), mkCol (c_num (snd (fst pq))) (map (clean1 d u o) (c_cells (snd (fst pq))))), (fst (snd pq), mkCol (c_num (snd (snd pq))) (map (clean1 d u o) (c_cells (snd (snd pq))))))) (combos f)).
  { unfold f', clean. rewrite combos_map. reflexivity. }
  destruct (mapM (fun pq => calc_phik_64 add_up chi2_rho noise (fst pq) (snd pq)) (combos f')) as [vals|e] eqn:EM; cbn [rbind].
  - set (G := fun pq : (string * col) * (string * col) => match calc_phik_64 add_up chi2_rho noise (fst pq) (snd pq) with Ok r => snd r | Raise _ => fnan end).
    assert (GV : forall pq, In pq (combos f') -> calc_phik_64 add_up chi2_rho noise (fst pq) (snd pq) = Ok (fst (fst pq), fst (snd pq), G pq)).
    { assert (AL : forall l vs, mapM (fun pq => calc_phik_64 add_up chi2_rho noise (fst pq) (snd pq)) l = Ok vs -> forall pq, In pq l -> exists v, calc_phik_64 add_up chi2_rho noise (fst pq) (snd pq) = Ok v).
      { intros l vs H. apply Base.mapM_ok in H. induction H as [|a b l vs H HS IH]; intros pq I; [destruct I|]. destruct I as [<- |I]; [exists b; exact H|apply IH; exact I]. }
      intros [[c0 x] [c1 y]] I. destruct (AL _ _ EM _ I) as (v & V). unfold G. cbn [fst snd] in *. rewrite V. unfold calc_phik_64 in V. destruct (String.eqb c0 c1); [injection V as <-; reflexivity|].
      destruct (_ || _); [injection V as <-; reflexivity|]. destruct (phik_from_hist2d_64 _ _ _ _); [|discriminate]. injection V as <-. reflexivity. }
    assert (EV : vals = map (fun pq => (fst (fst pq), fst (snd pq), G pq)) (combos f')).
    { rewrite (mapM_all_ok _ _ _ (fun pq => (fst (fst pq), fst (snd pq), G pq)) _ GV) in EM. congruence. }
    set (l := keys f') in *. set (t := mkFT l l _).
    assert (VAL : forall a b, fval t a b = if in_dec string_dec a l then if in_dec string_dec b l then fmean comp (fgroup (flong vals) a b) else fnan else fnan) by (intros a b; apply fval_grid).
    repeat split.
    + exact KF.
    + exact KF.
    + cbn [t ft_cells]. rewrite map_length, KF. unfold keys. apply map_length.
    + intros row H. cbn [t ft_cells] in H. apply in_map_iff in H. destruct H as (a & <- & _). rewrite map_length, KF. unfold keys. apply map_length.
    + intros a b. rewrite !VAL, EV, group_swap. destruct (in_dec string_dec a l), (in_dec string_dec b l); reflexivity.
    + intros a Ha. rewrite <- KF in Ha. fold l in Ha. rewrite VAL. destruct (in_dec string_dec a l); [|contradiction]. apply in_map_iff in Ha. destruct Ha as (p & <- & Hp).
      assert (HC : In (p, p) (combos f')) by (destruct (combos_total _ _ p p Hp Hp); assumption).
      assert (G1 : G (p, p) = fone). { unfold G. cbn [fst snd]. destruct p as [c x]. unfold calc_phik_64. rewrite String.eqb_refl. reflexivity. }
      rewrite EV. destruct (group_eq G (fst p) (combos f')) as [E|(pq & I & M & X)].
      * intros pq I M. assert (J : In pq (filter (matches (fst p) (fst p)) (combos f'))) by (apply filter_In; auto). rewrite (filter_diag f' p ND' Hp) in J. destruct J as [<- |[]]. rewrite G1. reflexivity.
      * rewrite E, (filter_diag f' p ND' Hp). cbn [flat_map app]. rewrite G1. apply mean_ones.
      * exfalso. assert (J : In pq (filter (matches (fst p) (fst p)) (combos f'))) by (apply filter_In; auto). rewrite (filter_diag f' p ND' Hp) in J. destruct J as [<- |[]]. cbn [fst snd] in X. tauto.
    + intros c0 x c1 y h HP HT. pose proof (pair_ne _ _ _ _ _ ND HP) as NE. destruct (pair_in _ _ _ _ _ HP) as [Hx Hy].
      set (p := (c0, mkCol (c_num x) (map (clean1 d u o) (c_cells x)))). set (q := (c1, mkCol (c_num y) (map (clean1 d u o) (c_cells y)))).
      assert (HC : In (p, q) (combos f')). { rewrite EC. apply in_map_iff. exists ((c0, x), (c1, y)). split; [reflexivity|apply combos_pair; exact HP]. }
      destruct (combos_In _ _ _ _ HC) as [Hp Hq].
      destruct (PR (c0, x) (c1, y) Hx Hy) as [HT2 PV]. cbn [snd] in HT2, PV. rewrite (is_table_unique _ _ _ _ HT HT2). set (h2 := crosstab _) in *.
      assert (TV : fval t c0 c1 = fmean comp (filter (fun v => negb (fisnan v)) [G (p, q)])).
      { rewrite VAL. destruct (in_dec string_dec c0 l) as [_|N]; [|exfalso; apply N; apply (in_map fst _ p Hp)]. destruct (in_dec string_dec c1 l) as [_|N]; [|exfalso; apply N; apply (in_map fst _ q Hq)].
        rewrite EV, group_ne by exact NE. change c0 with (fst p). change c1 with (fst q). rewrite (filter_pair f' p q ND' HC NE). reflexivity. }
      pose proof (GV _ HC) as V. cbn [fst snd] in V. unfold calc_phik_64 in V. unfold p, q in V. rewrite (proj2 (String.eqb_neq _ _) NE) in V. fold p q in V. cbn [c_cells] in V. fold h2 in V.
      destruct (is01 (length (h_rows h2)) || is01 (length (h_cols h2))) eqn:B.
      * left. split; [apply is01_proper; exact B|]. injection V as V. rewrite TV, <- V. reflexivity.
      * right. split; [apply PSD; exact B|]. specialize (PV (PSD _ B)). destruct (phik_from_hist2d_64 add_up chi2_rho (hmat64 h2) noise) as [v|e]; [|discriminate]. cbn [rbind] in V. injection V as V. exists v.
        split; [reflexivity|]. split; [|exact PV]. rewrite TV, <- V. destruct PV as [FV UV]. cbn [filter]. rewrite (fin_not_nan v FV). cbn [negb]. apply mean_one; [exact FV|]. rewrite Rabs_pos_eq; apply UV.
  - apply mapM_raise in EM. destruct EM as (pq' & I & E). rewrite EC in I. apply in_map_iff in I. destruct I as ([[c0 x] [c1 y]] & <- & I). cbn [fst snd] in E. unfold calc_phik_64 in E. cbn [c_cells] in E.
    destruct (String.eqb_spec c0 c1) as [|NE]; [discriminate|]. destruct (combos_In _ _ _ _ I) as [Hx Hy]. destruct (PR _ _ Hx Hy) as [HT PV]. cbn [snd] in HT, PV. set (h := crosstab _) in *.
    destruct (is01 (length (h_rows h)) || is01 (length (h_cols h))) eqn:B; [discriminate|]. specialize (PV (PSD _ B)). destruct (phik_from_hist2d_64 _ _ _ _) as [v|e2]; [discriminate|]. cbn [rbind] in E. injection E as <-.
    destruct e2; try exact PV. destruct PV as (chi & P1 & P2). exists c0, x, c1, y, h, chi. split; [apply combos_pair_inv; assumption|]. split; [exact HT|]. split; [apply PSD; exact B|]. split; assumption.
Qed.
Print Assumptions C99_rebinned.

(** phik_matrix itself: after the check of the columns and the binning of the interval columns (whose errors pass through) *)
Theorem C99_matrix : forall npq add_up chi2_rho comp df interval_cols bins q noise d u o, any_order add_up -> sane_for_all chi2_rho -> NoDup (keys df) ->
  let ic := match interval_cols with Some l => l | None => guess_interval_cols df end in
  let survives (p : string * col) := Nat.leb 2 (nunique (snd p)) || (Nat.eqb (nunique (snd p)) 1 && negb d && negb (mem (fst p) ic)) in
  let kept := filter survives df in
  let binned := bin_data npq kept (filter (fun c => mem c (keys kept)) ic) bins q in
  match phik_matrix_64 add_up chi2_rho comp npq df interval_cols bins q noise d u o with
  | Ok t => exists f dict, binned = Ok (f, dict) /\ keys f = keys kept /\ (moderate_frame f -> matrix64_of add_up chi2_rho noise d u o f t)
  | Raise e => binned = Raise e \/ exists f dict, binned = Ok (f, dict) /\ (moderate_frame f -> e = RuntimeError \/
      (e = ValueError /\ exists c0 x c1 y h chi, pair_of f c0 x c1 y /\ is_table_of (counted_as d u o) (combine (c_cells x) (c_cells y)) h /\ proper_shape (hmat h) /\
         get_chi2 true (hmat h) Pearson = Ok chi /\ (max_of (hmat h) * (1 - / 1125899906842624) - chi2_tol (hmat h) chi < chi)%R))
  end.
Proof.
  intros npq add_up chi2_rho comp df icol bins q noise d u o AO SA N ic survives kept binned. unfold phik_matrix_64. fold ic. destruct (dq_nunique_spec df ic d N) as [E1 E2]. fold survives in E1, E2. fold kept in E1, E2.
  destruct (dq_check_nunique_values df ic d) as [cdf ic'] eqn:E. cbn [fst snd] in E1, E2. subst cdf ic'. fold binned. destruct binned as [[f dict]|e] eqn:B; cbn [rbind fst]; [|left; reflexivity].
  unfold binned in B. pose proof (bin_data_spec _ _ _ _ _ _ _ B) as (K & _). assert (NF : NoDup (keys f)) by (rewrite K; apply nodup_keys_filter; exact N).
  pose proof (fun MF => C99_rebinned add_up chi2_rho comp f noise d u o AO SA MF NF) as H. destruct (phik_rebinned_64 add_up chi2_rho comp f noise d u o) as [t|e].
  - exists f, dict. split; [reflexivity|]. split; [exact K|exact H].
  - right. exists f, dict. split; [reflexivity|]. intros MF. specialize (H MF). destruct e; try contradiction; [right; split; [reflexivity|exact H]|left; reflexivity] || (left; reflexivity) || (right; split; [reflexivity|exact H]).
Qed.
Print Assumptions C99_matrix.

(** The order of the records does not change a single bit. *)
Theorem C99_record_order : forall npq add_up chi2_rho comp df interval_cols bins q noise d u o n l, order_free npq -> rectangular n df -> Permutation l (seq 0 n) ->
  phik_matrix_64 add_up chi2_rho comp npq (reorder l df) interval_cols bins q noise d u o = phik_matrix_64 add_up chi2_rho comp npq df interval_cols bins q noise d u o.
Proof.
  intros npq add_up chi2_rho comp df ic bins q noise d u o n l OF R P. unfold phik_matrix_64. rewrite (guess_reorder l). set (ic0 := match ic with Some x => x | None => guess_interval_cols df end).
  rewrite (dq_reorder n l P) by exact R. destruct (dq_check_nunique_values df ic0 d) as [cdf ic'] eqn:E. cbn [fst snd].
  assert (R' : rectangular n cdf) by (pose proof (rect_dq n df ic0 d R) as X; rewrite E in X; exact X).
  rewrite (bin_data_reorder npq OF n l P) by exact R'. destruct (bin_data npq cdf ic' bins q) as [[b dict]|] eqn:E2; [|reflexivity]. cbn [rmap rbind fst snd].
  assert (RB : rectangular n b) by (eapply bin_data_rect; eassumption). unfold phik_rebinned_64.
  assert (KE : keys (clean d u o (reorder l b)) = keys (clean d u o b)) by (rewrite !keys_clean; unfold reorder, keys; rewrite map_map; reflexivity). rewrite KE.
  assert (ME : mapM (fun pq => calc_phik_64 add_up chi2_rho noise (fst pq) (snd pq)) (combos (clean d u o (reorder l b))) = mapM (fun pq => calc_phik_64 add_up chi2_rho noise (fst pq) (snd pq)) (combos (clean d u o b))).
  { unfold clean, reorder. rewrite map_map, !combos_map, !mapM_map_in. apply mapM_ext. intros [[c0 x] [c1 y]] I. destruct (combos_In _ _ _ _ I) as [Hp Hq]. cbn [fst snd c_cells c_num]. unfold calc_phik_64.
    destruct (String.eqb c0 c1); [reflexivity|]. cbn [c_cells].
    assert (C : crosstab (combine (map (clean1 d u o) (map (fun i => nth i (c_cells x) CNaN) l)) (map (clean1 d u o) (map (fun i => nth i (c_cells y) CNaN) l))) = crosstab (combine (map (clean1 d u o) (c_cells x)) (map (clean1 d u o) (c_cells y)))).
    { apply crosstab_perm. pose proof (RB _ Hp) as LX. pose proof (RB _ Hq) as LY. cbn [snd] in LX, LY.
      change (map (fun i => nth i (c_cells x) CNaN) l) with (pick CNaN l (c_cells x)). change (map (fun i => nth i (c_cells y) CNaN) l) with (pick CNaN l (c_cells y)).
      rewrite <- !(pick_map_in _ _ (clean1 d u o) CNaN CNaN) by (intros i Hi; apply (in_l n l P) in Hi; rewrite LX || rewrite LY; exact Hi).
      rewrite pick_combine by (rewrite !map_length, LX, LY; reflexivity). apply pick_perm. rewrite combine_length, !map_length, LX, LY, Nat.min_id. exact P. }
    rewrite C. reflexivity. }
  rewrite ME. reflexivity.
Qed.
Print Assumptions C99_record_order.

(** The order of the columns can change the last bit of phik: the table is transposed and scipy adds up its terms in another order. *)
Definition f99 : frame := [("a", mkCol false [CStr "p"; CStr "p"; CStr "q"; CStr "q"; CStr "q"]); ("b", mkCol false [CStr "2"; CStr "3"; CStr "1"; CStr "3"; CStr "3"])]%string.
Definition square_rho (n : f64) (r c : nat) (x : f64) : f64 := fmult x x.
Theorem C99_column_order_bits : any_order in_turn /\ sane_for_all square_rho /\ moderate_frame f99 /\ NoDup (keys f99) /\
  match phik_rebinned_64 in_turn square_rho true f99 false true true true, phik_rebinned_64 in_turn square_rho true (rev f99) false true true true with
  | Ok t, Ok t' => negb (fisnan (fval t "a" "b")) && negb (feqb (fval t "a" "b") (fval t' "a" "b")) && negb (fisnan (fval t' "a" "b"))
  | _, _ => false
  end%string = true.
Proof.
  split; [exact in_turn_ok|]. split.
  { intros n r c _ _ _ _. unfold sane, square_rho. destruct BrentFProofs.fone_val as [OV OF]. split; [apply BinarySingleNaN.B2SF_inj; vm_compute; reflexivity|].
    assert (X : forall x, unit_interval x -> ffin (fmult x x) = true /\ (0 <= f2R (fmult x x) <= 1)%R).
    { intros x [Fx [X0 X1]]. destruct (fmult_spec x x 0 Fx Fx ltac:(lia)) as [V G].
      - rewrite Rabs_pos_eq by (apply Rmult_le_pos; exact X0). change (b2 0) with 1%R. replace 1%R with (1 * 1)%R by lra. apply Rmult_le_compat; assumption.
      - split; [exact G|]. rewrite V. split; [apply rnd_lb; [apply (fmt_IZR 0); simpl; lia|apply Rmult_le_pos; exact X0]|apply rnd_ub; [apply (fmt_IZR 1); simpl; lia|]]. replace 1%R with (1 * 1)%R by lra. apply Rmult_le_compat; assumption. }
    split.
    - assert (U : f2R (fmult fone fone) = 1%R). { destruct (fmult_spec fone fone 0 OF OF ltac:(lia)) as [V _]; rewrite OV, Rmult_1_l in *; [rewrite Rabs_R1; change (b2 0) with 1%R; lra|]. rewrite V. apply rnd_id, (fmt_IZR 1). simpl. lia. }
      rewrite U. change 1%R with (b2 0). apply Flocq.Core.Raux.bpow_le; lia.
    - intros x Hx. destruct (X x Hx) as [G1 G2]. split; [exact G1|]. split; [apply G2|]. apply Rle_trans with 1%R; [apply G2|]. change 1%R with (b2 0). apply Flocq.Core.Raux.bpow_le; lia. }
  split.
  { exists 5%nat. split; [simpl; lra|]. intros p [<- |[<- |[]]]; (split; [reflexivity|]); cbn [snd c_cells]; eexists; (split; [|intros c Hc; exact Hc]); simpl; lia. }
  split; [repeat constructor; simpl; intuition congruence|]. vm_compute. reflexivity.
Qed.
Print Assumptions C99_column_order_bits.
